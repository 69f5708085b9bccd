(** Property C62: what the authenticator signs is accepted by relying parties that follow the standards; and the
    PIN protocols agree with platforms that do.  The primitives are those of the library
    (api/crypto/software_crypto.rs), on a machine of 64 bits; only Ed25519 is abstract. *)
From Verif Require Import Base Facts Hid.Model U2f.Model Cbor.Model Cbor.Spec Ctap.Crypto Ctap.Types Ctap.Machine
  Ctap.Commands Ctap.Parse Ctap.System Ctap.Logic Ctap.History Ctap.Track Ctap.Pin Ctap.PinChange
  Ctap.MinPin Ctap.TokenSpec Ctap.Token Ctap.Success Ctap.Auth Ctap.Gate Ctap.Answers Ctap.TokenUse
  Ctap.Creds Ctap.Enum Ctap.NoPanic Ctap.Enumerate Ctap.Reset Ctap.Keys Ctap.Protect Ctap.Seal Ctap.Stored Ctap.Sealed
  Ctap.Toy Ctap.ToyMore Ctap.PropsToken Ctap.PropsEnum Ctap.PropsCreds Ctap.PropsEnumerate Ctap.PropsSeal Ctap.PropsProtect
  Ctap.PropsSoftware.
From Verif Require Int.Model Int.Spec Int.Props Hash.Model Hash.Spec Hash.Props Point.Model Point.Spec
  Sign.Model Sign.Spec Sign.Proofs Sign.Rfc Sign.Refuted Sign.Props Aes.Proofs.
From Coq Require Import List Lia ZArith.
Import ListNotations.
Open Scope list_scope.
Open Scope Z_scope.
Ltac Zify.zify_post_hook ::= idtac.
Notation big_endian := Int.Spec.big_endian.
Notation value := Int.Spec.value.
Notation is_int256 := Int.Spec.is_int256.
Notation mult := Point.Spec.mult.
Notation G := Point.Spec.G.
Notation Affine := Point.Spec.Affine.
Notation Infinity := Point.Spec.Infinity.
Notation n := Int.Spec.n.

(** ** The primitives *)

(** ecdsa.rs 141-147: SecKey::from_bytes; None if the bytes are no key. *)
Definition scalar (b : bytes) : option Int.Model.int256 :=
  match Int.Model.nonzero_checked (Int.Model.from_bin (fit 32 b)) with Some (Some d) => Some d | _ => None end.
(** software_crypto.rs 118-121, data_formats.rs 755-767: the public key. *)
Definition ec_pub (b : bytes) : bytes * bytes :=
  match scalar b with
  | Some d => match Sign.Model.genpk d with Some Q => Sign.Model.to_coordinates Q | None => ([], []) end
  | None => ([], [])
  end.
(** software_crypto.rs 123-126, 166-168: sign and to_der, with at most [fuel] candidates for the nonce; no bytes if they
    do not suffice, where the code would go on, or if the key is no key, where the callers return an error. *)
Definition ec_sign (fuel : nat) (b m : bytes) : bytes :=
  match scalar b with
  | Some d => match Sign.Model.sign_rfc6979 64 fuel d m with
              | Some (Some g) => Int.Model.to_asn1_der g
              | _ => []
              end
  | None => []
  end.
(** software_crypto.rs 75-78. *)
Definition ec_on_curve (xy : bytes * bytes) : bool :=
  match Sign.Model.from_coordinates (fit 32 (fst xy)) (fit 32 (snd xy)) with Some (Some _) => true | _ => false end.
(** software_crypto.rs 65-68. *)
Definition ec_shared (b : bytes) (xy : bytes * bytes) : bytes :=
  match scalar b, Sign.Model.from_coordinates (fit 32 (fst xy)) (fit 32 (snd xy)) with
  | Some d, Some (Some Q) => match Sign.Model.exchange_x d Q with Some z => z | None => [] end
  | _, _ => []
  end.
Definition library (fuel : nat) (rest : prims) : prims :=
  let s := software rest in {|
  sha256 := sha256 s; hmac := hmac s; hkdf := hkdf s; hkdf_empty_salt := hkdf_empty_salt s;
  aes_enc := aes_enc s; aes_dec := aes_dec s;
  ecdh_pub := ec_pub; ecdh_on_curve := ec_on_curve; ecdh_shared := ec_shared;
  ecdsa_valid := fun b => match scalar b with Some _ => true | None => false end;
  sign := fun k m => match pk_alg k with Es256 => ec_sign fuel (pk_bytes k) m | Eddsa => sign rest k m end;
  pub_of := fun k => match pk_alg k with
                     | Es256 => mkCose (fst (ec_pub (pk_bytes k))) (snd (ec_pub (pk_bytes k))) (-7) 2 1
                     | Eddsa => pub_of rest k
                     end |}.
Lemma library_ok fuel rest : prims_ok (library fuel rest).
Proof. destruct (C56_software rest). constructor; assumption. Qed.

(** ** Relying parties *)

(** SEC 1, 4.1.4 with SHA-256 and the DER encoding: the signature of the message is accepted for the public key
    with these coordinates, which is a point of the curve. *)
Definition accepted (x y msg sig : bytes) : Prop :=
  length x = 32%nat /\ length y = 32%nat /\ Point.Spec.valid (Affine (big_endian x) (big_endian y)) /\
  exists h r s, Hash.Spec.is_sha256 msg h /\ Int.Spec.der_signature r s sig /\
    Sign.Spec.verifies (Affine (big_endian x) (big_endian y)) (big_endian h) r s.

Lemma scalar_spec b d : scalar b = Some d -> is_int256 d /\ 0 < value d < n /\ value d = big_endian (fit 32 b).
Proof.
  unfold scalar. destruct (fit_ok 32 b) as (L & F).
  assert (O : bytes_ok (fit 32 b) = true) by (apply (blk_bytes 32), fit_ok).
  destruct (Int.Props.C46_bytes_in _ L O) as (I & V & _). rewrite (Int.Props.nonzero_checked_spec _ I).
  destruct ((0 <? _) && (_ <? n)) eqn:E; [|discriminate]. intros H. injection H as <-. rewrite Bool.andb_true_iff, !Z.ltb_lt in E.
  split; [exact I|]. split; [exact E|exact V].
Qed.
Lemma pub_spec b d : scalar b = Some d ->
  exists x y, ec_pub b = (x, y) /\ length x = 32%nat /\ length y = 32%nat /\ bytes_ok x = true /\ bytes_ok y = true /\
    mult (value d) G = Affine (big_endian x) (big_endian y) /\ Point.Spec.valid (Affine (big_endian x) (big_endian y)).
Proof.
  intros E. unfold ec_pub. rewrite E. destruct (scalar_spec b d E) as (I & B & _).
  destruct (Sign.Props.C59_public_key d I B) as (Q & -> & (Ix & Iy & C) & V & N). unfold Sign.Model.to_coordinates.
  destruct (Int.Props.C46_bytes_out _ Ix) as (Lx & Ox & Vx & _). destruct (Int.Props.C46_bytes_out _ Iy) as (Ly & Oy & Vy & _).
  eexists _, _. split; [reflexivity|]. do 4 (split; [assumption|]). rewrite Vx, Vy.
  destruct (mult (value d) G) as [|x y]; [contradiction|]. cbn [Point.Spec.coordinates] in C. injection C as -> ->. split; [reflexivity|exact V].
Qed.
Lemma der_not_empty g : Int.Model.to_asn1_der g <> [].
Proof. discriminate. Qed.

(** Signatures by one key. *)
Lemma key_accepted fuel rest k m : pk_alg k = Es256 -> (8 * Nlen m < 2 ^ 64)%N -> sign (library fuel rest) k m <> [] ->
  accepted (cx (pub_of (library fuel rest) k)) (cy (pub_of (library fuel rest) k)) m (sign (library fuel rest) k m).
Proof.
  intros A L. cbn [library sign pub_of]. rewrite A. cbn [cx cy]. unfold ec_sign. destruct (scalar (pk_bytes k)) as [d|] eqn:E; [|congruence].
  destruct (pub_spec _ _ E) as (x & y & -> & Lx & Ly & _ & _ & EG & V). cbn [fst snd]. destruct (scalar_spec _ _ E) as (I & B & _).
  assert (L' : (Nlen m < 2 ^ 64)%N). { clear - L. lia. }
  destruct (Sign.Props.C59_public_key d I B) as (Q & EQ & _).
  destruct (Sign.Props.C59_sign_rfc6979 64 Sign.Refuted.sha ltac:(discriminate) Sign.Refuted.sha_256 fuel d m Q I B (conj L' L) EQ) as (o & -> & H).
  destruct o as [g|]; [|congruence]. intros _. destruct (H g eq_refl) as (Sg & V' & _). split; [exact Lx|]. split; [exact Ly|]. split; [exact V|].
  exists (Sign.Refuted.sha m), (value (Int.Model.sig_r g)), (value (Int.Model.sig_s g)). split; [exact (Sign.Refuted.sha_256 m L)|].
  split; [exact (proj1 (Int.Props.C52_der g Sg))|]. rewrite EG in V'. exact V'.
Qed.

(** The map of a COSE key (RFC 8152, sections 7 and 13.1) for ES256. *)
Definition cose_es256 (x y : bytes) : Cbor.Model.value :=
  VMap [(VUnsigned 1, VUnsigned 2); (VUnsigned 3, VNegative (-7)); (VNegative (-1), VUnsigned 1);
        (VNegative (-2), VBytes x); (VNegative (-3), VBytes y)].
Lemma pub_cose fuel rest k : pk_alg k = Es256 ->
  cose_to_cbor (pub_of (library fuel rest) k) = cose_es256 (cx (pub_of (library fuel rest) k)) (cy (pub_of (library fuel rest) k)).
Proof. intros A. cbn [library pub_of]. rewrite A. cbn [cx cy]. generalize (fst (ec_pub (pk_bytes k))), (snd (ec_pub (pk_bytes k))). intros x y. reflexivity. Qed.

(** ** C62 *)

(** A registration of a credential for ES256 that is not discoverable reports its ID and a public key in COSE; in any later
    history without reset, an assertion that lists the ID and succeeds has a signature that is accepted for that public
    key, unless more than [fuel] candidates for its nonce are needed. *)
Theorem C62_registered : forall fuel rest e h1 b cid p mr w1 q,
  e_prims e = library fuel rest ->
  cfg_ok (e_cfg e) -> rnd_ok e ->
  bytes_ok b = true -> parse_command (e_cfg e) b = Ok (CMakeCredential p) -> mc_rk p = false ->
  find (supported e) (mc_algs p) = Some q -> cp_alg q = Some Es256 ->
  run_op e (OpMessage b (MainHid cid)) (run e h1) = (OutCtap (Ok (RMakeCredential mr)), w1) ->
  exists id x y pub, registration_reports e mr id pub /\ cbor_write (cose_es256 x y) = Some pub /\
    forall h2 b2 cid2 p2 d g w3,
      let h := h1 ++ (OpMessage b (MainHid cid), None) :: h2 in
      no_reset e h2 -> byte_ops h ->
      parse_command (e_cfg e) b2 = Ok (CGetAssertion p2) -> ga_allow p2 = Some [d] -> de_id d = id ->
      run_op e (OpMessage b2 (MainHid cid2)) (run e h) = (OutCtap (Ok (RGetAssertion g)), w3) ->
      (8 * Nlen (gr_auth_data g ++ ga_cdh p2) < 2 ^ 64)%N -> gr_sig g <> [] ->
      accepted x y (gr_auth_data g ++ ga_cdh p2) (gr_sig g).
Proof.
  intros fuel rest e h1 b cid p mr w1 q P C R Ob Hx Hr Hq Ha H. pose proof (library_ok fuel rest) as K. rewrite <- P in K.
  destruct (C30_usable e h1 b cid p mr w1 C K R Ob Hx Hr H) as (id & k & pub & Rp & _ & W & (q' & Hq' & Ha') & U).
  rewrite Hq in Hq'. injection Hq' as <-. rewrite Ha in Ha'. injection Ha' as Ak. symmetry in Ak.
  rewrite P, (pub_cose fuel rest k Ak) in W. eexists id, _, _, pub. split; [exact Rp|]. split; [exact W|].
  intros h2 b2 cid2 p2 d g w3 h N B Hx2 Hl Hd H2 L Ns. destruct (U h2 b2 cid2 p2 [d] _ w3 N B Hx2 Hl H2) as (_ & U2).
  destruct (U2 ltac:(cbn [map]; rewrite Hd; reflexivity) _ eq_refl) as (_ & g' & Eg & _ & Es). injection Eg as <-. rewrite Es, P in *.
  apply key_accepted; assumption.
Qed.
Print Assumptions C62_registered.

(** The same for CTAP1: a registration reports a point, and an authentication signs for it. *)
Theorem C62_u2f : forall fuel rest e h1 b c a r w1,
  e_prims e = library fuel rest -> cfg_ok (e_cfg e) -> rnd_ok e ->
  bytes_ok b = true -> u2f_parse b = Ok (U2fRegister c a) ->
  run_op e (OpU2f b) (run e h1) = (OutU2f (Ok r), w1) ->
  exists kh x y rest', r = [5%N] ++ (4%N :: x ++ y) ++ [Nlen kh] ++ kh ++ rest' /\
    forall h2 b2 c2 a2 fl r2 w3,
      no_reset e h2 ->
      u2f_parse b2 = Ok (U2fAuthenticate c2 a2 kh fl) ->
      run_op e (OpU2f b2) (run e (h1 ++ (OpU2f b, None) :: h2)) = (OutU2f (Ok r2), w3) ->
      exists counter sg, length counter = 4%nat /\ r2 = 1%N :: counter ++ sg /\
        ((8 * Nlen (a ++ 1%N :: counter ++ c2) < 2 ^ 64)%N -> sg <> [] -> accepted x y (a ++ 1%N :: counter ++ c2) sg).
Proof.
  intros fuel rest e h1 b c a r w1 P C R Ob Hx H. pose proof (library_ok fuel rest) as K. rewrite <- P in K.
  destruct (C30_u2f e h1 b c a r w1 C K R Ob Hx H) as (kh & k & rest' & Er & _ & Ak & U). eexists kh, _, _, rest'. split; [exact Er|].
  intros h2 b2 c2 a2 fl r2 w3 N Hx2 H2. destruct (U h2 b2 c2 a2 fl r2 w3 N Hx2 H2) as (_ & counter & Lc & E2).
  exists counter, (sign (e_prims e) k (a ++ 1%N :: counter ++ c2)). split; [exact Lc|]. split; [exact E2|]. rewrite P. intros L Ns.
  apply key_accepted; assumption.
Qed.
Print Assumptions C62_u2f.

(** Every assertion with an ES256 credential, discoverable or not, is accepted for the public key of the credential, which
    is the one that its registration (C28_register, C62_registered) and the enumeration of credentials report. *)
Theorem C62_assertion : forall fuel rest e h b cid p g w',
  e_prims e = library fuel rest ->
  parse_command (e_cfg e) b = Ok (CGetAssertion p) ->
  run_op e (OpMessage b (MainHid cid)) (run e h) = (OutCtap (Ok (RGetAssertion g)), w') ->
  exists k pol, holds e (creds (run e h)) w' (ga_rp p) (gr_id g) k pol /\
    (pk_alg k = Es256 ->
     cose_to_cbor (pub_of (e_prims e) k) = cose_es256 (cx (pub_of (e_prims e) k)) (cy (pub_of (e_prims e) k)) /\
     ((8 * Nlen (gr_auth_data g ++ ga_cdh p) < 2 ^ 64)%N -> gr_sig g <> [] ->
      accepted (cx (pub_of (e_prims e) k)) (cy (pub_of (e_prims e) k)) (gr_auth_data g ++ ga_cdh p) (gr_sig g))).
Proof.
  intros fuel rest e h b cid p g w' P Hx H. pose proof (library_ok fuel rest) as K. rewrite <- P in K.
  destruct (C35_assertion e h b cid p g w' K Hx H) as (k & pol & Hh & Es & _). exists k, pol. split; [exact Hh|]. intros A. rewrite Es, P.
  split; [apply pub_cose; exact A|]. intros L Ns. apply key_accepted; assumption.
Qed.
Print Assumptions C62_assertion.

(** ** The PIN protocols *)

(** A platform with the private key [b] computes the secret that the authenticator with the key [a] does: from the public
    keys that they exchange both derive the same session, for both protocols; it is derived from the x coordinate of the
    point a b G.  The coordinate x of neither key may be zero (C60_from_coordinates_refuted). *)
Theorem C60_pin_protocols_partial : forall fuel rest a b da db proto,
  let c := library fuel rest in
  scalar a = Some da -> scalar b = Some db ->
  big_endian (cx (cose_of_ecdh c a)) <> 0 -> big_endian (cx (cose_of_ecdh c b)) <> 0 ->
  exists z x y, decapsulate c a (cose_of_ecdh c b) proto = Ok (shared_new c proto z) /\
    decapsulate c b (cose_of_ecdh c a) proto = Ok (shared_new c proto z) /\
    length z = 32%nat /\ mult (value da * value db) G = Affine x y /\ big_endian z = x.
Proof.
  intros fuel rest a b da db proto c Ea Eb Na Nb.
  destruct (scalar_spec _ _ Ea) as (Ia & Ba & _). destruct (scalar_spec _ _ Eb) as (Ib & Bb & _).
  destruct (Sign.Props.C59_public_key da Ia Ba) as (A & EA & HA & _). destruct (Sign.Props.C59_public_key db Ib Bb) as (B & EB & HB & _).
  assert (X : forall s d Q, scalar s = Some d -> Sign.Model.genpk d = Some Q -> is_int256 d -> 0 < value d < n -> big_endian (cx (cose_of_ecdh c s)) <> 0 ->
    cose_of_ecdh c s = mkCose (fst (Sign.Model.to_coordinates Q)) (snd (Sign.Model.to_coordinates Q)) (-25) 2 1 /\
    Sign.Model.from_coordinates (fit 32 (fst (Sign.Model.to_coordinates Q))) (fit 32 (snd (Sign.Model.to_coordinates Q))) = Some (Some Q)).
  { intros s d Q Es EQ I Bd Nz. assert (Ec : cose_of_ecdh c s = mkCose (fst (Sign.Model.to_coordinates Q)) (snd (Sign.Model.to_coordinates Q)) (-25) 2 1).
    { unfold cose_of_ecdh, c. cbn [library ecdh_pub]. unfold ec_pub. rewrite Es, EQ. reflexivity. }
    split; [exact Ec|]. rewrite Ec in Nz. cbn [cx] in Nz. destruct (Sign.Props.C59_public_key d I Bd) as (Q' & EQ' & (Ix & Iy & _) & _).
    assert (Q' = Q) as -> by congruence. unfold Sign.Model.to_coordinates in *. cbn [fst snd] in *.
    destruct (Int.Props.C46_bytes_out _ Ix) as (Lx & Ox & Vx & _). destruct (Int.Props.C46_bytes_out _ Iy) as (Ly & Oy & _ & _). rewrite Vx in Nz.
    rewrite !fit_id by (apply blk_bytes; split; assumption).
    exact (Sign.Props.C60_public_key_travels_partial d Q I Bd EQ Nz). }
  destruct (X a da A Ea EA Ia Ba Na) as (CA & FA). destruct (X b db B Eb EB Ib Bb Nb) as (CB & FB). rewrite CA, CB.
  destruct (Sign.Props.C60_agreement da db A B Ia Ba Ib Bb EA EB) as (z & x & y & E1 & E2 & Lz & M & V). exists z, x, y.
  assert (D : forall s d Q' U z', scalar s = Some d -> Sign.Model.from_coordinates (fit 32 (fst U)) (fit 32 (snd U)) = Some (Some Q') ->
    Sign.Model.exchange_x d Q' = Some z' -> decapsulate c s (mkCose (fst U) (snd U) (-25) 2 1) proto = Ok (shared_new c proto z')).
  { intros s d Q' [u v] z' Es F Ex. cbn [fst snd] in *. unfold decapsulate.
    assert (ecdh_coordinates (mkCose u v (-25) 2 1) = Ok (u, v)) as -> by reflexivity. unfold c. cbn [rbind library ecdh_on_curve ecdh_shared].
    unfold ec_on_curve, ec_shared. cbn [fst snd]. rewrite Es, F, Ex. reflexivity. }
  split; [exact (D a da B (Sign.Model.to_coordinates B) z Ea FB E1)|]. split; [exact (D b db A (Sign.Model.to_coordinates A) z Eb FA E2)|].
  split; [exact Lz|]. split; [exact M|exact V].
Qed.
Print Assumptions C60_pin_protocols_partial.

(** A device with these primitives: registration and authentication with CTAP1, and an assertion of CTAP2 with the key
    handle.  Only the points and signatures are left uncomputed. *)
Definition shape (rest : prims) (pubf : bytes -> bytes * bytes) (on : bytes * bytes -> bool)
  (sh : bytes -> bytes * bytes -> bytes) (signf : bytes -> bytes -> bytes) : prims :=
  let s := software rest in {|
  sha256 := sha256 s; hmac := hmac s; hkdf := hkdf s; hkdf_empty_salt := hkdf_empty_salt s;
  aes_enc := aes_enc s; aes_dec := aes_dec s;
  ecdh_pub := pubf; ecdh_on_curve := on; ecdh_shared := sh;
  ecdsa_valid := fun b => match scalar b with Some _ => true | None => false end;
  sign := fun k m => match pk_alg k with Es256 => signf (pk_bytes k) m | Eddsa => sign rest k m end;
  pub_of := fun k => match pk_alg k with
                     | Es256 => mkCose (fst (pubf (pk_bytes k))) (snd (pubf (pk_bytes k))) (-7) 2 1
                     | Eddsa => pub_of rest k
                     end |}.
Lemma library_shape fuel rest : library fuel rest = shape rest ec_pub ec_on_curve ec_shared (ec_sign fuel).
Proof. reflexivity. Qed.
Definition device (c : prims) : env := mkEnv c toy_cfg toy_rnd (fun _ => (UpConfirmed, 1000%N)) (fun _ => None).
Definition app : bytes := Eval vm_compute in sha256 (software toy_prims) toy_rp.
Definition reg_msg : bytes := Eval vm_compute in [0; 1; 0; 0; 0; 0; 64]%N ++ cdh0 ++ app ++ [0; 0]%N.
Definition h_reg : history :=
  [(OpVendor ch0 (Some (repeat 7%N 32, [9; 9]%N)) None, None); (OpU2f reg_msg, None); (OpTouch, None)].
Definition new_kh : bytes := Eval vm_compute in
  let e := device (shape toy_prims (fun _ => (repeat 0%N 32, repeat 0%N 32)) (fun _ => true) (fun _ _ => []) (fun _ _ => [])) in
  match fst (run_op e (OpU2f reg_msg) (run e h_reg)) with OutU2f (Ok r) => firstn 241 (skipn 67 r) | _ => [] end.
Definition auth_msg : bytes := Eval vm_compute in
  let data := cdh0 ++ app ++ [N.of_nat (length new_kh)] ++ new_kh in
  [0; 2; 3; 0; 0]%N ++ be_bytes 2 (N.of_nat (length data)) ++ data ++ [0; 0]%N.
Definition h_after : history := h_reg ++ [(OpU2f reg_msg, None); (OpU2f reg_msg, None); (OpTouch, None)].
Definition signed (o : outcome) : option (bytes * bytes) :=
  match o with OutCtap (Ok (RGetAssertion g)) => Some (gr_id g, gr_sig g) | _ => None end.

Definition u2f_ok (o : outcome) : bool := match o with OutU2f (Ok _) => true | _ => false end.

Lemma runs rest pubf on sh signf :
  let e := device (shape rest pubf on sh signf) in
  u2f_ok (fst (run_op e (OpU2f reg_msg) (run e h_reg))) = true /\
  u2f_ok (fst (run_op e (OpU2f auth_msg) (run e h_after))) = true /\
  exists k m, signed (fst (run_op e (OpMessage (ga_list_msg toy_rp [new_kh] None) ch0) (run e h_after))) = Some (new_kh, signf k m) /\
    match scalar k with Some _ => true | None => false end = true.
Proof.
  cbv zeta. split; [vm_compute; reflexivity|]. split; [vm_compute; reflexivity|]. do 2 eexists. split; [vm_compute; reflexivity|].
  vm_compute. reflexivity.
Qed.
Lemma scalar_one : exists d, scalar (repeat 0%N 31 ++ [1%N]) = Some d /\ value d = 1.
Proof. eexists. split; vm_compute; reflexivity. Qed.

Lemma ga_parsed : exists p, parse_command toy_cfg (ga_list_msg toy_rp [new_kh] None) = Ok (CGetAssertion p).
Proof. eexists. vm_compute. reflexivity. Qed.

Example C62_nonvacuous : forall fuel rest, let e := device (library fuel rest) in
  cfg_ok (e_cfg e) /\ rnd_ok e /\ bytes_ok reg_msg = true /\
  u2f_parse reg_msg = Ok (U2fRegister cdh0 app) /\ u2f_parse auth_msg = Ok (U2fAuthenticate cdh0 app new_kh EnforceUpAndSign) /\
  (exists r w1, run_op e (OpU2f reg_msg) (run e h_reg) = (OutU2f (Ok r), w1)) /\
  (exists r w1, run_op e (OpU2f auth_msg) (run e h_after) = (OutU2f (Ok r), w1)) /\
  (exists p g w1, parse_command (e_cfg e) (ga_list_msg toy_rp [new_kh] None) = Ok (CGetAssertion p) /\
    run_op e (OpMessage (ga_list_msg toy_rp [new_kh] None) ch0) (run e h_after) = (OutCtap (Ok (RGetAssertion g)), w1)) /\
  (* The generator is the public key of 1. *)
  (exists d, scalar (repeat 0%N 31 ++ [1%N]) = Some d /\ big_endian (cx (cose_of_ecdh (library fuel rest) (repeat 0%N 31 ++ [1%N]))) <> 0).
Proof.
  intros fuel rest e. destruct (runs rest ec_pub ec_on_curve ec_shared (ec_sign fuel)) as (R1 & R2 & k & m & R3 & _).
  rewrite <- library_shape in R1, R2, R3. fold e in R1, R2, R3. split; [exact toy_cfg_ok|]. split; [exact toy_rnd_ok|].
  split; [reflexivity|]. split; [vm_compute; reflexivity|]. split; [vm_compute; reflexivity|]. split; [|split; [|split]].
  - clear - R1. destruct (run_op e (OpU2f reg_msg) (run e h_reg)) as [o w1]. cbn [fst] in R1. destruct o as [|[r|]|]; try discriminate R1. exists r, w1. reflexivity.
  - clear - R2. destruct (run_op e (OpU2f auth_msg) (run e h_after)) as [o w1]. cbn [fst] in R2. destruct o as [|[r|]|]; try discriminate R2. exists r, w1. reflexivity.
  - destruct ga_parsed as (p & Hp). exists p. clear - R3 Hp. destruct (run_op e (OpMessage (ga_list_msg toy_rp [new_kh] None) ch0) (run e h_after)) as [o w1]. cbn [fst] in R3.
    destruct o as [[[]|]| |]; try discriminate R3. eexists _, w1. split; [exact Hp|reflexivity].
  - destruct scalar_one as (d & E & V). exists d. split; [exact E|]. destruct (scalar_spec _ _ E) as (I & B & _).
    destruct (Sign.Props.C59_public_key d I B) as (Q & EQ & HQ & _). rewrite V in HQ.
    unfold cose_of_ecdh. cbn [library ecdh_pub]. unfold ec_pub. rewrite E, EQ. clear - HQ. rewrite Sign.Refuted.G_coordinates in HQ.
    destruct HQ as (Ix & _ & H). unfold Point.Spec.coordinates in H. unfold Sign.Model.to_coordinates. cbn [cx].
    destruct (Int.Props.C46_bytes_out _ Ix) as (_ & _ & -> & _). injection H as -> _. discriminate.
Qed.
