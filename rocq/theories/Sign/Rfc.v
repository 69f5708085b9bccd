(** The nonces of RFC 6979 and the loops around try_sign. *)
From Verif Require Import Base Facts Int.Model Point.Model Sign.Model Sign.Proofs.
From Verif Require Int.Spec Int.Proofs Int.Props Hash.Model Hash.Spec Hash.Props Prime.Props Point.Spec Sign.Spec.
From Coq Require Import Lia Znumtheory.
Open Scope Z_scope.
Ltac Zify.zify_post_hook ::= idtac.

Lemma big_endian_be (l : bytes) : Int.Spec.big_endian l = Z.of_N (of_be l).
Proof.
  induction l as [|x l IH]; [reflexivity|]. cbn [Int.Spec.big_endian]. rewrite of_be_cons, IH, N2Z.inj_add, N2Z.inj_mul, N2Z.inj_pow. f_equal. f_equal.
  rewrite nat_N_Z. change (Z.of_N 256) with (2 ^ 8). rewrite <- Z.pow_mul_r by lia. reflexivity.
Qed.
Lemma to_bin_octets x : is_int256 x -> to_bin x = Spec.int2octets (value x).
Proof.
  intros Ix. destruct (Int.Props.C46_bytes_out x Ix) as (L & O & V & _). unfold Spec.int2octets. rewrite <- V, big_endian_be, N2Z.id.
  rewrite <- L. symmetry. apply be_bytes_of_be. exact O.
Qed.
Lemma sha_ok (m d : bytes) : Hash.Spec.is_sha256 m d -> length d = 32%nat /\ bytes_ok d = true.
Proof.
  intros H. split; [exact (Hash.Props.is_sha256_len m d H)|]. destruct H as (q & Hs & k & _ & _ & _ & _ & ->).
  generalize (seq 0 8). induction l as [|j l IH]; [reflexivity|]. cbn [flat_map]. unfold bytes_ok in *. rewrite forallb_app. rewrite IH, andb_true_r. apply be_bytes_ok.
Qed.

Section Sha.
Variable width : N.
Variable sha256 : bytes -> bytes.
Hypothesis width_ok : (32 <= width)%N.
Hypothesis sha256_ok : forall m, (8 * Nlen m < 2 ^ 64)%N -> Hash.Spec.is_sha256 m (sha256 m).
Notation HMAC := (Hash.Spec.HMAC sha256).

Lemma hash_ok (m : bytes) : (Nlen m < 2 ^ width)%N -> (8 * Nlen m < 2 ^ 64)%N -> Hash.Model.hash width m = Some (sha256 m).
Proof.
  intros H1 H2. unfold Hash.Model.hash. assert (E : concat [m] = m) by apply app_nil_r.
  destruct (Hash.Props.C44_streaming width [m]) as (d & -> & Sd); [rewrite E; exact H1|rewrite E; exact H2|]. rewrite E in Sd. f_equal.
  exact (Hash.Props.C44_unique m _ _ Sd (sha256_ok m H2)).
Qed.
Lemma hmac_facts (k t : bytes) : length k = 32%nat -> (length t <= 97)%nat ->
  Hash.Model.hmac width k t = Some (HMAC k t) /\ length (HMAC k t) = 32%nat /\ bytes_ok (HMAC k t) = true.
Proof.
  intros Lk Lt. assert (Ht : (Nlen t <= 97)%N) by (unfold Nlen; lia).
  destruct (Hash.Props.C45_hmac width sha256 width_ok sha256_ok k t Lk) as (E & _).
  { eapply N.le_lt_trans; [exact Ht|reflexivity]. }
  split; [exact E|]. unfold Hash.Spec.HMAC. set (inner := sha256 (Hash.Spec.xor (Hash.Spec.pad_key sha256 k) Hash.Spec.ipad ++ t)). apply (sha_ok ((Hash.Spec.xor (Hash.Spec.pad_key sha256 k) Hash.Spec.opad) ++ inner)).
  apply sha256_ok.
  assert (Li : length inner = 32%nat).
  { unfold inner. apply (Hash.Props.is_sha256_len (Hash.Spec.xor (Hash.Spec.pad_key sha256 k) Hash.Spec.ipad ++ t)). apply sha256_ok.
    unfold Nlen. rewrite app_length. unfold Hash.Spec.xor. rewrite map_length, combine_length.
    assert (length Hash.Spec.ipad = 64%nat) by apply repeat_length. change (2 ^ 64)%N with 18446744073709551616%N. lia. }
  unfold Nlen. rewrite app_length, Li. unfold Hash.Spec.xor. rewrite map_length, combine_length.
  assert (length Hash.Spec.opad = 64%nat) by apply repeat_length. change (2 ^ 64)%N with 18446744073709551616%N. lia.
Qed.

(** ** The state *)
Definition good (s : rfc6979) : Prop := length (rfc_k s) = 32%nat /\ length (rfc_v s) = 32%nat.
Lemma octets_length x : length (Spec.int2octets x) = 32%nat.
Proof. apply be_bytes_length. Qed.
Lemma rfc_new_spec d (msg : bytes) : is_int256 d -> (Nlen msg < 2 ^ width)%N -> (8 * Nlen msg < 2 ^ 64)%N ->
  exists s, rfc_new width d msg = Some s /\ good s /\
    (rfc_k s, rfc_v s) = Spec.rfc_start HMAC (value d) (Int.Spec.big_endian (sha256 msg)).
Proof.
  intros Id H1 H2. unfold rfc_new. rewrite (hash_ok msg H1 H2).
  destruct (sha_ok msg _ (sha256_ok msg H2)) as (Lh & Oh).
  destruct (Int.Props.C46_bytes_in (sha256 msg) Lh Oh) as (Ih & Vh & _).
  destruct (modn_spec _ Ih) as (h & Eh & Ihh & Vhh). unfold modn in Eh. rewrite Eh. rewrite (to_bin_octets d Id), (to_bin_octets h Ihh), Vhh, Vh.
  cbv zeta. unfold Spec.rfc_start. set (secrets := Spec.int2octets (value d) ++ Spec.int2octets (Int.Spec.big_endian (sha256 msg) mod n)).
  assert (Ls : length secrets = 64%nat) by (unfold secrets; rewrite app_length, !octets_length; reflexivity). clearbody secrets.
  assert (Lt : forall (V : bytes) b, length V = 32%nat -> length (V ++ [b] ++ secrets) = 97%nat).
  { intros V b LV. rewrite !app_length, LV, Ls. reflexivity. }
  set (V0 := repeat 1%N 32). set (K0 := repeat 0%N 32).
  assert (LV0 : length V0 = 32%nat) by apply repeat_length. assert (LK0 : length K0 = 32%nat) by apply repeat_length.
  clearbody V0 K0.
  destruct (hmac_facts K0 (V0 ++ [0%N] ++ secrets) LK0 ltac:(rewrite Lt by assumption; lia)) as (E1 & LK1 & _). rewrite E1. clear E1.
  set (K1 := HMAC K0 _) in *.
  destruct (hmac_facts K1 V0 LK1 ltac:(lia)) as (E2 & LV1 & _). rewrite E2. clear E2. set (V1 := HMAC K1 V0) in *.
  destruct (hmac_facts K1 (V1 ++ [1%N] ++ secrets) LK1 ltac:(rewrite Lt by assumption; lia)) as (E3 & LK2 & _). rewrite E3. clear E3. set (K2 := HMAC K1 (V1 ++ _)) in *.
  destruct (hmac_facts K2 V1 LK2 ltac:(lia)) as (E4 & LV2 & _). rewrite E4. clear E4. set (V2 := HMAC K2 V1) in *.
  exists (mkRfc K2 V2). split; [reflexivity|]. split; [split; [exact LK2|exact LV2]|]. reflexivity.
Qed.
Lemma rfc_next_spec s : good s -> exists s', rfc_next width s = Some (from_bin (fst (Spec.rfc_candidate HMAC (rfc_k s, rfc_v s))), s') /\ good s' /\
  (rfc_k s' = HMAC (rfc_k s) (rfc_v s ++ [0%N]) /\ rfc_v s' = HMAC (rfc_k s') (rfc_v s)) /\
  is_int256 (from_bin (HMAC (rfc_k s) (rfc_v s))) /\ value (from_bin (HMAC (rfc_k s) (rfc_v s))) = Int.Spec.big_endian (HMAC (rfc_k s) (rfc_v s)).
Proof.
  intros (Lk & Lv). unfold rfc_next. destruct (hmac_facts (rfc_k s) (rfc_v s) Lk ltac:(lia)) as (-> & Lt & Ot).
  destruct (hmac_facts (rfc_k s) (rfc_v s ++ [0%N]) Lk ltac:(rewrite app_length; cbn [length]; lia)) as (-> & Lk' & _).
  destruct (hmac_facts (HMAC (rfc_k s) (rfc_v s ++ [0%N])) (rfc_v s) Lk' ltac:(lia)) as (-> & Lv' & _).
  eexists. split; [reflexivity|]. split; [split; assumption|]. split; [split; reflexivity|]. destruct (Int.Props.C46_bytes_in _ Lt Ot) as (I & V & _). split; assumption.
Qed.
Lemma nonzero_checked_spec x : is_int256 x ->
  nonzero_checked x = Some (if (0 <? value x) && (value x <? n) then Some x else None).
Proof.
  intros Ix. destruct constants as (IN & VN & _). unfold nonzero_checked. destruct (Int.Props.C46_compare x c_N Ix IN) as (-> & -> & _). rewrite VN.
  pose proof (proj1 (int_bound x Ix)) as B. f_equal. destruct (Z.eqb_spec (value x) 0) as [->|N]; [rewrite andb_false_r; reflexivity|].
  replace (0 <? value x) with true by (symmetry; apply Z.ltb_lt; lia). rewrite andb_true_r. reflexivity.
Qed.

(** ** The loops *)
Definition pair_of (o : option signature) : option (Z * Z) :=
  match o with Some g => Some (value (sig_r g), value (sig_s g)) | None => None end.
Definition ints (o : option signature) : Prop := forall g, o = Some g -> is_int256 (sig_r g) /\ is_int256 (sig_s g).
Lemma first_skip d e k ks o : Spec.refused d e k -> Spec.first_signature d e ks o -> Spec.first_signature d e (k :: ks) o.
Proof.
  intros R. destruct o as [(r & s)|]; cbn [Spec.first_signature]; [|intros F; constructor; assumption].
  intros (b & k' & a & -> & F & H). exists (k :: b), k', a. split; [reflexivity|]. split; [constructor; assumption|exact H].
Qed.
Lemma first_take d e k ks r s : 0 < k < n -> Spec.signature_of d k e r s -> Spec.first_signature d e (k :: ks) (Some (r, s)).
Proof. intros B S. exists [], k, ks. split; [reflexivity|]. split; [constructor|]. split; assumption. Qed.
Lemma sign_loop_spec fuel d m s : good s -> is_int256 d -> 0 < value d < n -> is_int256 m ->
  exists o, sign_loop width fuel d m s = Some o /\ ints o /\
    Spec.first_signature (value d) (value m) (map Int.Spec.big_endian (Spec.variant_candidates HMAC fuel (rfc_k s, rfc_v s))) (pair_of o).
Proof.
  intros Gs Id Bd Im. revert s Gs. induction fuel as [|fuel IH]; intros s Gs.
  { exists None. split; [reflexivity|]. split; [intros g F; discriminate F|constructor]. }
  cbn [sign_loop Spec.variant_candidates map]. destruct (rfc_next_spec s Gs) as (s' & E & Gs' & (<- & <-) & Ix & Vx). rewrite E. cbn [Spec.rfc_candidate fst].
  rewrite (nonzero_checked_spec _ Ix), <- Vx. set (k := from_bin _) in *. 
  destruct ((0 <? value k) && (value k <? n)) eqn:C.
  - rewrite andb_true_iff, !Z.ltb_lt in C. destruct (try_sign_spec d k m Id Ix Im Bd C) as (o & -> & Ho). destruct o as [g|].
    + exists (Some g). split; [reflexivity|]. destruct Ho as (Ir & Is & _ & S). split; [|exact (first_take _ _ _ _ _ _ C S)].
      intros g' E'. assert (g = g') as <- by congruence. split; assumption.
    + destruct (IH s' Gs') as (o & Eo & Io & Fo). exists o. split; [exact Eo|]. split; [exact Io|]. apply first_skip; [right; exact Ho|exact Fo].
  - destruct (IH s' Gs') as (o & Eo & Io & Fo). exists o. split; [exact Eo|]. split; [exact Io|]. apply first_skip; [left|exact Fo].
    rewrite <- !Z.ltb_lt. intros (B1 & B2). rewrite B1, B2 in C. discriminate C.
Qed.
Lemma unsuitable_mod d k e : Spec.unsuitable d k (e mod n) <-> Spec.unsuitable d k e.
Proof.
  unfold Spec.unsuitable. split; intros (x & y & E & H); exists x, y; (split; [exact E|]); rewrite Zplus_mod_idemp_l in *; exact H.
Qed.
Lemma signature_mod d k e r s : Spec.signature_of d k (e mod n) r s <-> Spec.signature_of d k e r s.
Proof. unfold Spec.signature_of. rewrite Zplus_mod_idemp_l. reflexivity. Qed.
Lemma first_mod d e ks o : Spec.first_signature d (e mod n) ks o -> Spec.first_signature d e ks o.
Proof.
  assert (R : forall l, Forall (Spec.refused d (e mod n)) l -> Forall (Spec.refused d e) l).
  { intros l. apply Forall_impl. intros k [H|H]; [left; exact H|right; apply unsuitable_mod; exact H]. }
  destruct o as [(r & s)|]; cbn [Spec.first_signature]; [|apply R].
  intros (b & k & a & E & F & B & S). exists b, k, a. split; [exact E|]. split; [exact (R b F)|]. split; [exact B|]. apply signature_mod, S.
Qed.
Lemma sign_rfc6979_spec fuel d (msg : bytes) : is_int256 d -> 0 < value d < n -> (Nlen msg < 2 ^ width)%N -> (8 * Nlen msg < 2 ^ 64)%N ->
  exists o, sign_rfc6979 width fuel d msg = Some o /\ ints o /\
    Spec.first_signature (value d) (Int.Spec.big_endian (sha256 msg))
      (map Int.Spec.big_endian (Spec.variant_candidates HMAC fuel (Spec.rfc_start HMAC (value d) (Int.Spec.big_endian (sha256 msg))))) (pair_of o).
Proof.
  intros Id Bd H1 H2. unfold sign_rfc6979. rewrite (hash_ok msg H1 H2).
  destruct (sha_ok msg _ (sha256_ok msg H2)) as (Lh & Oh).
  destruct (Int.Props.C46_bytes_in (sha256 msg) Lh Oh) as (Ih & Vh & _).
  destruct (modn_spec _ Ih) as (m & -> & Im & Vm). destruct (rfc_new_spec d msg Id H1 H2) as (s & -> & Gs & <-).
  destruct (sign_loop_spec fuel d m s Gs Id Bd Im) as (o & E & Io & Ho). exists o. split; [exact E|]. split; [exact Io|].
  rewrite Vm, Vh in Ho. apply first_mod. exact Ho.
Qed.
Lemma product_mod_nonzero k s : 0 < k < n -> 0 < s < n -> (k * s) mod n <> 0.
Proof.
  intros Bk Bs H. apply Z.mod_divide in H; [|discriminate].
  destruct (prime_mult n Prime.Curve.prime_p256_n k s H) as [D|D]; apply Z.divide_pos_le in D; lia.
Qed.
Lemma suitable d k e r s : 0 < k < n -> Spec.signature_of d k e r s -> ~ Spec.unsuitable d k e.
Proof.
  intros Bk (x & y & E & Er & Nr & Bs & K) (x' & y' & E' & U). rewrite E in E'. injection E' as <- <-. rewrite <- Er in U.
  destruct U as [U|U]; [contradiction|]. rewrite U in K. exact (product_mod_nonzero k s Bk Bs K).
Qed.
Lemma signature_fun d k e r s r' s' : 0 < k < n -> Spec.signature_of d k e r s -> Spec.signature_of d k e r' s' -> r = r' /\ s = s'.
Proof.
  intros Bk (x & y & E & Er & Nr & Bs & K) (x' & y' & E' & Er' & Nr' & Bs' & K'). rewrite E in E'. injection E' as <- <-.
  assert (r = r') as <- by congruence. split; [reflexivity|]. rewrite <- K' in K. 
  rewrite <- (Z.mod_small s n), <- (Z.mod_small s' n) by lia. apply cong. apply cong in K. destruct K as (q & K).
  destruct (inverse_exists k Bk) as (w & Bw & Ew). change 1 with (1 mod n) in Ew. apply cong in Ew. destruct Ew as (q' & Ew).
  exists (w * q - q' * s + q' * s').
  transitivity (w * (k * s) - q' * n * s); [replace (w * (k * s)) with (w * k * s) by ring; rewrite Ew; ring|].
  rewrite K. transitivity (w * k * s' + w * q * n - q' * n * s); [ring|]. rewrite Ew. ring.
Qed.
Lemma sign_first fuel d (msg : bytes) : is_int256 d -> 0 < value d < n -> (Nlen msg < 2 ^ width)%N -> (8 * Nlen msg < 2 ^ 64)%N ->
  let e := Int.Spec.big_endian (sha256 msg) in
  let k := Int.Spec.big_endian (fst (Spec.rfc_candidate HMAC (Spec.rfc_start HMAC (value d) e))) in
  0 < k < n -> forall r s, Spec.signature_of (value d) k e r s ->
  exists g, sign_rfc6979 width (S fuel) d msg = Some (Some g) /\ value (sig_r g) = r /\ value (sig_s g) = s.
Proof.
  intros Id Bd H1 H2 e k Bk r s S0. unfold sign_rfc6979. rewrite (hash_ok msg H1 H2).
  destruct (sha_ok msg _ (sha256_ok msg H2)) as (Lh & Oh).
  destruct (Int.Props.C46_bytes_in (sha256 msg) Lh Oh) as (Ih & Vh & _).
  destruct (modn_spec _ Ih) as (m & -> & Im & Vm). destruct (rfc_new_spec d msg Id H1 H2) as (st & -> & Gs & Est).
  fold e in Est, Vh. unfold k in *. rewrite <- Est in *. clear k. cbn [sign_loop].
  destruct (rfc_next_spec st Gs) as (s' & E & Gs' & _ & Ix & Vx). rewrite E. clear E. cbn [Spec.rfc_candidate fst] in *.
  rewrite (nonzero_checked_spec _ Ix). set (k := from_bin (HMAC (rfc_k st) (rfc_v st))) in *. rewrite <- Vx in Bk, S0.
  replace ((0 <? value k) && (value k <? n)) with true by (symmetry; rewrite andb_true_iff, !Z.ltb_lt; exact Bk).
  destruct (try_sign_spec d k m Id Ix Im Bd Bk) as (o & -> & Ho). rewrite Vh in Vm. destruct o as [g|].
  - exists g. split; [reflexivity|]. destruct Ho as (_ & _ & _ & Sg). rewrite Vm in Sg. apply (proj1 (signature_mod _ _ _ _ _)) in Sg.
    destruct (signature_fun _ _ _ _ _ _ _ Bk Sg S0) as (Er & Es). split; assumption.
  - exfalso. apply (proj2 (signature_mod _ _ _ _ _)) in S0. rewrite <- Vm in S0. exact (suitable _ _ _ _ _ Bk S0 Ho).
Qed.

Lemma sign_draws_spec d m draws : is_int256 d -> 0 < value d < n -> is_int256 m -> Forall is_int256 draws ->
  exists o, sign_draws d m draws = Some o /\ ints o /\
    Spec.first_signature (value d) (value m) (map (fun x => value x + 1) draws) (pair_of o).
Proof.
  intros Id Bd Im. induction 1 as [|x draws Ix Fd IH].
  { exists None. split; [reflexivity|]. split; [intros g F; discriminate F|constructor]. }
  cbn [sign_draws map]. destruct (Int.Props.C46_uniform x Ix) as (U1 & U2). destruct IH as (o & Eo & Io & Fo). destruct (Z.le_gt_cases (value x) (n - 2)) as [C|C].
  - destruct (U1 C) as (k & -> & Ik & Vk). rewrite <- Vk. pose proof (proj1 (int_bound x Ix)) as Bx. assert (Bk : 0 < value k < n) by (clear - Vk C Bx; lia).
    destruct (try_sign_spec d k m Id Ik Im Bd Bk) as (o' & -> & Ho). destruct o' as [g|].
    + exists (Some g). split; [reflexivity|]. destruct Ho as (Ir & Is & _ & S). split; [|exact (first_take _ _ _ _ _ _ Bk S)].
      intros g' E'. assert (g = g') as <- by congruence. split; assumption.
    + exists o. split; [exact Eo|]. split; [exact Io|]. apply first_skip; [right; exact Ho|exact Fo].
  - rewrite (U2 ltac:(clear - C; lia)). exists o. split; [exact Eo|]. split; [exact Io|]. apply first_skip; [left; clear - C; lia|exact Fo].
Qed.
Lemma sign_rng_spec d (msg : bytes) draws : is_int256 d -> 0 < value d < n -> Forall is_int256 draws -> (Nlen msg < 2 ^ width)%N -> (8 * Nlen msg < 2 ^ 64)%N ->
  exists o, sign_rng width d msg draws = Some o /\ ints o /\
    Spec.first_signature (value d) (Int.Spec.big_endian (sha256 msg)) (map (fun x => value x + 1) draws) (pair_of o).
Proof.
  intros Id Bd Fd H1 H2. unfold sign_rng. rewrite (hash_ok msg H1 H2).
  destruct (sha_ok msg _ (sha256_ok msg H2)) as (Lh & Oh).
  destruct (Int.Props.C46_bytes_in (sha256 msg) Lh Oh) as (Ih & Vh & _).
  destruct (modn_spec _ Ih) as (m & -> & Im & Vm).
  destruct (sign_draws_spec d m draws Id Bd Im Fd) as (o & E & Io & Ho). exists o. split; [exact E|]. split; [exact Io|].
  rewrite Vm, Vh in Ho. apply first_mod. exact Ho.
Qed.
End Sha.
