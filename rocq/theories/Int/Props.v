(** C46 and C52. *)
From Verif Require Import Base Facts Int.Model.
From Verif Require Import Int.Spec Int.Proofs Int.Proofs2.
From Coq Require Import Lia Znumtheory.
Open Scope Z_scope.

(** * C46: 256-bit arithmetic *)

(** No operation below panics (the results are Some), and none loses anything. *)

(** Sums and their carry. *)
Theorem C46_add x y : is_int256 x -> is_int256 y ->
  exists r c, add x y = Some (r, c) /\ is_int256 r /\ (c = 0 \/ c = 1) /\
    value r + 2 ^ 256 * c = value x + value y.
Proof.
  intros (Lx & Dx) (Ly & Dy). destruct (add_spec x y ltac:(congruence) Dx Dy) as (r & c & E & L & D & C & V).
  exists r, c. split; [exact E|]. split; [split; [congruence|exact D]|]. split; [exact C|].
  rewrite Lx, W_8 in V. exact V.
Qed.

Theorem C46_add_digit x d : is_int256 x -> 0 <= d < 2 ^ 32 ->
  exists r c, add_digit x d = Some (r, c) /\ is_int256 r /\ (c = 0 \/ c = 1) /\
    value r + 2 ^ 256 * c = value x + d.
Proof.
  intros (Lx & Dx) Hd. destruct (add_digit_spec x d Dx Hd) as (r & c & E & L & D & C & V).
  exists r, c. split; [exact E|]. split; [split; [congruence|exact D]|].
  pose proof (value_bound r D) as Br. pose proof (value_bound x Dx) as Bx. rewrite L in Br. rewrite Lx, W_8 in *.
  rewrite two32 in Hd. change (2 ^ 256) with 115792089237316195423570985008687907853269984665640564039457584007913129639936 in *.
  split; [lia|exact V].
Qed.

(** Differences and their borrow, which is all ones. *)
Theorem C46_sub x y : is_int256 x -> is_int256 y ->
  exists r c, sub x y = Some (r, c) /\ is_int256 r /\
    value r = (value x - value y) mod 2 ^ 256 /\ c = if value x <? value y then 2 ^ 32 - 1 else 0.
Proof.
  intros (Lx & Dx) (Ly & Dy). destruct (sub_spec x y ltac:(congruence) Dx Dy) as (r & c & E & L & D & V).
  exists r, c. split; [exact E|]. split; [split; [congruence|exact D]|].
  pose proof (value_bound r D) as Br. rewrite L, Lx, W_8 in *.
  destruct V as [(-> & V & G) | (-> & V & G)].
  - split; [apply Zmod_unique with 0; lia|]. destruct (Z.ltb_spec (value x) (value y)); [lia|reflexivity].
  - split; [apply Zmod_unique with (-1); lia|]. destruct (Z.ltb_spec (value x) (value y)); [reflexivity|lia].
Qed.

(** Comparisons. *)
Theorem C46_compare x y : is_int256 x -> is_int256 y ->
  ct_lt x y = Some (value x <? value y) /\ is_zero x = (value x =? 0) /\
  digits_eqb x y = (value x =? value y).
Proof.
  intros (Lx & Dx) (Ly & Dy). split; [apply ct_lt_spec; auto; congruence|]. split.
  - clear Lx Ly. induction x as [|d x IH]; [reflexivity|]. inversion Dx as [|? ? Hd Dx']; subst.
    pose proof (value_bound x Dx') as Bx. cbn [is_zero forallb] in *. unfold is_zero in IH. rewrite (IH Dx').
    rewrite value_cons. rewrite B_eq, two32 in *.
    destruct (Z.eqb_spec d 0), (Z.eqb_spec (value x) 0), (Z.eqb_spec (d + 4294967296 * value x) 0); try reflexivity; lia.
  - assert (L : length x = length y) by congruence. clear Lx Ly.
    revert y Dy L. induction x as [|d x IH]; intros [|e y] Dy L; try discriminate L; [reflexivity|].
    inversion Dx as [|? ? Hd Dx']; subst. inversion Dy as [|? ? He Dy']; subst. injection L as L.
    cbn [digits_eqb]. rewrite (IH Dx' y Dy' L). rewrite !value_cons. rewrite B_eq, two32 in *.
    destruct (Z.eqb_spec d e), (Z.eqb_spec (value x) (value y)),
      (Z.eqb_spec (d + 4294967296 * value x) (e + 4294967296 * value y)); try reflexivity; lia.
Qed.

(** Reduction of a number below twice the modulus; sums and differences modulo. *)
Theorem C46_modular x y m : is_int256 x -> is_int256 y -> is_int256 m ->
  (value x < 2 * value m -> exists r, modd x m = Some r /\ is_int256 r /\ value r = value x mod value m) /\
  (value x < value m -> value y < value m ->
     (exists r, modadd_vartime x y m = Some r /\ is_int256 r /\ value r = (value x + value y) mod value m) /\
     (exists r, modsub_vartime x y m = Some r /\ is_int256 r /\ value r = (value x - value y) mod value m)).
Proof.
  intros Ix Iy Im. split; [apply modd_spec; assumption|]. intros Hx Hy.
  split; [apply modadd_spec; assumption|apply modsub_spec; auto; lia].
Qed.

(** Products and powers, for the moduli whose highest digit is 0xffffffff. *)
Theorem C46_modmul a b t m : is_int256 a -> is_int256 b -> 0 <= t < 2 ^ 32 ->
  is_int256 m -> nth 7 m 0 = 0xffffffff ->
  exists r, modmul_top a b t m = Some r /\ is_int256 r /\
    value r = (value a * (value b + 2 ^ 256 * t)) mod value m.
Proof. intros Ha Hb Ht Hm Hn. rewrite <- W_8. apply modmul_top_spec; auto. split; assumption. Qed.

Theorem C46_modpow x e m : is_int256 x -> is_int256 e -> is_int256 m -> nth 7 m 0 = 0xffffffff ->
  exists r, modpow x e m = Some r /\ is_int256 r /\ value r = value x ^ value e mod value m.
Proof. intros Ix Ie Im Hn. apply modpow_spec; auto. split; assumption. Qed.

(** Bits and shifts. *)
Theorem C46_bits x i k : is_int256 x -> 0 < k < 32 ->
  bit x i = (value x / 2 ^ Z.of_nat i) mod 2 /\
  is_int256 (fst (shl x k)) /\ value (fst (shl x k)) + 2 ^ 256 * snd (shl x k) = 2 ^ k * value x /\
  is_int256 (shr x k) /\ value (shr x k) = value x / 2 ^ k.
Proof.
  intros Ix Hk. pose proof Ix as (L & D). split; [apply bit_spec, D|].
  destruct (shl_spec x k Ix Hk) as (H1 & H2). split; [exact H1|]. split; [exact H2|].
  destruct (shr_spec k x Hk D) as (H3 & H4 & H5). split; [split; [congruence|exact H3]|exact H5].
Qed.

(** Conversions. *)
Theorem C46_bytes_out x : is_int256 x ->
  length (to_bin x) = 32%nat /\ bytes_ok (to_bin x) = true /\ big_endian (to_bin x) = value x /\
  from_bin (to_bin x) = x.
Proof.
  intros Ix. pose proof Ix as (L & D). destruct (to_bin_facts x D) as (Lb & O & V). rewrite L in Lb.
  split; [exact Lb|]. split; [exact O|]. split; [exact V|]. apply from_to_bin, Ix.
Qed.
Theorem C46_bytes_in (src : bytes) : length src = 32%nat -> bytes_ok src = true ->
  is_int256 (from_bin src) /\ value (from_bin src) = big_endian src /\ to_bin (from_bin src) = src.
Proof.
  intros L O. destruct (from_bin_facts src L O) as (I & V). split; [exact I|]. split; [exact V|].
  apply to_from_bin; assumption.
Qed.

(** The constants are those of secp256r1. *)
Lemma c_N_int : is_int256 c_N. Proof. split; [reflexivity|]. repeat constructor; discriminate. Qed.
Lemma c_P_int : is_int256 c_P. Proof. split; [reflexivity|]. repeat constructor; discriminate. Qed.
Lemma c_B_int : is_int256 c_B. Proof. split; [reflexivity|]. repeat constructor; discriminate. Qed.
Lemma c_N_MIN_2_int : is_int256 c_N_MIN_2. Proof. split; [reflexivity|]. repeat constructor; discriminate. Qed.
Lemma c_N_value : value c_N = n. Proof. reflexivity. Qed.
Lemma c_P_value : value c_P = p. Proof. reflexivity. Qed.
Lemma c_B_value : value c_B = b. Proof. reflexivity. Qed.
Lemma c_N_MIN_2_value : value c_N_MIN_2 = n - 2. Proof. reflexivity. Qed.

Theorem C46_constants :
  value c_N = n /\ value c_N_MIN_2 = n - 2 /\ value c_P = p /\ value c_B = b /\
  value c_R = 2 ^ 257 mod p /\ (value c_R * value c_R_INV) mod p = 1 /\
  value c_ZERO = 0 /\ value c_ONE = 1 /\
  Forall is_int256 [c_N; c_N_MIN_2; c_P; c_B; c_R; c_R_INV; c_ZERO; c_ONE] /\
  nth 7 c_N 0 = 0xffffffff /\ nth 7 c_P 0 = 0xffffffff.
Proof.
  repeat match goal with |- _ /\ _ => split end; try reflexivity.
  repeat apply Forall_cons; try apply Forall_nil; (split; [reflexivity|]; repeat constructor; discriminate).
Qed.

(** Private scalars: a draw is either rejected, when it is above n - 2, or gives the scalar that follows it:
    every scalar from 1 to n - 1 comes from exactly one draw. *)
Theorem C46_uniform x : is_int256 x ->
  (value x <= n - 2 -> exists r, gen_uniform x = Some (Some r) /\ is_int256 r /\ value r = value x + 1) /\
  (n - 2 < value x -> gen_uniform x = Some None).
Proof.
  intros Ix. unfold gen_uniform.
  destruct (C46_compare c_N_MIN_2 x c_N_MIN_2_int Ix) as (-> & _). rewrite c_N_MIN_2_value.
  split; intros H.
  - destruct (Z.ltb_spec (n - 2) (value x)); [lia|].
    destruct (C46_add_digit x 1 Ix ltac:(split; [discriminate|reflexivity])) as (r & c & -> & I & C & V).
    exists r. split; [reflexivity|]. split; [exact I|].
    pose proof (int256_bound r I) as Br. rewrite W_8 in Br. unfold n in *.
    change (2 ^ 256) with 115792089237316195423570985008687907853269984665640564039457584007913129639936 in *.
    pose proof (int256_bound x Ix) as Bx. lia.
  - destruct (Z.ltb_spec (n - 2) (value x)); [reflexivity|lia].
Qed.

(** A pair of coordinates is accepted as a public key exactly if both are positive, reduced and on the curve. *)
Theorem C46_curve x y : is_int256 x -> is_int256 y ->
  exists v, point_checked x y = Some v /\
    (v = true <-> 0 < value x < p /\ 0 < value y < p /\ on_curve (value x) (value y)).
Proof.
  intros Ix Iy. unfold point_checked, field_checked.
  destruct (C46_compare x c_P Ix c_P_int) as (-> & Zx & _). destruct (C46_compare y c_P Iy c_P_int) as (-> & Zy & _).
  rewrite c_P_value. pose proof (int256_bound x Ix) as Bx. pose proof (int256_bound y Iy) as By.
  destruct (Z.ltb_spec (value x) p) as [Hx|Hx]; [|exists false; split; [reflexivity|split; [discriminate|intros (? & _); lia]]].
  destruct (Z.ltb_spec (value y) p) as [Hy|Hy]; [|exists false; split; [reflexivity|split; [discriminate|intros (_ & ? & _); lia]]].
  unfold is_valid_point. rewrite Zx, Zy.
  destruct (Z.eqb_spec (value x) 0) as [X0|X0]; [cbn [orb]; exists false; split; [reflexivity|split; [discriminate|intros (? & _); lia]]|].
  destruct (Z.eqb_spec (value y) 0) as [Y0|Y0]; [cbn [orb]; exists false; split; [reflexivity|split; [discriminate|intros (_ & ? & _); lia]]|].
  cbn [orb].
  assert (GP : good_modulus c_P) by (split; [exact c_P_int|reflexivity]).
  assert (Pp : 0 < p) by reflexivity.
  assert (Red : forall z, z mod p < p) by (intros z; apply Z.mod_pos_bound, Pp).
  destruct (modmul_spec y y c_P Iy Iy GP) as (y2 & -> & Iy2 & Vy2).
  destruct (modmul_spec x x c_P Ix Ix GP) as (x2 & -> & Ix2 & Vx2).
  destruct (modmul_spec x2 x c_P Ix2 Ix GP) as (x3 & -> & Ix3 & Vx3).
  rewrite c_P_value in *.
  destruct (modsub_spec x3 x c_P Ix3 Ix c_P_int) as (t1 & -> & I1 & V1); [rewrite Vx3, c_P_value; apply Red|rewrite c_P_value; lia|].
  rewrite c_P_value in V1.
  destruct (modsub_spec t1 x c_P I1 Ix c_P_int) as (t2 & -> & I2 & V2); [rewrite V1, c_P_value; apply Red|rewrite c_P_value; lia|].
  rewrite c_P_value in V2.
  destruct (modsub_spec t2 x c_P I2 Ix c_P_int) as (t3 & -> & I3 & V3); [rewrite V2, c_P_value; apply Red|rewrite c_P_value; lia|].
  rewrite c_P_value in V3.
  destruct (modadd_spec t3 c_B c_P I3 c_B_int c_P_int) as (t4 & -> & I4 & V4); [rewrite V3, c_P_value; apply Red|reflexivity|].
  rewrite c_P_value, c_B_value in V4.
  destruct (C46_compare t4 y2 I4 Iy2) as (_ & _ & Eq). rewrite Eq. eexists. split; [reflexivity|].
  assert (V : value t4 = (value x * value x * value x - 3 * value x + b) mod p).
  { rewrite V4, V3, Zplus_mod_idemp_l. rewrite V2.
    replace ((((value t1 - value x) mod p - value x) + b)) with ((value t1 - value x) mod p + (b - value x)) by ring.
    rewrite Zplus_mod_idemp_l, V1.
    replace ((value x3 - value x) mod p - value x + (b - value x)) with ((value x3 - value x) mod p + (b - 2 * value x)) by ring.
    rewrite Zplus_mod_idemp_l, Vx3.
    replace ((value x2 * value x) mod p - value x + (b - 2 * value x)) with ((value x2 * value x) mod p + (b - 3 * value x)) by ring.
    rewrite Zplus_mod_idemp_l, Vx2. rewrite <- Zplus_mod_idemp_l, Zmult_mod_idemp_l, Zplus_mod_idemp_l. f_equal. ring. }
  rewrite V, Vy2. unfold on_curve. rewrite Z.eqb_eq. split.
  - intros E. split; [clear - Hx X0 Bx; lia|]. split; [clear - Hy Y0 By; lia|]. symmetry. exact E.
  - intros (_ & _ & E). symmetry. exact E.
Qed.

(** The generator of the curve, from SEC 2. *)
Definition gx : int256 := [0xd898c296; 0xf4a13945; 0x2deb33a0; 0x77037d81; 0x63a440f2; 0xf8bce6e5; 0xe12c4247; 0x6b17d1f2].
Definition gy : int256 := [0x37bf51f5; 0xcbb64068; 0x6b315ece; 0x2bce3357; 0x7c0f9e16; 0x8ee7eb4a; 0xfe1a7f9b; 0x4fe342e2].
Example C46_nonvacuous :
  is_int256 gx /\ is_int256 gy /\ value gx < value c_P /\ value gx <= n - 2 /\
  point_checked gx gy = Some true /\ point_checked gy gx = Some false /\
  option_map value (modmul gx gy c_P) = Some ((value gx * value gy) mod p).
Proof.
  split; [split; [reflexivity|repeat constructor; discriminate]|].
  split; [split; [reflexivity|repeat constructor; discriminate]|].
  vm_compute. repeat split; discriminate || reflexivity.
Qed.

(** * C52: the encodings of signatures *)

Lemma nonzero_checked_spec x : is_int256 x ->
  nonzero_checked x = Some (if (0 <? value x) && (value x <? n) then Some x else None).
Proof.
  intros Ix. unfold nonzero_checked. destruct (C46_compare x c_N Ix c_N_int) as (-> & -> & _). rewrite c_N_value.
  pose proof (int256_bound x Ix) as Bx.
  destruct (Z.ltb_spec (value x) n), (Z.eqb_spec (value x) 0), (Z.ltb_spec 0 (value x)); try reflexivity; lia.
Qed.

Definition is_signature (g : signature) : Prop :=
  is_int256 (sig_r g) /\ is_int256 (sig_s g) /\ 0 < value (sig_r g) < n /\ 0 < value (sig_s g) < n.

(** Signatures are encoded as X.690 says, in at most 72 bytes. *)
Theorem C52_der g : is_signature g ->
  der_signature (value (sig_r g)) (value (sig_s g)) (to_asn1_der g) /\ (length (to_asn1_der g) <= 72)%nat.
Proof.
  intros (Ir & Is & _ & _).
  destruct (minimal_encoding_facts _ Ir) as (Tr & Mr & Or & Lr). destruct (minimal_encoding_facts _ Is) as (Ts & Ms & Os & Ls).
  unfold to_asn1_der. set (r := to_minimal_encoding (sig_r g)) in *. set (s := to_minimal_encoding (sig_s g)) in *.
  assert (Nr : (Nlen r < 128)%N) by (unfold Nlen; lia). assert (Ns : (Nlen s < 128)%N) by (unfold Nlen; lia).
  rewrite (N.mod_small (Nlen r)) by lia. rewrite (N.mod_small (Nlen s)) by lia.
  assert (Lt : Nlen (([2%N; Nlen r] ++ r) ++ ([2%N; Nlen s] ++ s)) = (Nlen r + Nlen s + 4)%N).
  { unfold Nlen. rewrite !app_length. cbn [length]. lia. }
  assert (Lb : (Nlen r + Nlen s + 4 < 128)%N) by (unfold Nlen; lia).
  rewrite (N.mod_small (Nlen r + Nlen s + 4)) by lia. split.
  - exists ([2%N; Nlen r] ++ r), ([2%N; Nlen s] ++ s).
    split; [exists r; repeat split; assumption|]. split; [exists s; repeat split; assumption|].
    rewrite Lt. split; [exact Lb|]. reflexivity.
  - cbn [app length]. rewrite app_length. cbn [length]. lia.
Qed.

(** That encoding is the only one of its signature, and of no other. *)
Lemma der_integer_unique x y e f rest rest' : 0 <= x -> 0 <= y -> der_integer x e -> der_integer y f ->
  e ++ rest = f ++ rest' -> x = y /\ e = f /\ rest = rest'.
Proof.
  intros Hx Hy (c & Tc & Mc & Oc & Lc & ->) (d & Td & Md & Od & Ld & ->) E. cbn [app] in E.
  injection E as EL ER. assert (L : length c = length d) by (unfold Nlen in EL; lia).
  assert (c = d /\ rest = rest') as (-> & ->).
  { clear - L ER. revert d L ER. induction c as [|u c IH]; intros [|v d] L ER; try discriminate L; [split; [reflexivity|exact ER]|].
    injection L as L. cbn [app] in ER. injection ER as -> ER. destruct (IH d L ER) as (-> & ->). split; reflexivity. }
  split; [|split; reflexivity]. unfold two_complement in *. congruence.
Qed.

Theorem C52_der_unique r s r' s' e e' : 0 <= r -> 0 <= s -> 0 <= r' -> 0 <= s' ->
  der_signature r s e -> der_signature r' s' e' -> (e = e' <-> r = r' /\ s = s').
Proof.
  intros Hr Hs Hr' Hs' (er & es & Dr & Ds & L & ->) (er' & es' & Dr' & Ds' & L' & ->). split.
  - intros E. cbn [app] in E. injection E as _ E.
    destruct (der_integer_unique r r' er er' es es' Hr Hr' Dr Dr' E) as (-> & -> & E2).
    destruct (der_integer_unique s s' es es' [] [] Hs Hs' Ds Ds') as (-> & _ & _); [rewrite E2; reflexivity|]. split; reflexivity.
  - intros (<- & <-).
    assert (U : forall x f f', 0 <= x -> der_integer x f -> der_integer x f' -> f = f').
    { intros x f f' Hx (c & Tc & Mc & Oc & _ & ->) (d & Td & Md & Od & _ & ->).
      rewrite (minimal_unique c d x Hx Tc Mc Oc Td Md Od). reflexivity. }
    rewrite (U r er er' Hr Dr Dr'), (U s es es' Hs Ds Ds'). reflexivity.
Qed.

(** The raw form is 64 bytes long; reading it gives back the signature, and every other one is refused. *)
Theorem C52_raw g : is_signature g ->
  length (sig_to_bytes g) = 64%nat /\ bytes_ok (sig_to_bytes g) = true /\
  sig_from_bytes (sig_to_bytes g) = Some (Some g).
Proof.
  intros (Ir & Is & Hr & Hs). unfold sig_to_bytes, sig_from_bytes.
  destruct (C46_bytes_out _ Ir) as (Lr & Or & _ & Fr). destruct (C46_bytes_out _ Is) as (Ls & Os & _ & Fs).
  split; [rewrite app_length; lia|]. split; [rewrite bytes_ok_app, Or, Os; reflexivity|].
  rewrite firstn_app, Lr, Nat.sub_diag, firstn_O, app_nil_r. rewrite (firstn_all2 (to_bin (sig_r g))) by lia.
  rewrite skipn_app, Lr, Nat.sub_diag. rewrite (skipn_all2 (to_bin (sig_r g))) by lia.
  change ([] ++ skipn 0 (to_bin (sig_s g))) with (to_bin (sig_s g)). rewrite (firstn_all2 (to_bin (sig_s g))) by lia.
  rewrite Fr, Fs, !nonzero_checked_spec by assumption.
  destruct (Z.ltb_spec 0 (value (sig_r g))); [|lia]. destruct (Z.ltb_spec (value (sig_r g)) n); [|lia].
  destruct (Z.ltb_spec 0 (value (sig_s g))); [|lia]. destruct (Z.ltb_spec (value (sig_s g)) n); [|lia].
  destruct g; reflexivity.
Qed.

Theorem C52_range r s : length r = 32%nat -> length s = 32%nat -> bytes_ok r = true -> bytes_ok s = true ->
  (0 < big_endian r < n /\ 0 < big_endian s < n ->
     exists g, sig_from_bytes (r ++ s) = Some (Some g) /\ is_signature g /\
       value (sig_r g) = big_endian r /\ value (sig_s g) = big_endian s /\ sig_to_bytes g = r ++ s) /\
  (~ (0 < big_endian r < n /\ 0 < big_endian s < n) -> sig_from_bytes (r ++ s) = Some None).
Proof.
  intros Lr Ls Or Os. unfold sig_from_bytes.
  rewrite firstn_app, Lr, Nat.sub_diag, firstn_O, app_nil_r. rewrite (firstn_all2 r) by lia.
  rewrite skipn_app, Lr, Nat.sub_diag. rewrite (skipn_all2 r) by lia.
  change ([] ++ skipn 0 s) with s. rewrite (firstn_all2 s) by lia.
  destruct (C46_bytes_in r Lr Or) as (Ir & Vr & Tr). destruct (C46_bytes_in s Ls Os) as (Is & Vs & Ts).
  rewrite !nonzero_checked_spec by assumption. rewrite Vr, Vs. split.
  - intros (Hr & Hs).
    destruct (Z.ltb_spec 0 (big_endian r)); [|lia]. destruct (Z.ltb_spec (big_endian r) n); [|lia].
    destruct (Z.ltb_spec 0 (big_endian s)); [|lia]. destruct (Z.ltb_spec (big_endian s) n); [|lia]. cbn [andb].
    eexists. split; [reflexivity|]. unfold is_signature, sig_to_bytes. cbn [sig_r sig_s]. rewrite Vr, Vs, Tr, Ts. auto 10.
  - intros H.
    destruct (Z.ltb_spec 0 (big_endian r)); cbn [andb]; [|reflexivity].
    destruct (Z.ltb_spec (big_endian r) n); cbn [andb]; [|reflexivity].
    destruct (Z.ltb_spec 0 (big_endian s)); cbn [andb]; [|reflexivity].
    destruct (Z.ltb_spec (big_endian s) n); cbn [andb]; [|reflexivity]. tauto.
Qed.

(** Private keys are refused outside of 1 to n - 1. *)
Theorem C52_key k : length k = 32%nat -> bytes_ok k = true ->
  (0 < big_endian k < n -> exists x, key_from_bytes k = Some (Some x) /\ is_int256 x /\ value x = big_endian k /\ to_bin x = k) /\
  (~ 0 < big_endian k < n -> key_from_bytes k = Some None).
Proof.
  intros L O. unfold key_from_bytes. destruct (C46_bytes_in k L O) as (I & V & T).
  rewrite nonzero_checked_spec by assumption. rewrite V. split.
  - intros H. destruct (Z.ltb_spec 0 (big_endian k)); [|lia]. destruct (Z.ltb_spec (big_endian k) n); [|lia]. exists (from_bin k). auto.
  - intros H. destruct (Z.ltb_spec 0 (big_endian k)); [|reflexivity]. destruct (Z.ltb_spec (big_endian k) n); [lia|reflexivity].
Qed.

(** A signature with a short and a long half. *)
Example C52_nonvacuous :
  is_signature (mkSig [0x80; 0; 0; 0; 0; 0; 0; 0] c_N_MIN_2) /\
  firstn 8 (to_asn1_der (mkSig [0x80; 0; 0; 0; 0; 0; 0; 0] c_N_MIN_2)) = [48; 39; 2; 2; 0; 128; 2; 33]%N /\
  sig_from_bytes (sig_to_bytes (mkSig c_N c_ONE)) = Some None.
Proof.
  split.
  - split; [split; [reflexivity|repeat constructor; discriminate]|]. split; [exact c_N_MIN_2_int|].
    vm_compute. repeat split; reflexivity.
  - vm_compute. split; reflexivity.
Qed.

Print Assumptions C46_add.
Print Assumptions C46_add_digit.
Print Assumptions C46_sub.
Print Assumptions C46_compare.
Print Assumptions C46_modular.
Print Assumptions C46_modmul.
Print Assumptions C46_modpow.
Print Assumptions C46_bits.
Print Assumptions C46_bytes_out.
Print Assumptions C46_bytes_in.
Print Assumptions C46_constants.
Print Assumptions C46_uniform.
Print Assumptions C46_curve.
Print Assumptions C52_der.
Print Assumptions C52_der_unique.
Print Assumptions C52_raw.
Print Assumptions C52_range.
Print Assumptions C52_key.
