(** Proofs about field elements: what they represent, inversion, conversions. *)
From Verif Require Import Base Field.Model Field.Spec Field.Proofs Field.Mul Field.Eliminate Field.Product.
From Verif Require Int.Model Int.Spec Int.Proofs Int.Proofs2 Int.Props.
Open Scope Z_scope.
Ltac Zify.zify_post_hook ::= idtac.

(** ** Representatives *)
Definition R : Z := 2 ^ 257.
Definition R_INV : Z := Int.Spec.value Int.Model.c_R_INV.
Lemma R_INV_spec : (R * R_INV) mod p = 1. Proof. vm_compute. reflexivity. Qed.
Lemma p_pos : 0 < p. Proof. reflexivity. Qed.
Lemma cancel u v : (R * u) mod p = (R * v) mod p -> u mod p = v mod p.
Proof.
  intros H. pose proof p_pos. 
  assert (forall x, x mod p = (R_INV * ((R * x) mod p)) mod p) as E.
  { intros x. rewrite Zmult_mod_idemp_r. rewrite Z.mul_assoc. rewrite (Z.mul_comm R_INV R).
    rewrite <- Zmult_mod_idemp_l, R_INV_spec, Z.mul_1_l. reflexivity. }
  rewrite (E u), (E v), H. reflexivity.
Qed.
Lemma rep_iff l x : represents l x <-> is_limbs l /\ 0 <= x < p /\ V true l mod p = (x * R) mod p.
Proof.
  unfold represents. fold R. split; intros (I & H); (split; [exact I|]); rewrite number_V in * by apply I; exact H.
Qed.
Lemma mod_range x : 0 <= x mod p < p. Proof. apply Z.mod_pos_bound, p_pos. Qed.
Lemma rep_unique l x y : represents l x -> represents l y -> x = y.
Proof.
  rewrite !rep_iff. intros (_ & Bx & Ex) (_ & By & Ey). rewrite Ex in Ey. rewrite !(Z.mul_comm _ R) in Ey.
  apply cancel in Ey. rewrite !Z.mod_small in Ey by assumption. exact Ey.
Qed.
Lemma rep_exists l : is_limbs l -> exists x, represents l x.
Proof.
  intros I. exists ((V true l * R_INV) mod p). rewrite rep_iff. split; [exact I|]. split; [apply mod_range|].
  rewrite Zmult_mod_idemp_l. rewrite <- Z.mul_assoc, (Z.mul_comm R_INV R), <- Zmult_mod_idemp_r, R_INV_spec. f_equal. lia.
Qed.
Lemma rep_lin l x k : is_limbs l -> V true l mod p = (k * R) mod p -> x = k mod p -> represents l x.
Proof.
  intros I E ->. rewrite rep_iff. split; [exact I|]. split; [apply mod_range|]. rewrite Zmult_mod_idemp_l. exact E.
Qed.

Lemma rep_add ck a b x y : represents a x -> represents b y ->
  exists r, add ck a b = Some r /\ represents r ((x + y) mod p).
Proof.
  rewrite !rep_iff. intros (Ia & _ & Ea) (Ib & _ & Eb). destruct (add_spec ck a b Ia Ib) as (r & E & Ir & Er).
  exists r. split; [exact E|]. apply (rep_lin r _ (x + y) Ir); [|reflexivity].
  rewrite Er, Z.add_mod, Ea, Eb, <- Z.add_mod by (pose proof p_pos; lia). f_equal. ring.
Qed.
Lemma rep_sub ck a b x y : represents a x -> represents b y ->
  exists r, sub ck a b = Some r /\ represents r ((x - y) mod p).
Proof.
  rewrite !rep_iff. intros (Ia & _ & Ea) (Ib & _ & Eb). destruct (sub_spec ck a b Ia Ib) as (r & E & Ir & Er).
  exists r. split; [exact E|]. apply (rep_lin r _ (x - y) Ir); [|reflexivity].
  rewrite Er, Zminus_mod, Ea, Eb, <- Zminus_mod. f_equal. ring.
Qed.
Lemma rep_scale r a x k : represents a x -> is_limbs r -> V true r mod p = (k * V true a) mod p -> represents r ((k * x) mod p).
Proof.
  rewrite rep_iff. intros (Ia & _ & Ea) Ir Er. apply (rep_lin r _ (k * x) Ir); [|reflexivity].
  rewrite Er, <- Zmult_mod_idemp_r, Ea, Zmult_mod_idemp_r. f_equal. ring.
Qed.
Lemma rep_product r a b x y : represents a x -> represents b y -> is_limbs r ->
  (2 ^ 257 * V true r) mod p = (V true a * V true b) mod p -> represents r ((x * y) mod p).
Proof.
  rewrite !rep_iff. intros (Ia & _ & Ea) (Ib & _ & Eb) Ir Er. rewrite <- rep_iff. apply (rep_lin r _ (x * y) Ir); [|reflexivity].
  fold R in Er. apply cancel. rewrite Er. rewrite Z.mul_mod, Ea, Eb, <- Z.mul_mod by (pose proof p_pos; lia). f_equal. ring.
Qed.
Lemma rep_mul_release a b x y : represents a x -> represents b y ->
  exists r, mul false a b = Some r /\ represents r ((x * y) mod p) /\ number r < 2 ^ 257.
Proof.
  intros Ra Rb. destruct (mul_release a b (proj1 Ra) (proj1 Rb)) as (r & E & Ir & Br & Er).
  exists r. split; [exact E|]. split; [exact (rep_product r a b x y Ra Rb Ir Er)|]. rewrite number_V by apply Ir. exact Br.
Qed.
Lemma rep_square_release a x : represents a x ->
  exists r, square false a = Some r /\ represents r ((x * x) mod p) /\ number r < 2 ^ 257.
Proof.
  intros Ra. destruct (square_release a (proj1 Ra)) as (r & E & Ir & Br & Er).
  exists r. split; [exact E|]. split; [exact (rep_product r a a x x Ra Ra Ir Er)|]. rewrite number_V by apply Ir. exact Br.
Qed.

(** ** Inversion *)
Definition power (x k : Z) (l : limbs) : Prop := represents l (x ^ k mod p) /\ 0 <= k.
Lemma power_mul x i j a b : power x i a -> power x j b -> exists r, mul false a b = Some r /\ power x (i + j) r.
Proof.
  intros (Ra & Hi) (Rb & Hj). destruct (rep_mul_release a b _ _ Ra Rb) as (r & E & Rr & _).
  exists r. split; [exact E|]. split; [|clear - Hi Hj; lia]. rewrite Z.pow_add_r by assumption.
  rewrite <- Z.mul_mod in Rr by (pose proof p_pos; lia). exact Rr.
Qed.
Lemma power_square_n x n : forall i a, power x i a -> exists r, square_n false n a = Some r /\ power x (i * 2 ^ Z.of_nat n) r.
Proof.
  induction n as [|n IH]; intros i a (Ra & Hi).
  - exists a. split; [reflexivity|]. rewrite Z.mul_1_r. split; assumption.
  - destruct (rep_square_release a _ Ra) as (r & E & Rr & _). cbn [square_n]. rewrite E.
    rewrite <- Z.mul_mod, <- Z.pow_add_r in Rr by (pose proof p_pos; lia).
    destruct (IH (i + i) r) as (r' & E' & Pr'); [split; [exact Rr|lia]|]. exists r'. split; [exact E'|].
    rewrite Nat2Z.inj_succ, Z.pow_succ_r by lia. replace (i * (2 * 2 ^ Z.of_nat n)) with ((i + i) * 2 ^ Z.of_nat n) by ring. exact Pr'.
Qed.
Lemma power_square x i a : power x i a -> exists r, square false a = Some r /\ power x (i + i) r.
Proof.
  intros (Ra & Hi). destruct (rep_square_release a _ Ra) as (r & E & Rr & _). exists r. split; [exact E|].
  rewrite <- Z.mul_mod, <- Z.pow_add_r in Rr by (pose proof p_pos; lia). split; [exact Rr|lia].
Qed.
Lemma inv_release a x : represents a x -> exists r, inv false a = Some r /\ represents r (x ^ (p - 2) mod p).
Proof.
  intros Ra. assert (P1 : power x 1 a).
  { split; [|lia]. rewrite Z.pow_1_r, Z.mod_small; [exact Ra|apply Ra]. }
  unfold inv. destruct (power_square x _ a P1) as (t & -> & Pt). destruct (power_mul x _ _ t a Pt P1) as (e2 & -> & P2).
  destruct (power_square_n x 2 _ e2 P2) as (t4 & -> & Pt4). destruct (power_mul x _ _ t4 e2 Pt4 P2) as (e4 & -> & P4).
  destruct (power_square_n x 4 _ e4 P4) as (t8 & -> & Pt8). destruct (power_mul x _ _ t8 e4 Pt8 P4) as (e8 & -> & P8).
  destruct (power_square_n x 8 _ e8 P8) as (t16 & -> & Pt16). destruct (power_mul x _ _ t16 e8 Pt16 P8) as (e16 & -> & P16).
  destruct (power_square_n x 16 _ e16 P16) as (t32 & -> & Pt32). destruct (power_mul x _ _ t32 e16 Pt32 P16) as (e32 & -> & P32).
  destruct (power_square_n x 32 _ e32 P32) as (e64 & -> & P64). destruct (power_mul x _ _ e64 a P64 P1) as (t65 & -> & Pt65).
  destruct (power_square_n x 192 _ t65 Pt65) as (tmp & -> & Ptmp).
  destruct (power_mul x _ _ e64 e32 P64 P32) as (u0 & -> & U0). destruct (power_square_n x 16 _ u0 U0) as (u1 & -> & U1).
  destruct (power_mul x _ _ u1 e16 U1 P16) as (u2 & -> & U2). destruct (power_square_n x 8 _ u2 U2) as (u3 & -> & U3).
  destruct (power_mul x _ _ u3 e8 U3 P8) as (u4 & -> & U4). destruct (power_square_n x 4 _ u4 U4) as (u5 & -> & U5).
  destruct (power_mul x _ _ u5 e4 U5 P4) as (u6 & -> & U6). destruct (power_square_n x 2 _ u6 U6) as (u7 & -> & U7).
  destruct (power_mul x _ _ u7 e2 U7 P2) as (u8 & -> & U8). destruct (power_square_n x 2 _ u8 U8) as (u9 & -> & U9).
  destruct (power_mul x _ _ u9 a U9 P1) as (u10 & -> & U10). destruct (power_mul x _ _ u10 tmp U10 Ptmp) as (r & -> & (Rr & _)).
  exists r. split; [reflexivity|].
  match type of Rr with represents _ (x ^ ?k mod p) => replace (p - 2) with k; [exact Rr|] end.
  vm_compute. reflexivity.
Qed.

(** ** To limbs *)
Lemma to_limbs_spec n : forall e s, Int.Spec.is_int256 s -> Int.Spec.value s < 2 ^ width e n ->
  length (to_limbs n e s) = n /\ masked e (to_limbs n e s) /\ V e (to_limbs n e s) = Int.Spec.value s.
Proof.
  induction n as [|n IH]; intros e s Is B.
  - pose proof (Int.Proofs.int256_bound s Is). cbn [width] in B. cbn [to_limbs length masked V]. repeat split. lia.
  - cbn [to_limbs width] in *. assert (P : 0 < 2 ^ bits e) by (destruct (bits_cases e) as [-> | ->]; reflexivity).
    destruct (Int.Props.C46_bits s 0 (bits e) Is ltac:(destruct e; cbn; lia)) as (_ & _ & _ & Ish & Vsh).
    pose proof (Int.Proofs.int256_bound s Is) as Bs.
    destruct (IH (negb e) (Int.Model.shr s (bits e)) Ish) as (L & M & HV).
    { rewrite Vsh. apply Z.div_lt_upper_bound; [lia|]. rewrite <- Z.pow_add_r; [exact B|destruct e; cbn; lia|apply width_nonneg]. }
    assert (E0 : mask e (nth 0 s 0) = Int.Spec.value s mod 2 ^ bits e).
    { rewrite mask_eq. destruct Is as (Ls & Ds). destruct s as [|d s]; [discriminate|]. cbn [nth Int.Spec.value].
      replace (2 ^ 32 * Int.Spec.value s) with (Int.Spec.value s * 2 ^ (32 - bits e) * 2 ^ bits e).
      - symmetry. apply Z_mod_plus_full.
      - rewrite <- Z.mul_assoc, <- Z.pow_add_r by (destruct e; cbn; lia). replace (32 - bits e + bits e) with 32 by lia. ring. }
    cbn [length masked V]. rewrite E0, HV, Vsh. split; [congruence|].
    split; [split; [apply Z.mod_pos_bound; lia|exact M]|].
    pose proof (Z.div_mod (Int.Spec.value s) (2 ^ bits e) ltac:(lia)). lia.
Qed.
Lemma masked_is_limbs l : length l = 9%nat -> masked true l -> is_limbs l.
Proof.
  intros L M. rewrite is_limbs_iff. split; [exact L|]. destruct (nine l L) as (a & b & c & d & e & f & g & h & i & ->).
  cbn [masked loose bits negb nth] in *. lia.
Qed.
Lemma to_montgomery g : Int.Spec.is_int256 g -> Int.Spec.value g < p ->
  exists l, field_to_montgomery g = Some l /\ represents l (Int.Spec.value g) /\ number l < p.
Proof.
  intros Ig Bg. unfold field_to_montgomery. destruct Int.Props.C46_constants as (_ & _ & Vp & _ & Vr & _ & _ & _ & F & _ & Hp).
  repeat match goal with H : Forall _ (_ :: _) |- _ => inversion H; clear H; subst end.
  destruct (Int.Props.C46_modmul g Int.Model.c_R 0 Int.Model.c_P) as (s & E & Is & Vs); auto; [lia|].
  unfold Int.Model.modmul. rewrite E. rewrite Vp, Vr in Vs.
  assert (Bs : Int.Spec.value s < p) by (rewrite Vs; apply mod_range).
  destruct (to_limbs_spec NLIMBS true s Is) as (L & M & HV); [change (width true NLIMBS) with 257; rewrite p_eq in Bs; lia|].
  eexists. split; [reflexivity|]. split; [|rewrite number_V by exact L; lia].
  pose proof (Int.Proofs.int256_bound g Ig). rewrite rep_iff. split; [apply masked_is_limbs; assumption|]. split; [lia|].
  rewrite HV, Vs, Zmod_mod. rewrite Z.mul_0_r, Z.add_0_r, Zmult_mod_idemp_r. reflexivity.
Qed.

(** ** From limbs *)
Lemma from_step k r d : Int.Spec.is_int256 r -> 0 < k < 32 -> 0 <= d < 2 ^ 32 -> Int.Spec.value r * 2 ^ k + d < 2 ^ 257 ->
  exists t r' t', Int.Model.shl r k = (t, snd (Int.Model.shl r k)) /\ Int.Model.add_digit t d = Some (r', t') /\
    Int.Spec.is_int256 r' /\ Int.Spec.value r' + 2 ^ 256 * Z.lor (snd (Int.Model.shl r k)) t' = Int.Spec.value r * 2 ^ k + d /\
    0 <= Z.lor (snd (Int.Model.shl r k)) t' <= 1.
Proof.
  intros Ir Hk Hd B. destruct (Int.Props.C46_bits r 0 k Ir Hk) as (_ & It & Vt & _). destruct (Int.Model.shl r k) as [t t1]. cbn [fst snd] in *.
  destruct (Int.Props.C46_add_digit t d It Hd) as (r' & t' & E & Ir' & Ht' & Vr').
  exists t, r', t'. split; [reflexivity|]. split; [exact E|]. split; [exact Ir'|].
  pose proof (Int.Proofs.int256_bound t It) as Bt. pose proof (Int.Proofs.int256_bound r' Ir') as Br'. rewrite Int.Proofs.W_8 in *.
  pose proof (Int.Proofs.int256_bound r Ir) as Br. rewrite Int.Proofs.W_8 in *.
  assert (P : 0 < 2 ^ k) by (apply Z.pow_pos_nonneg; lia).
  rewrite (Z.mul_comm (2 ^ k)) in Vt. assert (0 <= Int.Spec.value r * 2 ^ k) by (apply Z.mul_nonneg_nonneg; lia).
  set (u := Int.Spec.value r * 2 ^ k) in *. clearbody u.
  assert (T : 0 <= t1 /\ t1 + t' <= 1) by lia.
  assert (Z.lor t1 t' = t1 + t') as ->.
  { assert ((t1 = 0 /\ t' = 0) \/ (t1 = 0 /\ t' = 1) \/ (t1 = 1 /\ t' = 0)) as [(-> & ->) | [(-> & ->) | (-> & ->)]] by lia; reflexivity. }
  split; lia.
Qed.
Lemma from_limbs_S i l r top : from_limbs (S i) l r top =
  (let (tmp, top1) := Int.Model.shl r (bits (Nat.even i)) in
   let? (r', top2) := Int.Model.add_digit tmp (at_ l i) in from_limbs i l r' (Z.lor top1 top2)).
Proof. reflexivity. Qed.

Lemma early_step i l r top u m : Int.Spec.is_int256 r -> Int.Spec.value r = u -> 0 <= u < 2 ^ m -> 32 <= m <= 210 -> 0 <= at_ l i < 2 ^ 32 ->
  exists r', from_limbs (S i) l r top = from_limbs i l r' 0 /\ Int.Spec.is_int256 r' /\
    Int.Spec.value r' = u * 2 ^ bits (Nat.even i) + at_ l i /\ 0 <= u * 2 ^ bits (Nat.even i) + at_ l i < 2 ^ (m + 30).
Proof.
  intros Ir Vr Bu Hm Hd.
  assert (P : 2 ^ m * 2 ^ 30 = 2 ^ (m + 30)) by (rewrite <- Z.pow_add_r; lia).
  assert (Q : 2 ^ m * 2 ^ 30 <= 2 ^ 240) by (rewrite P; apply Z.pow_le_mono_r; lia).
  assert (M : 2 ^ 32 <= 2 ^ m) by (apply Z.pow_le_mono_r; lia).
  assert (Bk : 0 <= u * 2 ^ bits (Nat.even i) <= u * 2 ^ 29) by (destruct (Nat.even i); cbn [bits]; lia).
  assert (Hu : 0 <= u * 2 ^ bits (Nat.even i) + at_ l i < 2 ^ m * 2 ^ 30).
  { clear - Bk Bu M Hd. set (y := 2 ^ m) in *. clearbody y. set (v := u * 2 ^ bits (Nat.even i)) in *. clearbody v. lia. }
  destruct (from_step (bits (Nat.even i)) r (at_ l i) Ir ltac:(destruct (Nat.even i); cbn; lia) Hd) as (s & r' & c & E1 & E2 & I' & E' & T).
  { rewrite Vr. clear - Hu Q. lia. }
  exists r'. rewrite from_limbs_S, E1, E2. pose proof (Int.Proofs.int256_bound r' I') as B'. rewrite Int.Proofs.W_8 in B'. rewrite Vr in E'.
  set (t := Z.lor _ c) in *. clearbody t. set (v := u * 2 ^ bits (Nat.even i) + at_ l i) in *. clearbody v.
  assert (t = 0). { clear - E' B' T Hu Q. set (y := 2 ^ m) in *. clearbody y. lia. } subst t.
  split; [reflexivity|]. split; [exact I'|]. rewrite <- P. clear - E' Hu. split; [lia|exact Hu].
Qed.

Lemma from_montgomery l x : represents l x -> number l < 2 ^ 257 ->
  exists r, montgomery_to_field l = Some r /\ Int.Spec.is_int256 r /\ Int.Spec.value r = x.
Proof.
  intros Rl Bl. pose proof Rl as Rl'. rewrite rep_iff in Rl'. destruct Rl' as (Il & Bx & Ex).
  rewrite number_V in Bl by apply Il.
  assert (Bd : forall i, (i < 9)%nat -> 0 <= at_ l i < 2 ^ 32).
  { intros i Hi. pose proof (limb_bound l i Il Hi). destruct (Nat.even i); lia. }
  unfold montgomery_to_field. change (NLIMBS - 1)%nat with 8%nat.
  destruct Int.Props.C46_constants as (_ & _ & Vp & _ & Vr & Hinv & V0 & _ & F & _ & Hp).
  repeat match goal with H : Forall _ (_ :: _) |- _ => inversion H; clear H; subst end.
  assert (Hp' : Int.Spec.is_int256 Int.Model.c_P) by assumption. assert (Hi' : Int.Spec.is_int256 Int.Model.c_R_INV) by assumption.
  destruct (Int.Props.C46_add_digit Int.Model.c_ZERO (at_ l 8) ltac:(assumption) (Bd 8%nat ltac:(lia))) as (r8 & c8 & -> & I8 & _ & E8).
  rewrite V0 in E8. pose proof (Int.Proofs.int256_bound r8 I8) as B8. rewrite Int.Proofs.W_8 in B8. pose proof (Bd 8%nat ltac:(lia)) as D8.
  assert (V8 : Int.Spec.value r8 = at_ l 8) by (clear - E8 B8 D8; lia).
  destruct (early_step 7 l r8 0 _ 32 I8 V8 D8 ltac:(lia) (Bd 7%nat ltac:(lia))) as (r7 & -> & I7 & V7 & D7).
  destruct (early_step 6 l r7 0 _ _ I7 V7 D7 ltac:(lia) (Bd 6%nat ltac:(lia))) as (r6 & -> & I6 & V6 & D6).
  destruct (early_step 5 l r6 0 _ _ I6 V6 D6 ltac:(lia) (Bd 5%nat ltac:(lia))) as (r5 & -> & I5 & V5 & D5).
  destruct (early_step 4 l r5 0 _ _ I5 V5 D5 ltac:(lia) (Bd 4%nat ltac:(lia))) as (r4 & -> & I4 & V4 & D4).
  destruct (early_step 3 l r4 0 _ _ I4 V4 D4 ltac:(lia) (Bd 3%nat ltac:(lia))) as (r3 & -> & I3 & V3 & D3).
  destruct (early_step 2 l r3 0 _ _ I3 V3 D3 ltac:(lia) (Bd 2%nat ltac:(lia))) as (r2 & -> & I2 & V2 & D2).
  assert (D2' : 0 <= Int.Spec.value r2 < 2 ^ 210).
  { rewrite V2. destruct (nine l (proj1 Il)) as (a & b & c & d & e & f & g & h & i & ->). clear - Bl Bd.
    pose proof (Bd 0%nat ltac:(lia)) as D0. pose proof (Bd 1%nat ltac:(lia)) as D1. pose proof (Bd 2%nat ltac:(lia)) as D2.
    pose proof (Bd 3%nat ltac:(lia)) as D3. pose proof (Bd 4%nat ltac:(lia)) as D4. pose proof (Bd 5%nat ltac:(lia)) as D5.
    pose proof (Bd 6%nat ltac:(lia)) as D6. pose proof (Bd 7%nat ltac:(lia)) as D7. pose proof (Bd 8%nat ltac:(lia)) as D8.
    clear Bd. cbn [V bits negb at_ nth Nat.even] in *. lia. }
  destruct (early_step 1 l r2 0 _ 210 I2 eq_refl D2' ltac:(lia) (Bd 1%nat ltac:(lia))) as (r1 & -> & I1 & V1 & D1).
  rewrite V2 in V1.
  rewrite from_limbs_S. change (bits (Nat.even 0)) with 29.
  assert (HV : Int.Spec.value r1 * 2 ^ 29 + at_ l 0 = V true l).
  { rewrite V1. destruct (nine l (proj1 Il)) as (a & b & c & d & e & f & g & h & i & ->). cbn [V bits negb at_ nth Nat.even]. ring. }
  destruct (from_step 29 r1 (at_ l 0) I1 ltac:(lia) (Bd 0%nat ltac:(lia))) as (s0 & r0 & c0 & -> & -> & I0 & E0 & T0); [rewrite HV; exact Bl|].
  set (t0 := Z.lor _ c0) in *. clearbody t0. rewrite HV in E0.
  cbn [from_limbs].
  destruct (Int.Props.C46_modmul Int.Model.c_R_INV r0 t0 Int.Model.c_P Hi' I0 ltac:(clear - T0; lia) Hp' Hp) as (r & -> & Irr & Vrr).
  exists r. split; [reflexivity|]. split; [exact Irr|]. rewrite Vrr, E0, Vp. fold R_INV.
  rewrite <- Zmult_mod_idemp_r, Ex, Zmult_mod_idemp_r. replace (R_INV * (x * R)) with (x * (R * R_INV)) by ring.
  rewrite <- Zmult_mod_idemp_r, R_INV_spec, Z.mul_1_r. apply Z.mod_small. exact Bx.
Qed.
