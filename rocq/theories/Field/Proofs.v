(** Proofs about field elements: the arithmetic that does not multiply. *)
From Verif Require Import Base Field.Model Field.Spec.
Open Scope Z_scope.
Ltac Zify.zify_post_hook ::= idtac.

(** ** Bits *)
Lemma mask_eq e x : mask e x = x mod 2 ^ bits e.
Proof.
  unfold mask, BOTTOM_28_BITS, BOTTOM_29_BITS. destruct e; cbn [bits].
  - change 0x1fffffff with (Z.ones 29). apply Z.land_ones. lia.
  - change 0x0fffffff with (Z.ones 28). apply Z.land_ones. lia.
Qed.
Lemma shr_eq x k : 0 <= k -> Z.shiftr x k = x / 2 ^ k.
Proof. apply Z.shiftr_div_pow2. Qed.
Lemma shl32_eq x k : 0 <= k -> shl32 x k = (x * 2 ^ k) mod 2 ^ 32.
Proof. intros. unfold shl32. rewrite Z.shiftl_mul_pow2 by lia. reflexivity. Qed.
Lemma shl32_small x k : 0 <= k -> 0 <= x * 2 ^ k < 2 ^ 32 -> shl32 x k = x * 2 ^ k.
Proof. intros. rewrite shl32_eq by lia. apply Z.mod_small. assumption. Qed.
Lemma arith_ok ck x : 0 <= x < 2 ^ 32 -> arith ck x = Some x.
Proof.
  intros H. unfold arith. rewrite Z.mod_small by assumption.
  destruct (Z.leb_spec 0 x); [|lia]. destruct (Z.ltb_spec x (2 ^ 32)); [|lia]. cbn. rewrite andb_false_r. reflexivity.
Qed.
Lemma arith64_ok ck x : 0 <= x < 2 ^ 64 -> arith64 ck x = Some x.
Proof.
  intros H. unfold arith64. rewrite Z.mod_small by assumption.
  destruct (Z.leb_spec 0 x); [|lia]. destruct (Z.ltb_spec x (2 ^ 64)); [|lia]. cbn. rewrite andb_false_r. reflexivity.
Qed.
Lemma bits_cases e : bits e = 28 \/ bits e = 29. Proof. destruct e; cbn; lia. Qed.

(** ** Numbers *)
Fixpoint V (e : bool) (l : list Z) : Z :=
  match l with
  | [] => 0
  | d :: l' => d + 2 ^ bits e * V (negb e) l'
  end.
Fixpoint width (e : bool) (n : nat) : Z :=
  match n with
  | O => 0
  | S n' => bits e + width (negb e) n'
  end.
Lemma V_cons e d l : V e (d :: l) = d + 2 ^ bits e * V (negb e) l. Proof. reflexivity. Qed.
Lemma width_nonneg e n : 0 <= width e n.
Proof. revert e. induction n as [|n IH]; intros e; cbn [width]; [lia|]. specialize (IH (negb e)). destruct (bits_cases e); lia. Qed.
Lemma width_9 : width true 9 = 257. Proof. reflexivity. Qed.

Lemma nine (l : list Z) : length l = 9%nat -> exists a b c d e f g h i, l = [a; b; c; d; e; f; g; h; i].
Proof.
  intros H. do 9 (destruct l as [|? l]; [discriminate|]). destruct l; [|discriminate]. repeat eexists.
Qed.
Lemma number_V l : length l = 9%nat -> number l = V true l.
Proof.
  intros H. destruct (nine l H) as (a & b & c & d & e & f & g & h & i & ->).
  unfold number, positions. cbn [combine map fold_right V negb bits]. ring.
Qed.

(** ** The loops over the limbs *)
(** The sums at each index, to be normalised. *)
Fixpoint norm (e : bool) (c : Z) (ss : list Z) : list Z * Z :=
  match ss with
  | [] => ([], c)
  | s :: ss' => let (r, c') := norm (negb e) ((s + c) / 2 ^ bits e) ss' in ((s + c) mod 2 ^ bits e :: r, c')
  end.
Fixpoint masked (e : bool) (l : list Z) : Prop :=
  match l with
  | [] => True
  | d :: l' => 0 <= d < 2 ^ bits e /\ masked (negb e) l'
  end.
(** One bit more. *)
Fixpoint loose (e : bool) (l : list Z) : Prop :=
  match l with
  | [] => True
  | d :: l' => 0 <= d < 2 ^ (bits e + 1) /\ loose (negb e) l'
  end.
Lemma norm_spec ss : forall e c, let (r, c') := norm e c ss in
  length r = length ss /\ V e r + 2 ^ width e (length ss) * c' = V e ss + c /\ masked e r.
Proof.
  induction ss as [|s ss IH]; intros e c; cbn [norm].
  - cbn [length V width]. repeat split; lia.
  - specialize (IH (negb e) ((s + c) / 2 ^ bits e)). destruct (norm (negb e) ((s + c) / 2 ^ bits e) ss) as [r c'].
    destruct IH as (L & E & M). cbn [length width]. split; [congruence|]. split.
    + rewrite !V_cons. rewrite Z.pow_add_r by (pose proof (width_nonneg (negb e) (length ss)); destruct (bits_cases e); lia).
      assert (P : 0 < 2 ^ bits e) by (destruct (bits_cases e) as [-> | ->]; reflexivity).
      pose proof (Z.div_mod (s + c) (2 ^ bits e) ltac:(lia)).
      replace (V (negb e) r) with (V (negb e) ss + (s + c) / 2 ^ bits e - 2 ^ width (negb e) (length ss) * c') by lia.
      rewrite Z.mul_sub_distr_l, Z.mul_add_distr_l, Z.mul_assoc. lia.
    + split; [|exact M]. apply Z.mod_pos_bound. destruct (bits_cases e) as [-> | ->]; reflexivity.
Qed.

(** Sums that no loop overflows: each is below 2^32 - 2^5, the carries are below 2^5. *)
Definition small (ss : list Z) : Prop := Forall (fun s => 0 <= s < 2 ^ 32 - 2 ^ 5) ss.
Lemma carry_small e s c : 0 <= s < 2 ^ 32 - 2 ^ 5 -> 0 <= c < 2 ^ 5 ->
  0 <= s + c < 2 ^ 32 /\ 0 <= (s + c) / 2 ^ bits e < 2 ^ 5.
Proof.
  intros Hs Hc. split; [lia|]. assert (P : 0 < 2 ^ bits e) by (destruct (bits_cases e) as [-> | ->]; reflexivity).
  split; [apply Z.div_pos; lia|]. apply Z.div_lt_upper_bound; [lia|]. destruct (bits_cases e) as [-> | ->]; lia.
Qed.

Fixpoint map2 (f : Z -> Z -> Z) (a b : list Z) : list Z :=
  match a, b with
  | x :: a', y :: b' => f x y :: map2 f a' b'
  | _, _ => []
  end.

Ltac norm_step := match goal with |- context [norm ?e ?c ?s] => destruct (norm e c s) end.
Lemma add_loop_norm ck a : forall e c b, length a = length b ->
  Forall (fun s => 0 <= s) a -> Forall (fun s => 0 <= s) b ->
  small (map2 Z.add a b) -> 0 <= c < 2 ^ 5 -> add_loop ck e c a b = Some (norm e c (map2 Z.add a b)).
Proof.
  induction a as [|x a IH]; intros e c [|y b] L Pa Pb Sm C; try discriminate; [reflexivity|].
  cbn [add_loop map2 norm]. inversion Sm as [|s ss Hs Hss]; subst. inversion Pa; subst. inversion Pb; subst.
  destruct (carry_small e (x + y) c Hs C) as (H10 & H11).
  rewrite (arith_ok ck (x + y)) by lia. rewrite (arith_ok ck (x + y + c)) by lia.
  rewrite mask_eq, shr_eq by (destruct (bits_cases e); lia).
  rewrite IH by (try assumption; try (cbn [length] in L; lia)). norm_step. reflexivity.
Qed.
Lemma sub_loop_norm ck a : forall e c z b, length a = length b -> length a = length z ->
  Forall (fun s => 0 <= s) a -> Forall (fun s => 0 <= s) (map2 Z.sub z b) -> Forall (fun s => s < 2 ^ 32) (map2 Z.sub z b) ->
  small (map2 Z.add a (map2 Z.sub z b)) -> 0 <= c < 2 ^ 5 ->
  sub_loop ck e c a z b = Some (norm e c (map2 Z.add a (map2 Z.sub z b))).
Proof.
  induction a as [|x a IH]; intros e c [|u z] [|y b] L1 L2 Pa Pb Qb Sm C; try discriminate; [reflexivity|].
  cbn [sub_loop map2 norm] in *. inversion Sm as [|s ss Hs Hss]; subst. inversion Pa; subst. inversion Pb; subst. inversion Qb; subst.
  destruct (carry_small e (x + (u - y)) c Hs C) as (H10 & H11).
  rewrite (arith_ok ck (u - y)) by lia. rewrite (arith_ok ck (x + (u - y))) by lia. rewrite (arith_ok ck (x + (u - y) + c)) by lia.
  rewrite mask_eq, shr_eq by (destruct (bits_cases e); lia).
  rewrite IH by (try assumption; try (cbn [length] in *; lia)). norm_step. reflexivity.
Qed.
Lemma scale_loop_norm ck k a : forall e c,
  small (map (fun x => x * k) a) -> 0 <= c < 2 ^ 5 -> scale_loop ck k e c a = Some (norm e c (map (fun x => x * k) a)).
Proof.
  induction a as [|x a IH]; intros e c Sm C; [reflexivity|].
  cbn [scale_loop map norm] in *. inversion Sm as [|s ss Hs Hss]; subst. 
  destruct (carry_small e (x * k) c Hs C) as (H10 & H11).
  rewrite (arith_ok ck (x * k)) by lia. rewrite (arith_ok ck (x * k + c)) by lia.
  rewrite mask_eq, shr_eq by (destruct (bits_cases e); lia).
  rewrite IH by assumption. norm_step. reflexivity.
Qed.
Lemma shift_loop_norm ck k a : 0 < k <= 3 -> forall e c,
  loose e a -> 0 <= c < 2 ^ 5 ->
  shift_loop ck k e c a = Some (norm e c (map (fun x => x * 2 ^ k) a)).
Proof.
  intros K. induction a as [|x a IH]; intros e c Lo C; [reflexivity|].
  cbn [shift_loop map norm loose] in *. destruct Lo as (Hx & Lo).
  assert (P : 0 < 2 ^ bits e) by (destruct (bits_cases e) as [-> | ->]; reflexivity).
  assert (Pk : 0 < 2 ^ k <= 8) by (assert (k = 1 \/ k = 2 \/ k = 3) as [-> | [-> | ->]] by lia; cbn; lia).
  assert (Hx2 : 0 <= x < 2 * 2 ^ bits e) by (destruct e; cbn [bits] in *; lia).
  assert (B : 0 <= x * 2 ^ k < 16 * 2 ^ bits e) by nia.
  assert (E1 : mask e (shl32 x k) = (x * 2 ^ k) mod 2 ^ bits e).
  { rewrite mask_eq, shl32_eq by lia.
    replace (2 ^ 32) with (2 ^ bits e * 2 ^ (32 - bits e)) by (destruct (bits_cases e) as [-> | ->]; reflexivity).
    rewrite Z.rem_mul_r by (destruct (bits_cases e) as [-> | ->]; cbn; lia).
    rewrite (Z.mul_comm (2 ^ bits e)). rewrite Z_mod_plus_full. apply Zmod_mod. }
  assert (E2 : Z.shiftr x (bits e - k) = (x * 2 ^ k) / 2 ^ bits e).
  { rewrite shr_eq by (destruct (bits_cases e); lia).
    replace (2 ^ bits e) with (2 ^ (bits e - k) * 2 ^ k).
    - rewrite Z.div_mul_cancel_r; [reflexivity| |lia]. assert (0 < 2 ^ (bits e - k)) by (apply Z.pow_pos_nonneg; destruct (bits_cases e); lia). lia.
    - rewrite <- Z.pow_add_r by (destruct (bits_cases e); lia). f_equal. lia. }
  rewrite E1, E2. set (m := (x * 2 ^ k) mod 2 ^ bits e). set (q := (x * 2 ^ k) / 2 ^ bits e).
  assert (Hm : 0 <= m < 2 ^ bits e) by (apply Z.mod_pos_bound; lia).
  assert (D : x * 2 ^ k = 2 ^ bits e * q + m) by (apply Z.div_mod; lia).
  assert (Hq : 0 <= q < 32).
  { split; [apply Z.div_pos; lia|]. apply Z.div_lt_upper_bound; [lia|]. lia. }
  assert (Bm : 0 <= m + c < 2 ^ 32) by (clear E1 E2; clearbody m q; destruct e; cbn [bits] in *; lia).
  rewrite (arith_ok ck (m + c)) by assumption. rewrite shr_eq by (destruct (bits_cases e); lia).
  assert (E3 : (x * 2 ^ k + c) / 2 ^ bits e = q + (m + c) / 2 ^ bits e).
  { rewrite D. replace (2 ^ bits e * q + m + c) with (m + c + q * 2 ^ bits e) by ring. rewrite Z.div_add by lia. lia. }
  assert (E4 : (x * 2 ^ k + c) mod 2 ^ bits e = (m + c) mod 2 ^ bits e).
  { rewrite D. replace (2 ^ bits e * q + m + c) with (m + c + q * 2 ^ bits e) by ring. apply Z_mod_plus_full. }
  assert (Hd : 0 <= q + (m + c) / 2 ^ bits e < 2 ^ 5).
  { rewrite <- E3. split; [apply Z.div_pos; lia|]. apply Z.div_lt_upper_bound; [lia|].
    clear E1 E2 E3 E4; clearbody m q; destruct e; cbn [bits] in *; lia. }
  rewrite (arith_ok ck (q + _)) by (split; [lia|]; eapply Z.lt_trans; [apply Hd|reflexivity]). rewrite mask_eq, E3, E4.
  rewrite IH by assumption. norm_step. reflexivity.
Qed.

(** ** reduce_carry *)
Lemma is_limbs_iff l : is_limbs l <-> length l = 9%nat /\ loose true l /\ nth 8 l 0 < 2 ^ 29.
Proof.
  unfold is_limbs. split; intros (L & H & T); (split; [exact L|]; split; [|exact T]);
    destruct (nine l L) as (a & b & c & d & e & f & g & h & i & ->).
  - cbn [loose bits negb].
    pose proof (H 0%nat ltac:(lia)) as H0. pose proof (H 1%nat ltac:(lia)) as H1. pose proof (H 2%nat ltac:(lia)) as H2.
    pose proof (H 3%nat ltac:(lia)) as H3. pose proof (H 4%nat ltac:(lia)) as H4. pose proof (H 5%nat ltac:(lia)) as H5.
    pose proof (H 6%nat ltac:(lia)) as H6. pose proof (H 7%nat ltac:(lia)) as H7. pose proof (H 8%nat ltac:(lia)) as H8.
    cbn [nth Nat.even] in *. tauto.
  - cbn [loose bits negb] in H. intros j Hj. do 9 (destruct j as [|j]; [cbn [nth Nat.even]; tauto|]). lia.
Qed.
Definition K : Z := 2 ^ 225 - 2 ^ 193 - 2 ^ 97 + 2.
Lemma K_eq : 2 ^ 257 = K + 2 * p. Proof. reflexivity. Qed.

Lemma reduce_carry_spec ck r c : length r = 9%nat -> masked true r -> 0 <= c <= 8 ->
  exists l, reduce_carry ck r c = Some l /\ is_limbs l /\ V true l = V true r + c * K.
Proof.
  intros L M C. destruct (nine r L) as (r0 & r1 & r2 & r3 & r4 & r5 & r6 & r7 & r8 & ->).
  cbn [masked bits negb] in M. destruct M as (M0 & M1 & M2 & M3 & M4 & M5 & M6 & M7 & M8 & _).
  unfold reduce_carry. rewrite !shl32_small by lia.
  unfold add_at, sub_at. cbn [at_ nth put].
  destruct (Z.eqb_spec c 0) as [-> | Hc].
  - repeat (rewrite arith_ok by lia; cbn [at_ nth put]).
    eexists. split; [reflexivity|]. split; [|cbn [V bits negb]; ring].
    rewrite is_limbs_iff. cbn [length nth loose bits negb]. repeat split; try reflexivity; lia.
  - repeat (rewrite arith_ok by lia; cbn [at_ nth put]).
    eexists. split; [reflexivity|]. split; [|cbn [V bits negb]; unfold K; ring].
    rewrite is_limbs_iff. cbn [length nth loose bits negb]. repeat split; try reflexivity; lia.
Qed.

(** ** Addition, subtraction, small multiples *)
Lemma V_map2_add a : forall e b, length a = length b -> V e (map2 Z.add a b) = V e a + V e b.
Proof.
  induction a as [|x a IH]; intros e [|y b] L; try discriminate; [reflexivity|].
  cbn [map2]. rewrite !V_cons, IH by (cbn [length] in L; lia). ring.
Qed.
Lemma V_map2_sub a : forall e b, length a = length b -> V e (map2 Z.sub a b) = V e a - V e b.
Proof.
  induction a as [|x a IH]; intros e [|y b] L; try discriminate; [reflexivity|].
  cbn [map2]. rewrite !V_cons, IH by (cbn [length] in L; lia). ring.
Qed.
Lemma V_map_scale k a : forall e, V e (map (fun x => x * k) a) = k * V e a.
Proof.
  induction a as [|x a IH]; intros e; [cbn [map V]; ring|]. cbn [map]. rewrite !V_cons, IH. ring.
Qed.
Lemma map2_length f a : forall b, length a = length b -> length (map2 f a b) = length a.
Proof. induction a as [|x a IH]; intros [|y b] L; try discriminate; [reflexivity|]. cbn [map2 length] in *. rewrite IH; lia. Qed.
Lemma V_bound l : is_limbs l -> 0 <= V true l < 2 ^ 257 + 2 ^ 230.
Proof.
  rewrite is_limbs_iff. intros (L & H & T). destruct (nine l L) as (a & b & c & d & e & f & g & h & i & ->).
  cbn [loose bits negb nth V] in *. destruct H as (H0 & H1 & H2 & H3 & H4 & H5 & H6 & H7 & H8 & _). lia.
Qed.

(** A list of sums is normalised and the carry is folded in. *)
Lemma finish ck ss v : length ss = 9%nat -> V true ss = v -> Forall (fun s => 0 <= s) ss -> v < 9 * 2 ^ 257 ->
  exists l, (let? (r, c) := Some (norm true 0 ss) in reduce_carry ck r c) = Some l /\ is_limbs l /\
    V true l mod p = v mod p.
Proof.
  intros L Ev N H. pose proof (norm_spec ss true 0) as S1. destruct (norm true 0 ss) as [r c].
  destruct S1 as (Lr & E & M). rewrite L, width_9, Ev in E.
  assert (Vr : 0 <= V true r < 2 ^ 257).
  { destruct (nine r ltac:(congruence)) as (a & b & c0 & d & e & f & g & h & i & ->).
    cbn [masked bits negb V] in *. destruct M as (H0 & H1 & H2 & H3 & H4 & H5 & H6 & H7 & H8 & _). lia. }
  assert (0 <= v).
  { rewrite <- Ev. destruct (nine ss L) as (a & b & c0 & d & e & f & g & h & i & ->).
    repeat match goal with H : Forall _ (_ :: _) |- _ => inversion H; clear H; subst end. cbn [V bits negb]. lia. }
  destruct (reduce_carry_spec ck r c) as (l & El & Il & Vl); [congruence|exact M|lia|].
  exists l. split; [exact El|]. split; [exact Il|]. rewrite Vl.
  replace v with (V true r + c * K + (2 * c) * p) by (rewrite <- (Z.add_0_r v), <- E, K_eq; ring).
  symmetry. apply Z_mod_plus_full.
Qed.

Lemma add_spec ck a b : is_limbs a -> is_limbs b ->
  exists l, add ck a b = Some l /\ is_limbs l /\ V true l mod p = (V true a + V true b) mod p.
Proof.
  intros Ia Ib. pose proof (V_bound a Ia). pose proof (V_bound b Ib).
  rewrite is_limbs_iff in Ia, Ib. destruct Ia as (La & Ha & Ta). destruct Ib as (Lb & Hb & Tb).
  unfold add. rewrite add_loop_norm; try (cbn; lia); try congruence.
  - apply finish; [rewrite map2_length; congruence|apply V_map2_add; congruence| |lia].
    destruct (nine a La) as (a0 & a1 & a2 & a3 & a4 & a5 & a6 & a7 & a8 & ->).
    destruct (nine b Lb) as (b0 & b1 & b2 & b3 & b4 & b5 & b6 & b7 & b8 & ->).
    cbn [loose bits negb map2] in *. repeat constructor; lia.
  - destruct (nine a La) as (a0 & a1 & a2 & a3 & a4 & a5 & a6 & a7 & a8 & ->). cbn [loose bits negb] in *. repeat constructor; lia.
  - destruct (nine b Lb) as (b0 & b1 & b2 & b3 & b4 & b5 & b6 & b7 & b8 & ->). cbn [loose bits negb] in *. repeat constructor; lia.
  - destruct (nine a La) as (a0 & a1 & a2 & a3 & a4 & a5 & a6 & a7 & a8 & ->).
    destruct (nine b Lb) as (b0 & b1 & b2 & b3 & b4 & b5 & b6 & b7 & b8 & ->).
    cbn [loose bits negb map2] in *. unfold small. repeat constructor; lia.
Qed.

Lemma ZERO31_eq : V true c_ZERO31 = 8 * p. Proof. reflexivity. Qed.
Lemma sub_spec ck a b : is_limbs a -> is_limbs b ->
  exists l, sub ck a b = Some l /\ is_limbs l /\ V true l mod p = (V true a - V true b) mod p.
Proof.
  intros Ia Ib. pose proof (V_bound a Ia). pose proof (V_bound b Ib).
  rewrite is_limbs_iff in Ia, Ib. destruct Ia as (La & Ha & Ta). destruct Ib as (Lb & Hb & Tb).
  assert (LZ : length c_ZERO31 = 9%nat) by reflexivity.
  unfold sub. rewrite sub_loop_norm; try (cbn; lia); try congruence.
  - replace ((V true a - V true b) mod p) with ((V true a + (V true c_ZERO31 - V true b)) mod p)
      by (rewrite ZERO31_eq, <- (Z_mod_plus_full (V true a - V true b) 8 p); f_equal; ring).
    apply finish; [rewrite map2_length; [congruence|rewrite map2_length; congruence]| | |rewrite ZERO31_eq; unfold Int.Spec.p; lia].
    + rewrite V_map2_add, V_map2_sub; [reflexivity|congruence|rewrite map2_length; congruence].
    + destruct (nine a La) as (a0 & a1 & a2 & a3 & a4 & a5 & a6 & a7 & a8 & ->).
      destruct (nine b Lb) as (b0 & b1 & b2 & b3 & b4 & b5 & b6 & b7 & b8 & ->).
      unfold c_ZERO31. cbn [loose bits negb map2] in *. repeat constructor; lia.
  - destruct (nine a La) as (a0 & a1 & a2 & a3 & a4 & a5 & a6 & a7 & a8 & ->). cbn [loose bits negb] in *. repeat constructor; lia.
  - destruct (nine b Lb) as (b0 & b1 & b2 & b3 & b4 & b5 & b6 & b7 & b8 & ->). 
    unfold c_ZERO31. cbn [loose bits negb map2] in *. repeat constructor; lia.
  - destruct (nine b Lb) as (b0 & b1 & b2 & b3 & b4 & b5 & b6 & b7 & b8 & ->). 
    unfold c_ZERO31. cbn [loose bits negb map2] in *. repeat constructor; lia.
  - destruct (nine a La) as (a0 & a1 & a2 & a3 & a4 & a5 & a6 & a7 & a8 & ->).
    destruct (nine b Lb) as (b0 & b1 & b2 & b3 & b4 & b5 & b6 & b7 & b8 & ->).
    unfold c_ZERO31. cbn [loose bits negb map2] in *. unfold small. repeat constructor; lia.
Qed.

Lemma shift_spec ck k a : 0 < k <= 3 -> is_limbs a ->
  exists l, (let? (r, c) := shift_loop ck k true 0 a in reduce_carry ck r c) = Some l /\ is_limbs l /\
    V true l mod p = (2 ^ k * V true a) mod p.
Proof.
  intros Hk Ia. pose proof (V_bound a Ia). rewrite is_limbs_iff in Ia. destruct Ia as (La & Ha & Ta).
  assert (Pk : 0 < 2 ^ k <= 8) by (assert (k = 1 \/ k = 2 \/ k = 3) as [-> | [-> | ->]] by lia; cbn; lia).
  rewrite shift_loop_norm; [|exact Hk|exact Ha|cbn; lia].
  apply finish; [rewrite map_length; exact La|apply V_map_scale| |nia].
  destruct (nine a La) as (a0 & a1 & a2 & a3 & a4 & a5 & a6 & a7 & a8 & ->). cbn [loose bits negb map] in *. repeat constructor; nia.
Qed.
Lemma scale3_spec ck a : is_limbs a ->
  exists l, mul_scalar3 ck a = Some l /\ is_limbs l /\ V true l mod p = (3 * V true a) mod p.
Proof.
  intros Ia. pose proof (V_bound a Ia). rewrite is_limbs_iff in Ia. destruct Ia as (La & Ha & Ta).
  unfold mul_scalar3. rewrite scale_loop_norm; [| |cbn; lia].
  - apply finish; [rewrite map_length; exact La|apply V_map_scale| |lia].
    destruct (nine a La) as (a0 & a1 & a2 & a3 & a4 & a5 & a6 & a7 & a8 & ->). cbn [loose bits negb map] in *. repeat constructor; lia.
  - destruct (nine a La) as (a0 & a1 & a2 & a3 & a4 & a5 & a6 & a7 & a8 & ->). cbn [loose bits negb map] in *. unfold small. repeat constructor; lia.
Qed.

(** ** Comparison with zero *)
Lemma masked_inj a : forall e b, length a = length b -> masked e a -> masked e b -> V e a = V e b -> a = b.
Proof.
  induction a as [|x a IH]; intros e [|y b] L Ma Mb H; try discriminate; [reflexivity|].
  cbn [masked] in *. destruct Ma as (Hx & Ma). destruct Mb as (Hy & Mb). rewrite !V_cons in H.
  assert (P : 0 < 2 ^ bits e) by (destruct (bits_cases e) as [-> | ->]; reflexivity).
  assert (E : V (negb e) a = V (negb e) b).
  { apply (f_equal (fun z => z / 2 ^ bits e)) in H. rewrite !(Z.mul_comm (2 ^ bits e)), !Z.div_add in H by lia.
    rewrite !(Z.div_small _ (2 ^ bits e)) in H by lia. lia. }
  f_equal; [rewrite E in H; lia|]. apply (IH (negb e)); auto.
Qed.
Lemma limbs_eqb_spec a : forall b, limbs_eqb a b = true <-> a = b.
Proof.
  induction a as [|x a IH]; intros [|y b]; cbn [limbs_eqb]; try (split; [discriminate|discriminate] || (split; reflexivity)).
  rewrite andb_true_iff, IH, Z.eqb_eq. split; [intros (-> & ->); reflexivity|intros H; injection H; auto].
Qed.
Lemma masked_bound r : length r = 9%nat -> masked true r -> 0 <= V true r < 2 ^ 257.
Proof.
  intros L M. destruct (nine r L) as (a & b & c0 & d & e & f & g & h & i & ->).
  cbn [masked bits negb V] in *. destruct M as (H0 & H1 & H2 & H3 & H4 & H5 & H6 & H7 & H8 & _). lia.
Qed.
Lemma reduced_round ck a : is_limbs a -> exists r c, scale_loop ck 1 true 0 a = Some (r, c) /\
  length r = 9%nat /\ masked true r /\ V true r + 2 ^ 257 * c = V true a.
Proof.
  intros Ia. rewrite is_limbs_iff in Ia. destruct Ia as (La & Ha & Ta).
  rewrite scale_loop_norm; [| |cbn; lia].
  - pose proof (norm_spec (map (fun x => x * 1) a) true 0) as S1. destruct (norm true 0 _) as [r c].
    destruct S1 as (Lr & E & M). rewrite map_length, La, width_9, V_map_scale in *. exists r, c. repeat split; auto. lia.
  - destruct (nine a La) as (a0 & a1 & a2 & a3 & a4 & a5 & a6 & a7 & a8 & ->). cbn [loose bits negb map] in *. unfold small. repeat constructor; lia.
Qed.
Lemma reduced_spec ck a : is_limbs a -> exists r, reduced_vartime ck 2 a = Some r /\
  length r = 9%nat /\ masked true r /\ V true r mod p = V true a mod p.
Proof.
  intros Ia. pose proof (V_bound a Ia) as Ba. destruct (reduced_round ck a Ia) as (r & c & E & L & M & Hv).
  pose proof (masked_bound r L M) as Br. unfold reduced_vartime. rewrite E.
  destruct (Z.eqb_spec c 0) as [-> | Hc].
  - exists r. repeat split; auto. f_equal. lia.
  - assert (c = 1) by lia. subst c. destruct (reduce_carry_spec ck r 1 L M ltac:(lia)) as (l & El & Il & Vl). rewrite El.
    destruct (reduced_round ck l Il) as (r' & c' & E' & L' & M' & Hv'). rewrite E'.
    pose proof (masked_bound r' L' M') as Br'. 
    assert (c' = 0) by (unfold K in Vl; lia). subst c'. cbn [Z.eqb]. exists r'. repeat split; auto.
    replace (V true a) with (V true r' + 2 * p) by (rewrite <- Hv, K_eq; lia). symmetry. apply Z_mod_plus_full.
Qed.
Lemma masked_c_ZERO : masked true c_ZERO. Proof. cbn. lia. Qed.
Lemma masked_c_P : masked true c_P. Proof. cbn. lia. Qed.
Lemma masked_c_TWO_P : masked true c_TWO_P. Proof. cbn. lia. Qed.
Lemma V_c_ZERO : V true c_ZERO = 0. Proof. reflexivity. Qed.
Lemma V_c_P : V true c_P = p. Proof. reflexivity. Qed.
Lemma V_c_TWO_P : V true c_TWO_P = 2 * p. Proof. reflexivity. Qed.
Lemma p_eq : p = 115792089210356248762697446949407573530086143415290314195533631308867097853951. Proof. reflexivity. Qed.
Lemma is_zero_spec ck a : is_limbs a ->
  is_zero_vartime ck 2 a = Some (V true a mod p =? 0).
Proof.
  intros Ia. unfold is_zero_vartime. destruct (reduced_spec ck a Ia) as (r & -> & L & M & E). f_equal.
  rewrite <- E. pose proof (masked_bound r L M) as B. apply eq_true_iff_eq.
  rewrite !orb_true_iff, !limbs_eqb_spec, Z.eqb_eq.
  assert (H0 : r = c_ZERO <-> V true r = 0).
  { split; [intros ->; apply V_c_ZERO|]. rewrite <- V_c_ZERO. apply masked_inj; auto using masked_c_ZERO. }
  assert (H1 : r = c_P <-> V true r = p).
  { split; [intros ->; apply V_c_P|]. rewrite <- V_c_P. apply masked_inj; auto using masked_c_P. }
  assert (H2 : r = c_TWO_P <-> V true r = 2 * p).
  { split; [intros ->; apply V_c_TWO_P|]. rewrite <- V_c_TWO_P. apply masked_inj; auto using masked_c_TWO_P. }
  rewrite H0, H1, H2. rewrite p_eq in *. split; [intros [[-> | ->] | ->]; reflexivity|].
  intros H. apply Z.mod_divide in H; [|lia]. destruct H as (q & Hq). rewrite Hq in *.
  assert (q = 0 \/ q = 1 \/ q = 2) as [-> | [-> | ->]] by lia; [left; left|left; right|right]; lia.
Qed.
