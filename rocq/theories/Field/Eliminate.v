(** Proofs about field elements: the elimination of the low limbs of a product.
    Without overflow checks the limbs are computed modulo 2^32; the proofs follow the integers that they
    are congruent to, of which some are -1 for a while. *)
From Verif Require Import Base Field.Model Field.Spec Field.Proofs Field.Mul.
Open Scope Z_scope.
Ltac Zify.zify_post_hook ::= idtac.

Definition w (x : Z) : Z := x mod 2 ^ 32.
Lemma w_small x : 0 <= x < 2 ^ 32 -> w x = x. Proof. apply Z.mod_small. Qed.
Lemma w_plus x y : w (w x + y) = w (x + y). Proof. apply Zplus_mod_idemp_l. Qed.

Lemma at_map z i : at_ (map w z) i = w (at_ z i).
Proof. unfold at_. change 0 with (w 0) at 1. apply map_nth. Qed.
Lemma put_map z : forall i v, put (map w z) i (w v) = map w (put z i v).
Proof.
  induction z as [|d z IH]; intros i v; [reflexivity|]. destruct i as [|i]; cbn [put map]; [reflexivity|].
  rewrite IH. reflexivity.
Qed.
Definition zadd (z : list Z) (i : nat) (v : Z) : list Z := put z i (at_ z i + v).
Lemma arith_false x : arith false x = Some (w x). Proof. reflexivity. Qed.
Lemma add_at_w z i v v' : w v = w v' -> add_at false (map w z) i v = Some (map w (zadd z i v')).
Proof.
  intros E. unfold add_at. rewrite arith_false, at_map. f_equal. unfold zadd. rewrite <- put_map. f_equal.
  rewrite w_plus. unfold w in *. rewrite Z.add_mod, E, <- Z.add_mod by lia. reflexivity.
Qed.
Lemma sub_at_w z i v : sub_at false (map w z) i v = Some (map w (zadd z i (- v))).
Proof.
  unfold sub_at. rewrite arith_false, at_map. f_equal. unfold zadd. rewrite <- put_map. f_equal.
  rewrite <- Z.add_opp_r. apply w_plus.
Qed.
Lemma wrapping_add_at_w z i v v' : w v = w v' -> wrapping_add_at (map w z) i v = Some (map w (zadd z i v')).
Proof. exact (add_at_w z i v v'). Qed.

(** The same steps on integers. *)
Definition even_tail (z : bool) (x : Z) (i : nat) (l : list Z) : list Z :=
  let l := zadd l (i + 3) (mask false (shl32 x 10)) in
  let l := zadd l (i + 4) (Z.shiftr x 18) in
  let l := zadd l (i + 6) (mask true (shl32 x 21)) in
  let l := zadd l (i + 7) (Z.shiftr x 8) in
  let l := zadd l (i + 7) (if z then 0 else 0x10000000) in
  let l := zadd l (i + 8) (if z then 0 else x - 1) in
  let l := zadd l (i + 7) (- mask false (shl32 x 24)) in
  let l := zadd l (i + 8) (- Z.shiftr x 4) in
  let l := zadd l (i + 8) (if z then 0 else 0x20000000) in
  let l := zadd l (i + 8) (- x) in
  let l := zadd l (i + 8) (mask true (shl32 x 28)) in
  zadd l (i + 9) (if z then 0 else Z.shiftr x 1 - 1).
Definition evenZ (i : nat) (l : list Z) : list Z :=
  let l := zadd l (i + 1) (Z.shiftr (at_ l i) 29) in
  let x := mask true (at_ l i) in
  even_tail (x =? 0) x i (put l i 0).
Definition odd_tail (z : bool) (x : Z) (i : nat) (l : list Z) : list Z :=
  let l := zadd l (i + 4) (mask true (shl32 x 11)) in
  let l := zadd l (i + 5) (Z.shiftr x 18) in
  let l := zadd l (i + 7) (mask false (shl32 x 21)) in
  let l := zadd l (i + 8) (Z.shiftr x 7) in
  let l := zadd l (i + 8) (if z then 0 else 0x20000000) in
  let l := zadd l (i + 9) (if z then 0 else x - 1) in
  let l := zadd l (i + 8) (- mask true (shl32 x 25)) in
  let l := zadd l (i + 9) (- Z.shiftr x 4) in
  let l := zadd l (i + 9) (if z then 0 else 0x10000000) in
  let l := zadd l (i + 9) (- x) in
  zadd l (i + 10) (if z then 0 else x - 1).
Definition oddZ (i : nat) (l : list Z) : list Z :=
  let l := zadd l (i + 2) (Z.shiftr (at_ l (i + 1)) 28) in
  let x := mask false (at_ l (i + 1)) in
  odd_tail (x =? 0) x i (put l (i + 1) 0).

Lemma put_zero z i : put (map w z) i 0 = map w (put z i 0).
Proof. change 0 with (w 0) at 1. apply put_map. Qed.
Lemma w_if (z : bool) x : w (if z then 0 else (x mod 2 ^ 32)) = w (if z then 0 else x).
Proof. destruct z; [reflexivity|]. unfold w. apply Zmod_mod. Qed.
Lemma at_zadd z : forall i j v, i <> j -> at_ (zadd z i v) j = at_ z j.
Proof.
  unfold zadd. intros i j v. generalize (at_ z i + v). clear v. intros v. unfold at_. revert i j v.
  induction z as [|d z IH]; intros i j v H; [reflexivity|].
  destruct i as [|i], j as [|j]; cbn [put nth]; try reflexivity; [lia|]. apply IH. lia.
Qed.

Lemma even_w i z : 0 <= at_ z i < 2 ^ 32 -> eliminate_even false i (map w z) = Some (map w (evenZ i z)).
Proof.
  intros H. unfold eliminate_even. rewrite at_map, (w_small (at_ z i)) by exact H.
  rewrite (add_at_w z (i + 1) _ _ eq_refl). rewrite !at_map. rewrite !at_zadd by lia. rewrite (w_small (at_ z i)) by exact H.
  rewrite put_zero. unfold evenZ. rewrite !at_zadd by lia.
  set (x := mask true (at_ z i)). generalize (put (zadd z (i + 1) (Z.shiftr (at_ z i) 29)) i 0). intros l.
  generalize (x =? 0). clearbody x. intros b. unfold even_tail.
  rewrite (add_at_w _ (i + 3) _ _ eq_refl), (add_at_w _ (i + 4) _ _ eq_refl), (add_at_w _ (i + 6) _ _ eq_refl), (add_at_w _ (i + 7) _ _ eq_refl),
    (add_at_w _ (i + 7) _ _ eq_refl), (add_at_w _ (i + 8) _ _ (w_if b (x - 1))), sub_at_w, sub_at_w, (add_at_w _ (i + 8) _ _ eq_refl), sub_at_w,
    (add_at_w _ (i + 8) _ _ eq_refl).
  apply wrapping_add_at_w. apply w_if.
Qed.
Lemma odd_w i z : 0 <= at_ z (i + 1) < 2 ^ 32 -> eliminate_odd false i (map w z) = Some (map w (oddZ i z)).
Proof.
  intros H. unfold eliminate_odd. rewrite at_map, (w_small (at_ z (i + 1))) by exact H.
  rewrite (add_at_w z (i + 2) _ _ eq_refl). rewrite !at_map. rewrite !at_zadd by lia. rewrite (w_small (at_ z (i + 1))) by exact H.
  rewrite put_zero. unfold oddZ. rewrite !at_zadd by lia.
  set (x := mask false (at_ z (i + 1))). generalize (put (zadd z (i + 2) (Z.shiftr (at_ z (i + 1)) 28)) (i + 1) 0). intros l.
  generalize (x =? 0). clearbody x. intros b. unfold odd_tail.
  rewrite (add_at_w _ (i + 4) _ _ eq_refl), (add_at_w _ (i + 5) _ _ eq_refl), (add_at_w _ (i + 7) _ _ eq_refl), (add_at_w _ (i + 8) _ _ eq_refl),
    (add_at_w _ (i + 8) _ _ eq_refl), (add_at_w _ (i + 9) _ _ (w_if b (x - 1))), sub_at_w, sub_at_w, (add_at_w _ (i + 9) _ _ eq_refl), sub_at_w.
  apply add_at_w. apply w_if.
Qed.

(** A prefix stays as it is. *)
Lemma at_app pre m k : at_ (pre ++ m) (length pre + k) = at_ m k.
Proof. unfold at_. rewrite app_nth2 by lia. f_equal. lia. Qed.
Lemma at_app0 pre m : at_ (pre ++ m) (length pre) = at_ m 0.
Proof. rewrite <- (Nat.add_0_r (length pre)). apply at_app. Qed.
Lemma put_app pre m k v : put (pre ++ m) (length pre + k) v = pre ++ put m k v.
Proof. induction pre as [|d pre IH]; [reflexivity|]. cbn [app length Nat.add put]. rewrite IH. reflexivity. Qed.
Lemma put_app0 pre m v : put (pre ++ m) (length pre) v = pre ++ put m 0 v.
Proof. rewrite <- (Nat.add_0_r (length pre)) at 1. apply put_app. Qed.
Lemma zadd_app pre m k v : zadd (pre ++ m) (length pre + k) v = pre ++ zadd m k v.
Proof. unfold zadd. rewrite at_app, put_app. reflexivity. Qed.
Lemma even_app pre m : evenZ (length pre) (pre ++ m) = pre ++ evenZ 0 m.
Proof.
  unfold evenZ. rewrite at_app0, zadd_app, at_app0, put_app0. unfold even_tail. cbv zeta.
  rewrite !zadd_app. reflexivity.
Qed.
Lemma odd_app pre m : oddZ (length pre) (pre ++ m) = pre ++ oddZ 0 m.
Proof.
  unfold oddZ. rewrite at_app, zadd_app, at_app, put_app. unfold odd_tail. cbv zeta.
  rewrite !zadd_app. reflexivity.
Qed.

(** ** The amounts that are added *)
Lemma mask_shl e x k : 0 <= k -> mask e (shl32 x k) = (x * 2 ^ k) mod 2 ^ bits e.
Proof. intros H. rewrite mask_eq, shl32_eq by exact H. apply mod_pow_mod. destruct (bits_cases e); lia. Qed.
(** Splitting x * 2^k at bit j. *)
Lemma split_at x k j : 0 <= k <= j -> 0 <= x -> exists m q, (x * 2 ^ k) mod 2 ^ j = m /\ x / 2 ^ (j - k) = q /\
  x * 2 ^ k = 2 ^ j * q + m /\ 0 <= m < 2 ^ j /\ 0 <= q /\ 2 ^ (j - k) * q <= x.
Proof.
  intros H Hx. exists ((x * 2 ^ k) mod 2 ^ j), (x / 2 ^ (j - k)). split; [reflexivity|]. split; [reflexivity|].
  assert (Pj : 0 < 2 ^ j) by (apply Z.pow_pos_nonneg; lia). assert (Pk : 0 < 2 ^ k) by (apply Z.pow_pos_nonneg; lia).
  assert (Pd : 0 < 2 ^ (j - k)) by (apply Z.pow_pos_nonneg; lia).
  assert (E : x / 2 ^ (j - k) = (x * 2 ^ k) / 2 ^ j).
  { replace (2 ^ j) with (2 ^ (j - k) * 2 ^ k) by (rewrite <- Z.pow_add_r by lia; f_equal; lia).
    symmetry. apply Z.div_mul_cancel_r; lia. }
  split; [rewrite E; apply Z.div_mod; lia|]. split; [apply Z.mod_pos_bound; lia|].
  split; [apply Z.div_pos; lia|]. apply Z.mul_div_le. lia.
Qed.

Lemma zadd_0 d l v : zadd (d :: l) 0 v = (d + v) :: l. Proof. reflexivity. Qed.
Lemma zadd_S d l i v : zadd (d :: l) (S i) v = d :: zadd l i v. Proof. reflexivity. Qed.

Lemma even_spec l0 l1 l2 l3 l4 l5 l6 l7 l8 l9 rest : 0 <= l0 ->
  exists x q d3 d4 d6 d7 d8 d9,
    evenZ 0 (l0 :: l1 :: l2 :: l3 :: l4 :: l5 :: l6 :: l7 :: l8 :: l9 :: rest) =
      0 :: (l1 + q) :: l2 :: (l3 + d3) :: (l4 + d4) :: l5 :: (l6 + d6) :: (l7 + d7) :: (l8 + d8) :: (l9 + d9) :: rest /\
    l0 = x + 2 ^ 29 * q /\ 0 <= x < 2 ^ 29 /\ 0 <= q /\
    0 <= d3 < 2 ^ 28 /\ 0 <= d4 < 2 ^ 11 /\ 0 <= d6 < 2 ^ 29 /\ 0 <= d7 <= 2 ^ 28 + 2 ^ 21 /\
    0 <= d8 < 2 ^ 29 + 2 ^ 28 /\ -1 <= d9 < 2 ^ 28 /\ (d9 < 0 -> 2 ^ 29 <= d8) /\
    2 ^ 86 * d3 + 2 ^ 114 * d4 + 2 ^ 171 * d6 + 2 ^ 200 * d7 + 2 ^ 228 * d8 + 2 ^ 257 * d9 = x * (p + 1).
Proof.
  intros H0. unfold evenZ, even_tail. cbn [Nat.add]. rewrite !zadd_S, !zadd_0. cbn [at_ nth put]. repeat (rewrite ?zadd_S, ?zadd_0).
  rewrite !mask_shl by lia. rewrite !shr_eq by lia. rewrite (mask_eq true l0). cbn [bits].
  pose proof (Z.div_mod l0 (2 ^ 29) ltac:(lia)) as D. pose proof (Z.mod_pos_bound l0 (2 ^ 29) ltac:(lia)) as Bx.
  pose proof (Z.div_pos l0 (2 ^ 29) H0 ltac:(lia)) as Bq.
  set (x := l0 mod 2 ^ 29) in *. set (q := l0 / 2 ^ 29) in *. clearbody x q.
  destruct (split_at x 10 28 ltac:(lia) (proj1 Bx)) as (d3 & d4 & -> & E4 & E34 & B3 & B4 & B4').
  destruct (split_at x 21 29 ltac:(lia) (proj1 Bx)) as (d6 & s8 & -> & E8 & E67 & B6 & B8 & B8').
  destruct (split_at x 24 28 ltac:(lia) (proj1 Bx)) as (m7 & s4 & -> & E4' & E78 & B7 & Bs4 & Bs4').
  destruct (split_at x 28 29 ltac:(lia) (proj1 Bx)) as (m8 & s1 & -> & E1 & E89 & Bm8 & Bs1 & Bs1').
  change (28 - 10) with 18 in *. change (29 - 21) with 8 in *. change (28 - 24) with 4 in *. change (29 - 28) with 1 in *.
  rewrite E4, E8, E4', E1.
  exists x, q, d3, d4, d6.
  exists (s8 + (if x =? 0 then 0 else 0x10000000) + - m7).
  exists ((if x =? 0 then 0 else x - 1) + - s4 + (if x =? 0 then 0 else 0x20000000) + - x + m8).
  exists (if x =? 0 then 0 else s1 - 1).
  split; [repeat (apply f_equal2; [rewrite <- ?Z.add_assoc; reflexivity|]); reflexivity|].
  clear E4 E8 E4' E1. unfold Int.Spec.p.
  destruct (Z.eqb_spec x 0) as [-> | Hx].
  - assert (d3 = 0 /\ d4 = 0 /\ d6 = 0 /\ s8 = 0 /\ m7 = 0 /\ s4 = 0 /\ m8 = 0 /\ s1 = 0) by lia. repeat split; lia.
  - repeat split; try lia.
Qed.
Lemma odd_spec l1 l2 l3 l4 l5 l6 l7 l8 l9 l10 rest : 0 <= l1 ->
  exists x q d4 d5 d7 d8 d9 d10,
    oddZ 0 (0 :: l1 :: l2 :: l3 :: l4 :: l5 :: l6 :: l7 :: l8 :: l9 :: l10 :: rest) =
      0 :: 0 :: (l2 + q) :: l3 :: (l4 + d4) :: (l5 + d5) :: l6 :: (l7 + d7) :: (l8 + d8) :: (l9 + d9) :: (l10 + d10) :: rest /\
    l1 = x + 2 ^ 28 * q /\ 0 <= x < 2 ^ 28 /\ 0 <= q /\
    0 <= d4 < 2 ^ 29 /\ 0 <= d5 < 2 ^ 10 /\ 0 <= d7 < 2 ^ 28 /\ 0 <= d8 <= 2 ^ 29 + 2 ^ 21 /\
    0 <= d9 < 2 ^ 28 /\ 0 <= d10 < 2 ^ 28 /\
    2 ^ 114 * d4 + 2 ^ 143 * d5 + 2 ^ 200 * d7 + 2 ^ 228 * d8 + 2 ^ 257 * d9 + 2 ^ 285 * d10 = 2 ^ 29 * x * (p + 1).
Proof.
  intros H0. unfold oddZ, odd_tail. cbn [Nat.add]. rewrite !zadd_S, !zadd_0. cbn [at_ nth put]. repeat (rewrite ?zadd_S, ?zadd_0).
  rewrite !mask_shl by lia. rewrite !shr_eq by lia. rewrite (mask_eq false l1). cbn [bits].
  pose proof (Z.div_mod l1 (2 ^ 28) ltac:(lia)) as D. pose proof (Z.mod_pos_bound l1 (2 ^ 28) ltac:(lia)) as Bx.
  pose proof (Z.div_pos l1 (2 ^ 28) H0 ltac:(lia)) as Bq.
  set (x := l1 mod 2 ^ 28) in *. set (q := l1 / 2 ^ 28) in *. clearbody x q.
  destruct (split_at x 11 29 ltac:(lia) (proj1 Bx)) as (d4 & d5 & -> & E5 & E45 & B4 & B5 & B5').
  destruct (split_at x 21 28 ltac:(lia) (proj1 Bx)) as (d7 & s7 & -> & E7 & E78 & B7 & B8 & B8').
  destruct (split_at x 25 29 ltac:(lia) (proj1 Bx)) as (m8 & s4 & -> & E4 & E89 & Bm8 & Bs4 & Bs4').
  change (29 - 11) with 18 in *. change (28 - 21) with 7 in *. change (29 - 25) with 4 in *.
  rewrite E5, E7, E4.
  exists x, q, d4, d5, d7.
  exists (s7 + (if x =? 0 then 0 else 0x20000000) + - m8).
  exists ((if x =? 0 then 0 else x - 1) + - s4 + (if x =? 0 then 0 else 0x10000000) + - x).
  exists (if x =? 0 then 0 else x - 1).
  split; [repeat (apply f_equal2; [rewrite <- ?Z.add_assoc; reflexivity|]); reflexivity|].
  clear E5 E7 E4. unfold Int.Spec.p.
  destruct (Z.eqb_spec x 0) as [-> | Hx].
  - assert (d4 = 0 /\ d5 = 0 /\ d7 = 0 /\ s7 = 0 /\ m8 = 0 /\ s4 = 0) by lia. repeat split; lia.
  - repeat split; try lia.
Qed.

(** ** The loop *)
(** The limbs that are left, before an iteration: how large they have become, and where -1 is possible. *)
Definition fresh (d : Z) : Prop := 0 <= d < 2 ^ 29 + 2 ^ 8.
(** An odd limb may be -1, if the limb below will carry. *)
Definition pair (a b bound : Z) : Prop := -1 <= b < bound /\ (b < 0 -> 2 ^ 29 <= a).
Definition Inv (m : list Z) : Prop :=
  match m with
  | l0 :: l1 :: l2 :: l3 :: l4 :: l5 :: l6 :: l7 :: l8 :: l9 :: rest =>
      0 <= l0 < 13 * 2 ^ 28 /\ pair l0 l1 (8 * 2 ^ 28) /\
      0 <= l2 < 12 * 2 ^ 28 + 2 ^ 24 /\ pair l2 l3 (6 * 2 ^ 28 + 2 ^ 23) /\
      0 <= l4 < 10 * 2 ^ 28 + 2 ^ 23 /\ pair l4 l5 (6 * 2 ^ 28 + 2 ^ 22) /\
      0 <= l6 < 8 * 2 ^ 28 + 2 ^ 22 /\ pair l6 l7 (4 * 2 ^ 28 + 2 ^ 9) /\
      0 <= l8 < 3 * 2 ^ 28 + 2 ^ 8 /\ fresh l9 /\ Forall fresh rest
  | _ => False
  end.
(** The limbs after the last iteration. *)
Definition Out (t : list Z) : Prop :=
  match t with
  | [t0; t1; t2; t3; t4; t5; t6; t7; t8] =>
      0 <= t0 < 9 * 2 ^ 28 /\
      0 <= t1 < 13 * 2 ^ 28 /\ pair t1 t2 (8 * 2 ^ 28) /\
      0 <= t3 < 13 * 2 ^ 28 /\ pair t3 t4 (8 * 2 ^ 28) /\
      0 <= t5 < 13 * 2 ^ 28 /\ pair t5 t6 (8 * 2 ^ 28) /\
      0 <= t7 < 13 * 2 ^ 28 /\ pair t7 t8 (3 * 2 ^ 28 + 2 ^ 8)
  | _ => False
  end.

Lemma eliminate_spec n : forall pre m, Inv m -> length m = (2 * n + 10)%nat ->
  exists t M, eliminate false n (length pre) (map w (pre ++ m)) = Some (map w (pre ++ repeat 0 (2 * n + 1) ++ t)) /\
    Out t /\ 0 <= M < 2 ^ width true (2 * n + 1) /\
    2 ^ width true (2 * n + 1) * V false t = V true m + p * M.
Proof.
  induction n as [|n IH]; intros pre m I L.
  - do 10 (destruct m as [|? m]; [contradiction|]). destruct m; [|discriminate].
    rename z into l0, z0 into l1, z1 into l2, z2 into l3, z3 into l4, z4 into l5, z5 into l6, z6 into l7, z7 into l8, z8 into l9.
    cbn [Inv] in I. unfold pair, fresh in I. destruct I as (I0 & I1 & I2 & I3 & I4 & I5 & I6 & I7 & I8 & I9 & _).
    cbn [eliminate]. rewrite even_w by (rewrite at_app0; cbn [at_ nth]; lia). rewrite even_app.
    destruct (even_spec l0 l1 l2 l3 l4 l5 l6 l7 l8 l9 [] ltac:(lia)) as (x & q & d3 & d4 & d6 & d7 & d8 & d9 & -> & E0 & Bx & Bq & B3 & B4 & B6 & B7 & B8 & B9 & B98 & HV).
    exists [l1 + q; l2; l3 + d3; l4 + d4; l5; l6 + d6; l7 + d7; l8 + d8; l9 + d9], x.
    split; [reflexivity|]. split; [cbn [Out]; unfold pair; lia|]. change (width true (2 * 0 + 1)) with 29.
    split; [exact Bx|]. cbn [V bits negb]. clear I1 I2 I3 I4 I5 I6 I7 I8 I9. unfold Int.Spec.p in *. lia.
  - do 12 (destruct m as [|? m]; [try contradiction; cbn [length] in L; lia|]).
    rename z into l0, z0 into l1, z1 into l2, z2 into l3, z3 into l4, z4 into l5, z5 into l6, z6 into l7, z7 into l8, z8 into l9, z9 into l10, z10 into l11.
    cbn [Inv] in I. unfold pair, fresh in I. destruct I as (I0 & I1 & I2 & I3 & I4 & I5 & I6 & I7 & I8 & I9 & Ir).
    inversion Ir as [|? ? I10 Ir']; subst. inversion Ir' as [|? ? I11 Ir'']; subst. clear Ir Ir'.
    cbn [eliminate]. rewrite even_w by (rewrite at_app0; cbn [at_ nth]; lia). rewrite even_app.
    destruct (even_spec l0 l1 l2 l3 l4 l5 l6 l7 l8 l9 (l10 :: l11 :: m) ltac:(lia))
      as (x & q & d3 & d4 & d6 & d7 & d8 & d9 & -> & E0 & Bx & Bq & B3 & B4 & B6 & B7 & B8 & B9 & B98 & HV).
    rewrite odd_w by (rewrite at_app; cbn [at_ nth]; lia). rewrite odd_app.
    destruct (odd_spec (l1 + q) l2 (l3 + d3) (l4 + d4) l5 (l6 + d6) (l7 + d7) (l8 + d8) (l9 + d9) l10 (l11 :: m) ltac:(lia))
      as (y & r & e4 & e5 & e7 & e8 & e9 & e10 & -> & F0 & Cx & Cq & C4 & C5 & C7 & C8 & C9 & C10 & HW).
    set (m' := (l2 + r) :: (l3 + d3) :: (l4 + d4 + e4) :: (l5 + e5) :: (l6 + d6) :: (l7 + d7 + e7) :: (l8 + d8 + e8) :: (l9 + d9 + e9) :: (l10 + e10) :: l11 :: m).
    destruct (IH (pre ++ [0; 0]) m') as (t & M & E & Ot & BM & HM).
    { unfold m'. cbn [Inv]. unfold pair, fresh in *. 
      assert (r < 2 ^ 24) by lia. repeat split; try lia; try exact Ir''. }
    { unfold m'. cbn [length] in *. lia. }
    exists t, (x + 2 ^ 29 * y + 2 ^ 57 * M).
    assert (Ep : pre ++ 0 :: 0 :: m' = (pre ++ [0; 0]) ++ m') by (rewrite <- app_assoc; reflexivity).
    rewrite Ep. replace (length pre + 2)%nat with (length (pre ++ [0; 0])) by (rewrite app_length; reflexivity). rewrite E.
    split; [|split; [exact Ot|]].
    + replace (2 * S n + 1)%nat with (S (S (2 * n + 1))) by lia. cbn [repeat]. rewrite <- app_assoc. reflexivity.
    + replace (2 * S n + 1)%nat with (S (S (2 * n + 1))) by lia. cbn [width negb bits].
      set (k := width true (2 * n + 1)) in *. assert (Hk : 0 <= k) by apply width_nonneg.
      replace (2 ^ (29 + (28 + k))) with (2 ^ 57 * 2 ^ k) by (rewrite <- Z.pow_add_r by lia; f_equal; lia).
      split; [lia|]. rewrite <- Z.mul_assoc, HM. unfold m'. cbn [V bits negb].
      clear - E0 F0 HV HW. unfold Int.Spec.p in *. generalize dependent (V true m). intros vm. lia.
Qed.
