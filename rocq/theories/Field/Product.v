(** Proofs about field elements: multiplication, squaring and inversion. *)
From Verif Require Import Base Field.Model Field.Spec Field.Proofs Field.Mul Field.Eliminate.
Open Scope Z_scope.
Ltac Zify.zify_post_hook ::= idtac.

(** ** compact_limbs *)
Lemma compact_step c a b tl : 0 <= c < 16 -> -1 <= a < 9 * 2 ^ 28 -> 0 <= a + c -> 0 <= b < 13 * 2 ^ 28 ->
  exists s t c', compact_loop false c (w a :: w b :: tl) =
      (let? (r, c2) := compact_loop false c' tl in Some (s :: t :: r, c2)) /\
    a + c + 2 ^ 28 * b = s + 2 ^ 29 * t + 2 ^ 57 * c' /\ 0 <= s < 2 ^ 29 /\ 0 <= t < 2 ^ 28 /\ 0 <= c' < 16 /\
    (2 ^ 29 <= b -> 1 <= c').
Proof.
  intros Hc Ha Hac Hb. cbn [compact_loop]. rewrite !arith_false, (w_plus a c). rewrite (w_small b) by lia.
  rewrite mask_shl by lia. cbn [bits].
  destruct (split_at b 28 29 ltac:(lia) (proj1 Hb)) as (m & h & -> & Eh & E & Bm & Bh & Bh'). change (29 - 28) with 1 in *.
  rewrite (shr_eq b 1) by lia. rewrite Eh. rewrite (w_small (a + c)) by lia.
  rewrite (w_small (a + c + m)) by lia. set (s := a + c + m). rewrite (shr_eq s 29) by lia. rewrite mask_eq. cbn [bits].
  pose proof (Z.div_mod s (2 ^ 29) ltac:(lia)) as Ds. pose proof (Z.mod_pos_bound s (2 ^ 29) ltac:(lia)) as Bs.
  assert (Bq : 0 <= s / 2 ^ 29 < 8) by (split; [apply Z.div_pos; lia|apply Z.div_lt_upper_bound; lia]).
  set (q := s / 2 ^ 29) in *. set (sm := s mod 2 ^ 29) in *. clearbody q sm.
  rewrite (w_small (h + q)) by lia. rewrite (shr_eq (h + q) 28) by lia. rewrite mask_eq. cbn [bits].
  pose proof (Z.div_mod (h + q) (2 ^ 28) ltac:(lia)) as Dt. pose proof (Z.mod_pos_bound (h + q) (2 ^ 28) ltac:(lia)) as Bt.
  exists sm, ((h + q) mod 2 ^ 28), ((h + q) / 2 ^ 28). split; [reflexivity|].
  set (tm := (h + q) mod 2 ^ 28) in *. set (c' := (h + q) / 2 ^ 28) in *. clearbody tm c'. subst s.
  repeat split; lia.
Qed.
Lemma compact_spec t : Out t ->
  exists r c, compact_loop false 0 (map w t) = Some (r, c) /\ length r = 9%nat /\ masked true r /\ 0 <= c <= 1 /\
    V true r + 2 ^ 257 * c = V false t.
Proof.
  intros O. do 9 (destruct t as [|? t]; [contradiction|]). destruct t; [|contradiction].
  rename z into t0, z0 into t1, z1 into t2, z2 into t3, z3 into t4, z4 into t5, z5 into t6, z6 into t7, z7 into t8.
  cbn [Out] in O. unfold pair in O. destruct O as (O0 & O1 & O2 & O3 & O4 & O5 & O6 & O7 & O8). cbn [map].
  destruct (compact_step 0 t0 t1 (map w [t2; t3; t4; t5; t6; t7; t8])) as (s0 & s1 & c1 & Q1 & E1 & B0 & B1 & C1 & P1); [lia..|].
  cbn [map] in Q1. rewrite Q1. clear Q1.
  destruct (compact_step c1 t2 t3 (map w [t4; t5; t6; t7; t8])) as (s2 & s3 & c3 & Q3 & E3 & B2 & B3 & C3 & P3); [lia..|].
  cbn [map] in Q3. rewrite Q3. clear Q3.
  destruct (compact_step c3 t4 t5 (map w [t6; t7; t8])) as (s4 & s5 & c5 & Q5 & E5 & B4 & B5 & C5 & P5); [lia..|].
  cbn [map] in Q5. rewrite Q5. clear Q5.
  destruct (compact_step c5 t6 t7 (map w [t8])) as (s6 & s7 & c7 & Q7 & E7 & B6 & B7 & C7 & P7); [lia..|].
  cbn [map] in Q7. rewrite Q7. clear Q7.
  cbn [compact_loop]. change ((w t8 + c7) mod 2 ^ 32) with (w (w t8 + c7)). rewrite w_plus, (w_small (t8 + c7)) by lia.
  rewrite mask_eq, shr_eq by lia. cbn [bits].
  pose proof (Z.div_mod (t8 + c7) (2 ^ 29) ltac:(lia)) as Dt. pose proof (Z.mod_pos_bound (t8 + c7) (2 ^ 29) ltac:(lia)) as Bt.
  assert (Bq : 0 <= (t8 + c7) / 2 ^ 29 <= 1) by (split; [apply Z.div_pos; lia|apply Z.lt_succ_r, Z.div_lt_upper_bound; lia]).
  set (s8 := (t8 + c7) mod 2 ^ 29) in *. set (c9 := (t8 + c7) / 2 ^ 29) in *. clearbody s8 c9.
  eexists _, _. split; [reflexivity|]. cbn [length masked V bits negb]. split; [reflexivity|]. split; [repeat split; lia|].
  split; [exact Bq|]. clear P1 P3 P5 P7 O0 O1 O2 O3 O4 O5 O6 O7 O8. lia.
Qed.

(** ** reduce_degree *)
Lemma Inv_start l : length l = 18%nat -> masked_but_last true l -> Inv l /\ map w l = l.
Proof.
  intros L M. do 18 (destruct l as [|? l]; [discriminate|]). destruct l; [|discriminate].
  cbn [masked_but_last bits negb] in M. unfold fresh. cbn [Inv]. unfold pair, fresh. split.
  - repeat split; try (repeat constructor); lia.
  - cbn [map]. repeat (apply f_equal2; [apply w_small; lia|]). reflexivity.
Qed.
Lemma reduce_degree_spec big : length big = 17%nat -> Forall (fun b => 0 <= b < 2 ^ 64) big -> nth 16 big 0 < 2 ^ 58 ->
  0 <= V true big < (2 ^ 257 + 2 ^ 230) * (2 ^ 257 + 2 ^ 230) ->
  exists l, reduce_degree false big = Some l /\ is_limbs l /\ V true l < 2 ^ 257 /\
    (2 ^ 257 * V true l) mod p = V true big mod p.
Proof.
  intros L F T BV. unfold reduce_degree.
  destruct (propagate_spec false big L F T) as (l & -> & Ll & Ml & Vl).
  destruct (Inv_start l Ll Ml) as (I & El). unfold eliminate_terms.
  destruct (eliminate_spec 4 [] l I Ll) as (t & M & E & O & BM & HM). cbn [app length] in E. rewrite El in E. rewrite E.
  unfold compact_limbs.
  replace (skipn NLIMBS (map w (repeat 0 (2 * 4 + 1) ++ t))) with (map w t) by reflexivity.
  destruct (compact_spec t O) as (r & c & -> & Lr & Mr & Bc & Vr).
  destruct (reduce_carry_spec false r c Lr Mr ltac:(lia)) as (l' & -> & Il & Vl').
  exists l'. split; [reflexivity|]. split; [exact Il|]. change (width true (2 * 4 + 1)) with 257 in *.
  rewrite <- Vr, Vl in HM. pose proof (masked_bound r Lr Mr) as Br.
  set (v := V true big) in *. set (vr := V true r) in *. clearbody v vr. rewrite Vl'. split.
  - assert (c = 0 \/ c = 1) as [-> | ->] by lia; [lia|]. unfold K. rewrite p_eq in HM. lia.
  - replace (2 ^ 257 * (vr + c * K)) with (v + (M - 2 ^ 257 * 2 * c) * p); [apply Z_mod_plus_full|].
    rewrite K_eq in HM at 2. rewrite <- (Z.add_0_r v). replace (v + 0) with (2 ^ 257 * (vr + (K + 2 * p) * c) - p * M) by lia. ring.
Qed.

Lemma square_bound va vb : 0 <= va < 2 ^ 257 + 2 ^ 230 -> 0 <= vb < 2 ^ 257 + 2 ^ 230 ->
  0 <= va * vb < (2 ^ 257 + 2 ^ 230) * (2 ^ 257 + 2 ^ 230).
Proof. intros. split; [apply Z.mul_nonneg_nonneg; lia|]. apply Z.mul_lt_mono_nonneg; lia. Qed.
Lemma top_term a b : is_limbs a -> is_limbs b -> at_ a 8 * (at_ b 8 * 2 ^ 0) + 0 < 2 ^ 58.
Proof.
  intros (La & Ha & Ta) (Lb & Hb & Tb). pose proof (Ha 8%nat ltac:(lia)). pose proof (Hb 8%nat ltac:(lia)).
  cbn [Nat.even] in *. unfold at_. set (x := nth 8 a 0) in *. set (y := nth 8 b 0) in *. clearbody x y. nia.
Qed.
Lemma mul_release a b : is_limbs a -> is_limbs b ->
  exists l, mul false a b = Some l /\ is_limbs l /\ V true l < 2 ^ 257 /\
    (2 ^ 257 * V true l) mod p = (V true a * V true b) mod p.
Proof.
  intros Ia Ib. unfold mul. destruct (products_spec false 0 a b mul_terms Ia Ib ltac:(lia) eq_refl eq_refl) as (-> & F).
  rewrite <- mul_value by (apply Ia || apply Ib). apply reduce_degree_spec; [reflexivity|exact F| |].
  - exact (top_term a b Ia Ib).
  - rewrite mul_value by (apply Ia || apply Ib). apply square_bound; apply V_bound; assumption.
Qed.
Lemma square_release a : is_limbs a ->
  exists l, square false a = Some l /\ is_limbs l /\ V true l < 2 ^ 257 /\
    (2 ^ 257 * V true l) mod p = (V true a * V true a) mod p.
Proof.
  intros Ia. unfold square. destruct (products_spec false 1 a a square_terms Ia Ia ltac:(lia) eq_refl eq_refl) as (-> & F).
  rewrite <- square_value by apply Ia. apply reduce_degree_spec; [reflexivity|exact F| |].
  - exact (top_term a a Ia Ia).
  - rewrite square_value by apply Ia. apply square_bound; apply V_bound; assumption.
Qed.

(** ** With overflow checks: a result is the result without them *)
Lemma arith_mono ck x y : arith ck x = Some y -> arith false x = Some y.
Proof. unfold arith. cbn [andb]. destruct (ck && _); [discriminate|auto]. Qed.
Lemma arith64_mono ck x y : arith64 ck x = Some y -> arith64 false x = Some y.
Proof. unfold arith64. cbn [andb]. destruct (ck && _); [discriminate|auto]. Qed.
Lemma add_at_mono ck l i v r : add_at ck l i v = Some r -> add_at false l i v = Some r.
Proof. unfold add_at. destruct (arith ck _) eqn:E; [|discriminate]. rewrite (arith_mono _ _ _ E). auto. Qed.
Lemma sub_at_mono ck l i v r : sub_at ck l i v = Some r -> sub_at false l i v = Some r.
Proof. unfold sub_at. destruct (arith ck _) eqn:E; [|discriminate]. rewrite (arith_mono _ _ _ E). auto. Qed.
Ltac mono :=
  repeat match goal with
  | |- (match arith ?ck ?x with _ => _ end) = _ -> _ =>
      let E := fresh "E" in destruct (arith ck x) eqn:E; [rewrite (arith_mono _ _ _ E); clear E|discriminate]
  | |- (match add_at ?ck ?l ?i ?v with _ => _ end) = _ -> _ =>
      let E := fresh "E" in destruct (add_at ck l i v) eqn:E; [rewrite (add_at_mono _ _ _ _ _ E); clear E|discriminate]
  | |- (match sub_at ?ck ?l ?i ?v with _ => _ end) = _ -> _ =>
      let E := fresh "E" in destruct (sub_at ck l i v) eqn:E; [rewrite (sub_at_mono _ _ _ _ _ E); clear E|discriminate]
  end; try apply add_at_mono; try apply sub_at_mono; auto.
Lemma reduce_carry_mono ck l c r : reduce_carry ck l c = Some r -> reduce_carry false l c = Some r.
Proof. unfold reduce_carry. cbv zeta. mono. Qed.
Lemma eliminate_even_mono ck i l r : eliminate_even ck i l = Some r -> eliminate_even false i l = Some r.
Proof. unfold eliminate_even. cbv zeta. mono. Qed.
Lemma eliminate_odd_mono ck i l r : eliminate_odd ck i l = Some r -> eliminate_odd false i l = Some r.
Proof. unfold eliminate_odd. cbv zeta. mono. Qed.
Lemma eliminate_mono ck n : forall i l r, eliminate ck n i l = Some r -> eliminate false n i l = Some r.
Proof.
  induction n as [|n IH]; intros i l r; cbn [eliminate];
    (destruct (eliminate_even ck i l) eqn:E; [rewrite (eliminate_even_mono _ _ _ _ E)|discriminate]); [auto|].
  destruct (eliminate_odd ck i l0) eqn:E'; [rewrite (eliminate_odd_mono _ _ _ _ E')|discriminate]. apply IH.
Qed.
Lemma compact_loop_mono ck n : forall t c r, (length t <= n)%nat -> compact_loop ck c t = Some r -> compact_loop false c t = Some r.
Proof.
  induction n as [|n IH]; intros t c r L; [destruct t; [auto|cbn [length] in L; lia]|].
  destruct t as [|a [|b t]]; cbn [compact_loop]; auto. mono.
  destruct (compact_loop ck _ t) eqn:E; [|discriminate]. cbn [length] in L. assert (Ll : (length t <= n)%nat) by lia. rewrite (IH _ _ _ Ll E). auto.
Qed.
Lemma propagate_loop_mono ck big : forall e c r, propagate_loop ck e c big = Some r -> propagate_loop false e c big = Some r.
Proof.
  induction big as [|b2 big IH]; intros e c r; [auto|]. destruct big as [|b1 [|b0 big]]; [auto| |].
  - cbn [propagate_loop]. mono.
  - rewrite !propagate_loop_eq. cbv zeta. mono.
    destruct (propagate_loop ck (negb e) _ _) eqn:E; [|discriminate]. rewrite (IH _ _ _ E). auto.
Qed.
Lemma propagate_carry_mono ck big r : propagate_carry ck big = Some r -> propagate_carry false big = Some r.
Proof.
  unfold propagate_carry. cbv zeta. mono.
  destruct (propagate_loop ck true _ big) eqn:E; [rewrite (propagate_loop_mono _ _ _ _ _ E)|discriminate]. auto.
Qed.
Lemma reduce_degree_mono ck big r : reduce_degree ck big = Some r -> reduce_degree false big = Some r.
Proof.
  unfold reduce_degree. destruct (propagate_carry ck big) eqn:E; [rewrite (propagate_carry_mono _ _ _ E)|discriminate].
  unfold eliminate_terms. destruct (eliminate ck 4 0 _) eqn:E'; [rewrite (eliminate_mono _ _ _ _ _ E')|discriminate].
  unfold compact_limbs. destruct (compact_loop ck 0 _) as [[r0 c]|] eqn:Ec; [|discriminate].
  rewrite (compact_loop_mono _ _ _ _ _ (Nat.le_refl _) Ec). apply reduce_carry_mono.
Qed.
Lemma sum_terms_mono ck a b ts : forall acc r, sum_terms ck a b acc ts = Some r -> sum_terms false a b acc ts = Some r.
Proof.
  induction ts as [|((i & j) & s) ts IH]; intros acc r; [auto|]. cbn [sum_terms].
  destruct (arith64 ck _) eqn:E; [|discriminate]. rewrite (arith64_mono _ _ _ E).
  destruct (arith64 ck (acc + _)) eqn:E'; [|discriminate]. rewrite (arith64_mono _ _ _ E'). apply IH.
Qed.
Lemma products_mono ck a b tss : forall r, products ck a b tss = Some r -> products false a b tss = Some r.
Proof.
  induction tss as [|ts tss IH]; intros r; [auto|]. cbn [products].
  destruct (sum_terms ck a b 0 ts) eqn:E; [|discriminate]. rewrite (sum_terms_mono _ _ _ _ _ _ E).
  destruct (products ck a b tss) eqn:E'; [|discriminate]. rewrite (IH _ eq_refl). auto.
Qed.
Lemma mul_mono ck a b r : mul ck a b = Some r -> mul false a b = Some r.
Proof.
  unfold mul. destruct (products ck a b mul_terms) eqn:E; [|discriminate]. rewrite (products_mono _ _ _ _ _ E).
  apply reduce_degree_mono.
Qed.
Lemma square_mono ck a r : square ck a = Some r -> square false a = Some r.
Proof.
  unfold square. destruct (products ck a a square_terms) eqn:E; [|discriminate]. rewrite (products_mono _ _ _ _ _ E).
  apply reduce_degree_mono.
Qed.
