(** Bits of words: fields, subsets of bits and checksums. *)
From Verif Require Import Base.
From Verif.Kv Require Import Model.
From Verif.Store Require Import Format.
Open Scope N_scope.
Ltac Zify.zify_post_hook ::= idtac.

(** [a] is reached from [b] by clearing bits. *)
Definition sub (a b : N) : Prop := forall i, N.testbit a i = true -> N.testbit b i = true.
Definition w32 (w : N) : Prop := w < 4294967296.

Lemma sub_refl a : sub a a.
Proof. intros i H. exact H. Qed.
Lemma sub_trans a b c : sub a b -> sub b c -> sub a c.
Proof. intros H1 H2 i H. apply H2, H1, H. Qed.
Lemma sub_antisym a b : sub a b -> sub b a -> a = b.
Proof.
  intros H1 H2. apply N.bits_inj. intros i.
  destruct (N.testbit a i) eqn:A; destruct (N.testbit b i) eqn:B; try reflexivity.
  - rewrite (H1 _ A) in B. discriminate.
  - rewrite (H2 _ B) in A. discriminate.
Qed.
Lemma sub_land a b : sub a b <-> N.land a b = a.
Proof.
  split.
  - intros H. apply N.bits_inj. intros i. rewrite N.land_spec.
    destruct (N.testbit a i) eqn:A; [rewrite (H i A)|]; reflexivity.
  - intros H i A. rewrite <- H, N.land_spec in A. apply andb_true_iff in A as [_ A]. exact A.
Qed.
Lemma sub_0 b : sub 0 b.
Proof. intros i H. rewrite N.bits_0 in H. discriminate. Qed.
Lemma land_sub_r a b : sub (N.land a b) b.
Proof. intros i H. rewrite N.land_spec in H. apply andb_true_iff in H as [_ H]. exact H. Qed.
Lemma land_sub_l a b : sub (N.land a b) a.
Proof. intros i H. rewrite N.land_spec in H. apply andb_true_iff in H as [H _]. exact H. Qed.

Lemma w32_bit w : w32 w <-> forall i, 32 <= i -> N.testbit w i = false.
Proof.
  unfold w32. split.
  - intros H i Hi. destruct (N.eq_dec w 0) as [->|E]; [apply N.bits_0|].
    apply N.bits_above_log2. apply N.log2_lt_pow2; [lia|].
    apply N.lt_le_trans with (2 ^ 32); [exact H|]. apply N.pow_le_mono_r; lia.
  - intros H. destruct (N.eq_dec w 0) as [->|E]; [lia|].
    change 4294967296 with (2 ^ 32). apply N.log2_lt_pow2; [lia|].
    destruct (N.lt_ge_cases (N.log2 w) 32) as [G|G]; [exact G|].
    specialize (H _ G). rewrite N.bit_log2 in H by exact E. discriminate.
Qed.
Lemma erased_bit i : N.testbit ERASED i = (i <? 32).
Proof.
  change ERASED with (N.ones 32).
  destruct (i <? 32) eqn:E.
  - apply N.ltb_lt in E. apply N.ones_spec_low. exact E.
  - apply N.ltb_ge in E. apply N.ones_spec_high. exact E.
Qed.
Lemma sub_erased w : w32 w <-> sub w ERASED.
Proof.
  rewrite w32_bit. split.
  - intros H i Hi. rewrite erased_bit. destruct (i <? 32) eqn:E; [reflexivity|].
    apply N.ltb_ge in E. rewrite (H i E) in Hi. discriminate.
  - intros H i Hi. destruct (N.testbit w i) eqn:E; [|reflexivity].
    apply H in E. rewrite erased_bit in E. apply N.ltb_lt in E. lia.
Qed.
Lemma w32_erased : w32 ERASED.
Proof. reflexivity. Qed.
Lemma w32_sub a b : sub a b -> w32 b -> w32 a.
Proof. intros H1 H2. apply sub_erased. apply sub_erased in H2. eapply sub_trans; eauto. Qed.
Lemma w32_land a b : w32 a -> w32 (N.land a b).
Proof. intros H. eapply w32_sub; [apply land_sub_l|exact H]. Qed.
Lemma lnot32_bit w i : N.testbit (lnot32 w) i = xorb (N.testbit w i) (i <? 32).
Proof. unfold lnot32. rewrite N.lxor_spec, erased_bit. reflexivity. Qed.

(** Fewer bits, smaller number. *)
Lemma sub_le a b : sub a b -> a <= b.
Proof.
  intros H. apply sub_land in H.
  assert (E : b = N.lor a (N.ldiff b a)).
  { apply N.bits_inj. intros i. rewrite N.lor_spec, N.ldiff_spec.
    assert (Hi : N.testbit a i = true -> N.testbit b i = true).
    { intros A. rewrite <- H, N.land_spec in A. apply andb_true_iff in A as [_ A]. exact A. }
    destruct (N.testbit a i) eqn:A; [rewrite Hi by reflexivity|]; cbn; [reflexivity|].
    rewrite andb_true_r. reflexivity. }
  assert (D : N.land a (N.ldiff b a) = 0).
  { apply N.bits_inj. intros i. rewrite N.land_spec, N.ldiff_spec, N.bits_0.
    destruct (N.testbit a i); cbn; [|reflexivity]. rewrite andb_false_r. reflexivity. }
  rewrite E, <- N.lxor_lor, <- N.add_nocarry_lxor by exact D. lia.
Qed.

Lemma ones_le n w : ones n w <= N.of_nat n.
Proof. induction n as [|n IH]; cbn [ones]; [lia|]. destruct N.testbit; lia. Qed.
Lemma ones_sub n a b :
  sub a b -> ones n a <= ones n b /\
  (ones n a = ones n b -> forall i, i < N.of_nat n -> N.testbit a i = N.testbit b i).
Proof.
  intros H. induction n as [|n [IH1 IH2]]; cbn [ones].
  - split; [lia|]. intros _ i Hi. lia.
  - specialize (H (N.of_nat n)).
    destruct (N.testbit a (N.of_nat n)) eqn:A.
    + rewrite H by reflexivity. split; [lia|]. intros E i Hi.
      destruct (N.eq_dec i (N.of_nat n)) as [->|Ne]; [rewrite A, H; reflexivity|].
      apply IH2; lia.
    + destruct (N.testbit b (N.of_nat n)) eqn:B; (split; [lia|]); intros E i Hi.
      * lia.
      * destruct (N.eq_dec i (N.of_nat n)) as [->|Ne]; [rewrite A, B; reflexivity|].
        apply IH2; lia.
Qed.
Lemma ones_ext n a b :
  (forall i, i < N.of_nat n -> N.testbit a i = N.testbit b i) -> ones n a = ones n b.
Proof.
  induction n as [|n IH]; cbn [ones]; intros H; [reflexivity|].
  rewrite H by lia. rewrite IH; [reflexivity|]. intros i Hi. apply H. lia.
Qed.
Lemma ones_split n m w : ones (n + m) w = ones n w + ones m (N.shiftr w (N.of_nat n)).
Proof.
  induction m as [|m IH]; cbn [ones].
  - rewrite Nat.add_0_r. lia.
  - replace (n + S m)%nat with (S (n + m)) by lia. cbn [ones]. rewrite IH.
    rewrite N.shiftr_spec by lia.
    replace (N.of_nat m + N.of_nat n) with (N.of_nat (n + m)) by lia. lia.
Qed.
Lemma ones_high n m w : (forall i, N.of_nat n <= i -> N.testbit w i = false) ->
  (n <= m)%nat -> ones m w = ones n w.
Proof.
  intros H Hm. replace m with (n + (m - n))%nat by lia. rewrite ones_split.
  assert (Z : ones (m - n) (N.shiftr w (N.of_nat n)) = 0).
  { induction (m - n)%nat as [|k IH]; cbn [ones]; [reflexivity|].
    rewrite N.shiftr_spec by lia. rewrite H by lia. exact IH. }
  lia.
Qed.

(* ----------------------------------------------------------------- fields *)

Lemma mask_bit f i : N.testbit (f_mask f) i = (i <? f_len f).
Proof.
  unfold f_mask.
  replace (N.shiftl 1 (f_len f) - 1) with (N.ones (f_len f)).
  2:{ unfold N.ones. rewrite N.sub_1_r. reflexivity. }
  destruct (i <? f_len f) eqn:E.
  - apply N.ltb_lt in E. apply N.ones_spec_low. exact E.
  - apply N.ltb_ge in E. apply N.ones_spec_high. exact E.
Qed.
Lemma f_get_bit f w i : N.testbit (f_get f w) i = (i <? f_len f) && N.testbit w (i + f_pos f).
Proof.
  unfold f_get. rewrite N.land_spec, mask_bit, N.shiftr_spec by lia. apply andb_comm.
Qed.
Lemma fits_bit f v : v < 2 ^ f_len f -> forall i, f_len f <= i -> N.testbit v i = false.
Proof.
  intros H i Hi. destruct (N.eq_dec v 0) as [->|E]; [apply N.bits_0|].
  apply N.bits_above_log2. apply N.log2_lt_pow2; [lia|].
  apply N.lt_le_trans with (2 ^ f_len f); [exact H|]. apply N.pow_le_mono_r; lia.
Qed.
Lemma f_get_lt f w : f_get f w < 2 ^ f_len f.
Proof.
  destruct (N.eq_dec (f_get f w) 0) as [E|E].
  - rewrite E. pose proof (N.pow_nonzero 2 (f_len f)). lia.
  - apply N.log2_lt_pow2; [lia|].
    destruct (N.lt_ge_cases (N.log2 (f_get f w)) (f_len f)) as [G|G]; [exact G|].
    pose proof (N.bit_log2 _ E) as B. rewrite f_get_bit in B.
    apply andb_true_iff in B as [B _]. apply N.ltb_lt in B. exact B.
Qed.
Lemma f_get_sub f a b : sub a b -> sub (f_get f a) (f_get f b).
Proof.
  intros H i Hi. rewrite f_get_bit in *. apply andb_true_iff in Hi as [H1 H2].
  rewrite H1, (H _ H2). reflexivity.
Qed.

(** Setting a field whose bits are all at one. *)
Definition in_field (f : field) (i : N) : bool := (f_pos f <=? i) && (i <? f_pos f + f_len f).
Lemma f_set_spec f w v :
  w32 w -> f_pos f + f_len f <= 32 -> v < 2 ^ f_len f ->
  (forall i, in_field f i = true -> N.testbit w i = true) ->
  exists w', f_set f w v = Ok w' /\ w32 w' /\
    (forall i, N.testbit w' i =
      if in_field f i then N.testbit v (i - f_pos f) else N.testbit w i).
Proof.
  intros Hw Hf Hv Hones. unfold f_set.
  pose proof (fits_bit f v Hv) as Hhigh.
  assert (E1 : N.land v (f_mask f) = v).
  { apply N.bits_inj. intros i. rewrite N.land_spec, mask_bit.
    destruct (i <? f_len f) eqn:E; [apply andb_true_r|].
    apply N.ltb_ge in E. rewrite (Hhigh i E). reflexivity. }
  rewrite E1, N.eqb_refl. cbn [negb].
  set (w' := N.land w _).
  assert (B : forall i, N.testbit w' i =
      if in_field f i then N.testbit v (i - f_pos f) else N.testbit w i).
  { intros i. unfold w', in_field. rewrite N.land_spec, N.lor_spec, lnot32_bit.
    destruct (f_pos f <=? i) eqn:P.
    - apply N.leb_le in P. rewrite !N.shiftl_spec_high' by exact P. rewrite mask_bit.
      destruct (i <? f_pos f + f_len f) eqn:L; cbn [andb].
      + apply N.ltb_lt in L. replace (i - f_pos f <? f_len f) with true
          by (symmetry; apply N.ltb_lt; lia).
        replace (i <? 32) with true by (symmetry; apply N.ltb_lt; lia). cbn [xorb orb].
        rewrite Hones; [reflexivity|]. unfold in_field.
        apply andb_true_iff. split; [apply N.leb_le|apply N.ltb_lt]; lia.
      + apply N.ltb_ge in L. replace (i - f_pos f <? f_len f) with false
          by (symmetry; apply N.ltb_ge; lia). cbn [xorb].
        rewrite (Hhigh (i - f_pos f)) by lia. rewrite orb_false_r.
        destruct (i <? 32) eqn:E; [apply andb_true_r|].
        apply N.ltb_ge in E. rewrite andb_false_r. symmetry.
        apply (proj1 (w32_bit w) Hw). exact E.
    - apply N.leb_gt in P. rewrite !N.shiftl_spec_low by exact P. cbn [andb xorb].
      replace (i <? 32) with true by (symmetry; apply N.ltb_lt; lia). cbn [orb].
      apply andb_true_r. }
  assert (G : f_get f w' = v).
  { apply N.bits_inj. intros i. rewrite f_get_bit, B. unfold in_field.
    destruct (i <? f_len f) eqn:E; cbn [andb].
    - apply N.ltb_lt in E. replace (f_pos f <=? i + f_pos f) with true
        by (symmetry; apply N.leb_le; lia).
      replace (i + f_pos f <? f_pos f + f_len f) with true by (symmetry; apply N.ltb_lt; lia).
      cbn [andb]. f_equal. lia.
    - apply N.ltb_ge in E. symmetry. apply Hhigh. exact E. }
  rewrite G, N.eqb_refl. cbn [negb]. exists w'. split; [reflexivity|]. split; [|exact B].
  unfold w'. apply w32_land, Hw.
Qed.

(* -------------------------------------------------------------- checksums *)

(** The excess of the field over the zeros outside of it, as an integer. *)
Definition excess (f : field) (w : N) : Z :=
  Z.of_N (f_get f w) - (Z.of_N (f_pos f) - Z.of_N (ones (N.to_nat (f_pos f)) w)).
Lemma cs_get_excess f w : f_pos f + f_len f = 32 -> w32 w ->
  cs_get f w = if (excess f w <? 0)%Z then Err InvalidStorage else Ok (Z.to_N (excess f w)).
Proof.
  intros Hf Hw. unfold cs_get, excess, count_zeros, count_ones.
  assert (S : ones 32 w = ones (N.to_nat (f_pos f)) w + ones 32 (f_get f w)).
  { replace 32%nat with (N.to_nat (f_pos f) + N.to_nat (f_len f))%nat at 1 by lia.
    rewrite ones_split, N2Nat.id. f_equal.
    rewrite (ones_high (N.to_nat (f_len f)) 32 (f_get f w)); [|intros i Hi|lia].
    - apply ones_ext. intros i Hi. rewrite f_get_bit, N.shiftr_spec by lia.
      replace (i <? f_len f) with true by (symmetry; apply N.ltb_lt; lia). reflexivity.
    - rewrite f_get_bit. replace (i <? f_len f) with false by (symmetry; apply N.ltb_ge; lia).
      reflexivity. }
  rewrite S.
  pose proof (ones_le (N.to_nat (f_pos f)) w).
  assert (ones 32 (f_get f w) <= f_len f).
  { rewrite (ones_high (N.to_nat (f_len f))); [|intros i Hi|lia].
    - pose proof (ones_le (N.to_nat (f_len f)) (f_get f w)). lia.
    - rewrite f_get_bit. replace (i <? f_len f) with false by (symmetry; apply N.ltb_ge; lia).
      reflexivity. }
  set (x := f_get f w) in *. set (a := ones (N.to_nat (f_pos f)) w) in *.
  set (b := ones 32 x) in *. 
  replace (32 - (a + b) - (f_len f - b)) with (f_pos f - a) by lia.
  destruct (x <? f_pos f - a) eqn:E.
  - apply N.ltb_lt in E. rewrite (proj2 (Z.ltb_lt _ _)); [reflexivity|]. lia.
  - apply N.ltb_ge in E. rewrite (proj2 (Z.ltb_ge _ _)); [|lia]. f_equal. lia.
Qed.
Lemma excess_sub f a b : f_pos f + f_len f = 32 -> w32 a -> w32 b -> sub a b ->
  (excess f a <= excess f b)%Z /\ (excess f a = excess f b -> a = b).
Proof.
  intros Hf Ha Hb H. unfold excess.
  pose proof (sub_le _ _ (f_get_sub f a b H)) as L.
  destruct (ones_sub (N.to_nat (f_pos f)) a b H) as [O1 O2].
  split; [lia|]. intros E.
  assert (E1 : ones (N.to_nat (f_pos f)) a = ones (N.to_nat (f_pos f)) b) by lia.
  assert (E2 : f_get f a = f_get f b) by lia.
  specialize (O2 E1). apply N.bits_inj. intros i.
  destruct (N.lt_ge_cases i (f_pos f)) as [Hi|Hi]; [apply O2; lia|].
  destruct (N.lt_ge_cases i 32) as [Hi2|Hi2].
  - assert (B : N.testbit (f_get f a) (i - f_pos f) = N.testbit (f_get f b) (i - f_pos f))
      by (rewrite E2; reflexivity).
    rewrite !f_get_bit in B. replace (i - f_pos f <? f_len f) with true in B
      by (symmetry; apply N.ltb_lt; lia). cbn [andb] in B.
    replace (i - f_pos f + f_pos f) with i in B by lia. exact B.
  - rewrite (proj1 (w32_bit a) Ha), (proj1 (w32_bit b) Hb) by exact Hi2. reflexivity.
Qed.

(** Clearing bits can only decrease a checksum: a word all of whose bits to be cleared have not
    been cleared yet has a larger one. *)
Lemma cs_get_sub f a b c : f_pos f + f_len f = 32 -> w32 b -> sub a b ->
  cs_get f a = Ok c ->
  exists d, cs_get f b = Ok d /\ c <= d /\ (c = d -> a = b).
Proof.
  intros Hf Hb H Ga.
  assert (Ha : w32 a) by (eapply w32_sub; eauto).
  destruct (excess_sub f a b Hf Ha Hb H) as [L E].
  rewrite cs_get_excess in * by assumption.
  destruct (excess f a <? 0)%Z eqn:Ea; [discriminate|]. apply Z.ltb_ge in Ea.
  injection Ga as <-.
  rewrite (proj2 (Z.ltb_ge _ _)) by lia. eexists. split; [reflexivity|].
  split; [lia|]. intros Eq. apply E. lia.
Qed.

(** Setting the checksum of a word. *)
Lemma cs_set_spec f w v :
  f_pos f + f_len f = 32 -> w32 w -> (forall i, in_field f i = true -> N.testbit w i = true) ->
  f_pos f + v < 2 ^ f_len f ->
  exists w', cs_set f w v = Ok w' /\ w32 w' /\ cs_get f w' = Ok v /\
    (forall i, i < f_pos f -> N.testbit w' i = N.testbit w i) /\ sub w' w.
Proof.
  intros Hf Hw Hones Hv. unfold cs_set.
  assert (Z : count_zeros w = f_pos f - ones (N.to_nat (f_pos f)) w).
  { unfold count_zeros, count_ones.
    replace 32%nat with (N.to_nat (f_pos f) + N.to_nat (f_len f))%nat by lia.
    rewrite ones_split, N2Nat.id.
    assert (O : forall n x, (forall i, i < N.of_nat n -> N.testbit x i = true) ->
      ones n x = N.of_nat n).
    { induction n as [|n IH]; cbn [ones]; intros x Hx; [reflexivity|].
      rewrite Hx by lia. rewrite IH; [lia|]. intros i Hi. apply Hx. lia. }
    rewrite (O (N.to_nat (f_len f))).
    2:{ intros i Hi. rewrite N.shiftr_spec by lia. apply Hones. unfold in_field.
        apply andb_true_iff. split; [apply N.leb_le|apply N.ltb_lt]; lia. }
    pose proof (ones_le (N.to_nat (f_pos f)) w). lia. }
  destruct (f_set_spec f w (count_zeros w + v)) as (w' & E & W & B); [exact Hw|lia| |exact Hones|].
  { rewrite Z. lia. }
  exists w'. rewrite E. split; [reflexivity|]. split; [exact W|].
  assert (Low : forall i, i < f_pos f -> N.testbit w' i = N.testbit w i).
  { intros i Hi. rewrite B. unfold in_field.
    replace (f_pos f <=? i) with false by (symmetry; apply N.leb_gt; exact Hi). reflexivity. }
  split; [|split; [exact Low|]].
  2:{ intros i. rewrite B. destruct (in_field f i) eqn:I; [|auto]. intros _. apply Hones, I. }
  rewrite cs_get_excess by assumption. unfold excess.
  assert (G : f_get f w' = count_zeros w + v).
  { unfold f_set in E. destruct (negb (N.land _ _ =? _)); [discriminate|].
    match type of E with (if negb (?a =? ?b) then _ else _) = _ => destruct (a =? b) eqn:X end;
      [|discriminate]. cbn [negb] in E. injection E as <-. apply N.eqb_eq in X. exact X. }
  rewrite G, Z.
  rewrite (ones_ext (N.to_nat (f_pos f)) w' w) by (intros i Hi; apply Low; lia).
  pose proof (ones_le (N.to_nat (f_pos f)) w).
  rewrite (proj2 (Z.ltb_ge _ _)) by lia. f_equal. lia.
Qed.
