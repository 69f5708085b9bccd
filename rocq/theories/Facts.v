(** Lemmas about the shared vocabulary of Base.v. *)
From Verif Require Import Base.

Lemma bytes_ok_app (a b : bytes) : bytes_ok (a ++ b) = bytes_ok a && bytes_ok b.
Proof. unfold bytes_ok. apply forallb_app. Qed.

Lemma be_bytes_length k n : length (be_bytes k n) = k.
Proof. induction k as [|k IH]; cbn; congruence. Qed.

Lemma be_bytes_ok k n : bytes_ok (be_bytes k n) = true.
Proof.
  induction k as [|k IH]; [reflexivity|].
  cbn [be_bytes bytes_ok forallb]. unfold bytes_ok in IH. rewrite IH.
  unfold byte_ok. rewrite andb_true_r. apply N.ltb_lt. apply N.mod_lt. discriminate.
Qed.

Lemma of_be_acc_app acc a b : of_be_acc acc (a ++ b) = of_be_acc (of_be_acc acc a) b.
Proof. unfold of_be_acc. apply fold_left_app. Qed.

Lemma of_be_acc_lin l acc :
  of_be_acc acc l = (acc * 256 ^ N.of_nat (length l) + of_be l)%N.
Proof.
  revert acc. induction l as [|b l IH]; intros acc.
  - cbn. lia.
  - unfold of_be, of_be_acc in *. cbn [fold_left length].
    rewrite IH, (IH (0 * 256 + b)%N).
    rewrite Nat2N.inj_succ, N.pow_succ_r'. lia.
Qed.

Lemma of_be_cons b l : of_be (b :: l) = (b * 256 ^ N.of_nat (length l) + of_be l)%N.
Proof.
  change (b :: l) with ([b] ++ l). unfold of_be at 1.
  rewrite of_be_acc_app, of_be_acc_lin.
  unfold of_be_acc at 1. cbn [fold_left]. f_equal. 
Qed.

Lemma of_be_bound l : bytes_ok l = true -> (of_be l < 256 ^ N.of_nat (length l))%N.
Proof.
  induction l as [|b l IH]; intros H.
  - cbn. lia.
  - cbn [bytes_ok forallb] in H. apply andb_true_iff in H as [Hb Hl].
    rewrite of_be_cons. cbn [length]. rewrite Nat2N.inj_succ, N.pow_succ_r'.
    specialize (IH Hl). unfold byte_ok in Hb. apply N.ltb_lt in Hb. nia.
Qed.

Lemma pow256_pos k : (0 < 256 ^ k)%N.
Proof. apply N.neq_0_lt_0, N.pow_nonzero. discriminate. Qed.

Lemma of_be_be_bytes k n : of_be (be_bytes k n) = (n mod 256 ^ N.of_nat k)%N.
Proof.
  induction k as [|k IH].
  - cbn. rewrite N.mod_1_r. reflexivity.
  - cbn [be_bytes]. rewrite of_be_cons, IH, be_bytes_length.
    rewrite Nat2N.inj_succ, N.pow_succ_r'.
    rewrite (N.mul_comm 256).
    rewrite N.mod_mul_r by (try apply N.pow_nonzero; discriminate).
    lia.
Qed.

Lemma be_bytes_of_be l :
  bytes_ok l = true -> be_bytes (length l) (of_be l) = l.
Proof.
  induction l as [|b l IH]; intros H; [reflexivity|].
  cbn [bytes_ok forallb] in H. apply andb_true_iff in H as [Hb Hl].
  specialize (IH Hl). unfold byte_ok in Hb. apply N.ltb_lt in Hb.
  pose proof (of_be_bound l Hl) as Hlt.
  cbn [length be_bytes]. rewrite of_be_cons.
  f_equal.
  - rewrite N.div_add_l by (apply N.pow_nonzero; discriminate).
    rewrite (N.div_small (of_be l)) by exact Hlt.
    rewrite N.add_0_r. apply N.mod_small. exact Hb.
  - assert (G : forall k x y, be_bytes k (x * 256 ^ N.of_nat k + y) = be_bytes k y).
    { intros k x y. revert x y. induction k as [|k IHk]; intros x y; [reflexivity|].
      cbn [be_bytes]. f_equal.
      - rewrite Nat2N.inj_succ, N.pow_succ_r'.
        replace (x * (256 * 256 ^ N.of_nat k))%N with ((x * 256) * 256 ^ N.of_nat k)%N by lia.
        rewrite N.div_add_l by (apply N.pow_nonzero; discriminate).
        rewrite N.add_comm, N.mod_add by discriminate. reflexivity.
      - rewrite Nat2N.inj_succ, N.pow_succ_r'.
        replace (x * (256 * 256 ^ N.of_nat k))%N with ((x * 256) * 256 ^ N.of_nat k)%N by lia.
        apply IHk. }
    rewrite G. exact IH.
Qed.

(** Lexicographic order. *)
Lemma lexcmp_refl a : lexcmp a a = Eq.
Proof. induction a as [|x a IH]; cbn; [reflexivity|]. rewrite N.compare_refl. exact IH. Qed.

Lemma lexcmp_eq a b : lexcmp a b = Eq <-> a = b.
Proof.
  split; [|intros ->; apply lexcmp_refl].
  revert b. induction a as [|x a IH]; intros [|y b]; cbn; try discriminate; [reflexivity|].
  destruct (N.compare x y) eqn:E; try discriminate.
  intros H. apply N.compare_eq_iff in E. subst. f_equal. auto.
Qed.

Lemma lexcmp_antisym a b : lexcmp b a = CompOpp (lexcmp a b).
Proof.
  revert b. induction a as [|x a IH]; intros [|y b]; cbn; try reflexivity.
  rewrite (N.compare_antisym x y). destruct (N.compare x y); cbn; auto.
Qed.

Lemma lexcmp_trans_lt a b c : lexcmp a b = Lt -> lexcmp b c = Lt -> lexcmp a c = Lt.
Proof.
  revert b c. induction a as [|x a IH]; intros [|y b] [|z c]; cbn; try discriminate; try reflexivity.
  destruct (N.compare x y) eqn:E1; destruct (N.compare y z) eqn:E2; try discriminate; intros H1 H2.
  - apply N.compare_eq_iff in E1, E2. subst. rewrite N.compare_refl. eauto.
  - apply N.compare_eq_iff in E1. subst. rewrite E2. reflexivity.
  - apply N.compare_eq_iff in E2. subst. rewrite E1. reflexivity.
  - rewrite N.compare_lt_iff in E1, E2.
    assert (x < z)%N by lia. apply N.compare_lt_iff in H. rewrite H. reflexivity.
Qed.

(** Comparison of concatenations whose heads have the same length. *)
Lemma lexcmp_app_same a b x y :
  length a = length b -> lexcmp (a ++ x) (b ++ y) = match lexcmp a b with Eq => lexcmp x y | c => c end.
Proof.
  revert b. induction a as [|p a IH]; intros [|q b] H; cbn in *; try discriminate; [reflexivity|].
  destruct (N.compare p q); auto.
Qed.

(** Comparison of concatenations whose heads are not prefixes of one another. *)
Lemma lexcmp_app_prefix a b x y :
  (forall u v, a ++ u = b ++ v -> a = b) ->
  lexcmp (a ++ x) (b ++ y) = match lexcmp a b with Eq => lexcmp x y | c => c end.
Proof.
  revert b. induction a as [|p a IH]; intros b H.
  - destruct b as [|q b]; [reflexivity|]. specialize (H (q :: b) [] ). rewrite app_nil_r in H.
    cbn in H. specialize (H eq_refl). discriminate.
  - destruct b as [|q b].
    + specialize (H [] (p :: a)). rewrite app_nil_r in H. cbn in H. specialize (H eq_refl). discriminate.
    + cbn. destruct (N.compare p q) eqn:E; auto.
      apply N.compare_eq_iff in E. subst q. apply IH.
      intros u v Huv. specialize (H u v). cbn in H. rewrite Huv in H. specialize (H eq_refl). congruence.
Qed.

(** Big-endian bytes of equal length compare as the numbers do. *)
Lemma lexcmp_be_bytes k m n :
  (m < 256 ^ N.of_nat k)%N -> (n < 256 ^ N.of_nat k)%N ->
  lexcmp (be_bytes k m) (be_bytes k n) = N.compare m n.
Proof.
  intros Hm Hn.
  assert (G : forall a b, length a = length b -> bytes_ok a = true -> bytes_ok b = true ->
     lexcmp a b = N.compare (of_be a) (of_be b)).
  { induction a as [|p a IH]; intros [|q b] Hl Ha Hb; cbn in Hl; try discriminate; [reflexivity|].
    cbn [bytes_ok forallb] in Ha, Hb. apply andb_true_iff in Ha as [Hp Ha], Hb as [Hq Hb].
    injection Hl as Hl. cbn [lexcmp]. rewrite !of_be_cons, <- Hl.
    pose proof (of_be_bound a Ha) as Ba. pose proof (of_be_bound b Hb) as Bb. rewrite <- Hl in Bb.
    rewrite (IH b Hl Ha Hb).
    destruct (N.compare_spec p q) as [->|Hlt|Hlt].
    - destruct (N.compare_spec (of_be a) (of_be b)) as [->|H|H]; symmetry.
      + apply N.compare_refl.
      + apply N.compare_lt_iff. lia.
      + apply N.compare_gt_iff. lia.
    - symmetry. apply N.compare_lt_iff. nia.
    - symmetry. apply N.compare_gt_iff. nia. }
  rewrite G by (rewrite ?be_bytes_length; auto using be_bytes_ok).
  rewrite !of_be_be_bytes, !N.mod_small by assumption. reflexivity.
Qed.

Lemma Nlen_app {A} (a b : list A) : Nlen (a ++ b) = (Nlen a + Nlen b)%N.
Proof. unfold Nlen. rewrite app_length. lia. Qed.

Lemma skipn_skipn {A} x y (l : list A) : skipn x (skipn y l) = skipn (x + y) l.
Proof.
  revert l. induction y as [|y IH]; intros l.
  - rewrite Nat.add_0_r. reflexivity.
  - rewrite Nat.add_succ_r. destruct l; [rewrite !skipn_nil; reflexivity|]. cbn [skipn]. apply IH.
Qed.

Lemma NoDup_map_inj {A B} (f : A -> B) l :
  (forall x y, In x l -> In y l -> f x = f y -> x = y) -> NoDup l -> NoDup (map f l).
Proof.
  intros Hf Hn. induction Hn as [|x l Hx Hn IH]; cbn [map]; constructor.
  - intros Hin. apply in_map_iff in Hin as (y & E & Hy). apply Hx.
    rewrite (Hf x y); [exact Hy|left; reflexivity|right; exact Hy|auto].
  - apply IH. intros y z Hy Hz. apply Hf; right; assumption.
Qed.
