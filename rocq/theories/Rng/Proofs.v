(** The course of a request for random bytes. *)
From Verif Require Import Base.
From Verif Require Import Rng.Model Rng.Spec.
Local Open Scope nat_scope.

Lemma run_app a b s : run s (a ++ b) = run (run s a) b. Proof. apply fold_left_app. Qed.
Lemma run_snoc a i s : run s (a ++ [i]) = step (run s a) i. Proof. rewrite run_app. reflexivity. Qed.
Lemma supplied_app a b : supplied (a ++ b) = supplied a ++ supplied b. Proof. apply flat_map_app. Qed.

Lemma skipn_twice {A} n : forall x (l : list A), skipn n (skipn x l) = skipn (x + n) l.
Proof. induction x as [|x IH]; intros [|y l]; cbn; auto; now rewrite ?skipn_nil. Qed.

Section Call.
Variables (b0 : bytes) (k0 : kernel).
Let s0 := fill_buffer b0 k0.

(** The request was made after [a]; since then [b] happened. *)
Definition asked (l a b : list item) : Prop := l = a ++ Run true :: b /\ place_of (snd (run s0 a)) = Command.

Definition here (l : list item) (k : kernel) (p : process) : Prop :=
  match place_of p with
  | Share => idle k /\ buf p = b0 /\ is_filled p = false
  | Subscribe => shared k = true /\ sub k = false /\ missing k = 0 /\ pending k = 0 /\ buf p = b0 /\ is_filled p = false
  | Command => shared k = true /\ sub k = true /\ missing k = 0 /\ pending k = 0 /\ buf p = b0 /\ is_filled p = false
  | Wait => exists a b, asked l a b /\ shared k = true /\ sub k = true /\ written k + missing k = length b0 /\
      written k = min (length b0) (length (supplied b)) /\ buf p = firstn (length b0) (supplied b) ++ skipn (written k) b0 /\
      (0 < pending k \/ is_filled p = true -> missing k = 0) /\ (missing k = 0 -> b0 <> [] -> 0 < pending k \/ is_filled p = true)
  | Over true => exists a b, asked l a b /\ idle k /\ length b0 <= length (supplied b) /\ buf p = firstn (length b0) (supplied b)
  | Over false => idle k /\ buf p = b0 /\ In (Run false) l
  end.

Lemma asked_snoc l a b i : asked l a b -> asked (l ++ [i]) a (b ++ [i]).
Proof. intros (-> & H). split; [rewrite <- app_assoc; reflexivity|exact H]. Qed.

Lemma here_entropy l bs k p : here l k p -> here (l ++ [Entropy bs]) (fst (entropy bs (k, p))) (snd (entropy bs (k, p))).
Proof.
  unfold here, entropy. intros H. destruct (place_of p) as [| | | |[]] eqn:E.
  - destruct H as ((A & B & C & D) & F & G). rewrite C. cbn [fst snd]. rewrite E. unfold idle. auto 10.
  - destruct H as (A & B & C & D). rewrite C. cbn [fst snd]. rewrite E. auto 10.
  - destruct H as (A & B & C & D). rewrite C. cbn [fst snd]. rewrite E. auto 10.
  - destruct H as (a & b & Q & A & B & C & D & F & G & I).
    assert (SB : supplied (b ++ [Entropy bs]) = supplied b ++ bs) by (rewrite supplied_app; cbn; rewrite app_nil_r; reflexivity).
    destruct (missing k) as [|m] eqn:M.
    + cbn [fst snd]. rewrite E. exists a, (b ++ [Entropy bs]). split; [apply asked_snoc, Q|].
      rewrite SB, app_length, M. repeat split; auto; try lia. rewrite F. f_equal.
      rewrite firstn_app. replace (length b0 - length (supplied b)) with 0 by lia. cbn. rewrite app_nil_r. reflexivity.
    + rewrite A. cbn [fst snd place_of]. exists a, (b ++ [Entropy bs]). split; [apply asked_snoc, Q|]. rewrite SB, app_length.
      assert (LB : length (buf p) = length b0) by (rewrite F, app_length, firstn_length, skipn_length; lia).
      set (n := min (min (S m) (length (buf p) - written k)) (length bs)). rewrite B. cbn [shared sub written missing pending buf is_filled andb].
      assert (N : n = min (length b0 - written k) (length bs)) by (unfold n; rewrite LB; lia).
      split; [reflexivity|]. split; [reflexivity|]. split; [lia|]. split; [lia|]. split; [|split].
      * assert (W : written k = length (supplied b)) by lia.
        clearbody n. rewrite F, (firstn_all2 (n := length b0) (supplied b)) by lia.
        assert (X1 : firstn (written k) (supplied b ++ skipn (written k) b0) = supplied b).
        { rewrite W, firstn_app, firstn_all, Nat.sub_diag. cbn [firstn]. apply app_nil_r. }
        assert (X2 : skipn (written k + n) (supplied b ++ skipn (written k) b0) = skipn (written k + n) b0).
        { rewrite skipn_app, (skipn_all2 (n := written k + n) (supplied b)) by lia. cbn [app]. replace (written k + n - length (supplied b)) with n by lia. apply skipn_twice. }
        assert (X3 : firstn (length b0) (supplied b ++ bs) = supplied b ++ firstn n bs).
        { rewrite firstn_app, (firstn_all2 (n := length b0) (supplied b)) by lia. f_equal. rewrite N, <- W.
          destruct (Nat.le_gt_cases (length b0 - written k) (length bs)); [rewrite Nat.min_l by lia; reflexivity|].
          rewrite Nat.min_r by lia. rewrite !firstn_all2 by lia. reflexivity. }
        rewrite X1, X2, X3, <- app_assoc. reflexivity.
      * destruct (S m - n =? 0) eqn:Z; [apply Nat.eqb_eq in Z; auto|]. intros [X|X]; [|]; rewrite ?X in *; exfalso; [specialize (G (or_introl X))|specialize (G (or_intror eq_refl))]; lia.
      * intros Z _. apply Nat.eqb_eq in Z. rewrite Z. cbn [andb]. left. lia.
  - destruct H as (a & b & Q & I & L & F). pose proof I as (_ & _ & C & _). rewrite C. cbn [fst snd]. rewrite E. exists a, (b ++ [Entropy bs]).
    split; [apply asked_snoc, Q|]. split; [exact I|]. rewrite supplied_app, app_length. split; [lia|]. rewrite F, firstn_app.
    replace (length b0 - length (supplied b)) with 0 by lia. cbn [firstn]. now rewrite app_nil_r.
  - destruct H as (I & F & G). pose proof I as (_ & _ & C & _). rewrite C. cbn [fst snd]. rewrite E. split; [exact I|]. split; [exact F|]. apply in_app_iff. auto.
Qed.

Lemma supplied_run b ok : supplied (b ++ [Run ok]) = supplied b.
Proof. rewrite supplied_app. cbn. apply app_nil_r. Qed.

Lemma here_run l ok k p : run s0 l = (k, p) -> here l k p -> here (l ++ [Run ok]) (fst (proceed ok (k, p))) (snd (proceed ok (k, p))).
Proof.
  intros R. unfold here, proceed. intros H. destruct (place_of p) as [| | | |[]] eqn:E.
  - destruct H as ((A & B & C & D) & F & G). destruct ok; cbn; [auto 10|]. unfold idle. cbn. rewrite in_app_iff. cbn. auto 10.
  - destruct H as (A & B & C & D & F & G). destruct ok; cbn; [auto 10|]. unfold idle. cbn. rewrite in_app_iff. cbn. auto 10.
  - destruct H as (A & B & C & D & F & G). destruct ok; cbn.
    + exists l, []. split; [split; [reflexivity|rewrite R; exact E]|]. rewrite F, D, G. cbn. rewrite firstn_nil, Nat.min_0_r. repeat split; auto.
      * intros [X|X]; [lia|discriminate X].
      * intros X Y. destruct b0; [destruct (Y eq_refl)|discriminate X].
    + unfold idle. cbn. rewrite in_app_iff. cbn. auto 10.
  - destruct H as (a & b & Q & A & B & C & D & F & G & I). destruct (is_filled p) eqn:P.
    + cbn. specialize (G (or_intror eq_refl)). exists a, (b ++ [Run ok]). split; [apply asked_snoc, Q|]. rewrite supplied_run. unfold idle. cbn.
      split; [auto|]. split; [lia|]. rewrite F, skipn_all2 by lia. apply app_nil_r.
    + destruct (pending k) as [|n] eqn:N; cbn.
      * rewrite E. exists a, (b ++ [Run ok]). split; [apply asked_snoc, Q|]. rewrite supplied_run, N, P. auto 10.
      * exists a, (b ++ [Run ok]). split; [apply asked_snoc, Q|]. rewrite supplied_run.
        assert (M : missing k = 0) by (apply G; left; lia). auto 10.
  - destruct H as (a & b & Q & I & L & F). cbn [fst snd]. rewrite E. exists a, (b ++ [Run ok]). split; [apply asked_snoc, Q|]. rewrite supplied_run. auto.
  - destruct H as (I & F & G). cbn [fst snd]. rewrite E. rewrite in_app_iff. auto.
Qed.

Lemma here_all : idle k0 -> forall l, here l (fst (run s0 l)) (snd (run s0 l)).
Proof.
  intros I. induction l as [|i l IH] using rev_ind; [cbn; auto|]. rewrite run_snoc. destruct (run s0 l) as [k p] eqn:R. cbn [fst snd] in IH.
  destruct i as [bs|ok]; cbn [step]; [apply here_entropy, IH|apply here_run; assumption].
Qed.
End Call.

Lemma subseq_refl {A} (a : list A) : subsequence a a. Proof. induction a; constructor; assumption. Qed.
Lemma subseq_app {A} (a b c d : list A) : subsequence a b -> subsequence c d -> subsequence (a ++ c) (b ++ d).
Proof.
  intros H G. induction H as [b|x a b H IH|x a b H IH]; cbn; try (constructor; exact IH).
  induction b as [|x b IH]; cbn; [exact G|constructor; exact IH].
Qed.
Lemma subseq_firstn {A} n (a : list A) : subsequence (firstn n a) a.
Proof. revert n. induction a as [|x a IH]; intros [|n]; cbn; try constructor. apply IH. Qed.
Lemma subseq_right {A} (a b : list A) : subsequence b (a ++ b).
Proof. induction a; cbn; [apply subseq_refl|constructor; assumption]. Qed.
Lemma subseq_trans {A} (a b c : list A) : subsequence a b -> subsequence b c -> subsequence a c.
Proof.
  intros H G. revert a H. induction G as [c|x b c G IH|x b c G IH]; intros a H.
  - inversion H. constructor.
  - inversion H; subst; constructor; auto.
  - constructor. auto.
Qed.

(** The request of a call is made once. *)
Definition later (s : state) : Prop := match place_of (snd s) with Wait | Over _ => True | _ => False end.
Lemma later_step s i : later s -> later (step s i).
Proof.
  destruct s as [k p]. unfold later. intros W. destruct i as [bs|ok]; cbn [step].
  - unfold entropy. destruct (missing k); [exact W|]. destruct (shared k); exact W.
  - unfold proceed. destruct (place_of p) eqn:E; cbn [snd] in W; rewrite E in W; try destruct W; [|cbn [snd]; rewrite E; exact I].
    destruct (is_filled p); [exact I|]. destruct (pending k); cbn [snd place_of]; rewrite ?E; exact I.
Qed.
Lemma later_run l : forall s, later s -> later (run s l).
Proof. induction l as [|i l IH]; intros s W; [exact W|]. apply (IH (step s i)), later_step, W. Qed.
Lemma later_asked s l l' : place_of (snd (run s l)) = Command -> later (run s (l ++ Run true :: l')).
Proof.
  intros P. rewrite run_app. apply (later_run l' (step (run s l) (Run true))). destruct (run s l) as [k p]. cbn [step proceed snd] in *. rewrite P. exact I.
Qed.
Lemma asked_once b k a r x y : asked b k (a ++ Run true :: r) a r -> asked b k (a ++ Run true :: r) x y -> a = x /\ r = y.
Proof.
  intros (_ & P) (E & Q).
  assert (K : forall u v w, u ++ v = w -> place_of (snd (run (fill_buffer b k) u)) = Command -> place_of (snd (run (fill_buffer b k) w)) = Command ->
              forall v', v = Run true :: v' -> False).
  { intros u v w <- U W v' ->. pose proof (later_asked (fill_buffer b k) u v' U) as L. unfold later in L. rewrite W in L. exact L. }
  assert (G : forall a x, a ++ Run true :: r = x ++ Run true :: y -> (a = x /\ r = y) \/ (exists z, a = x ++ Run true :: z) \/ (exists z, x = a ++ Run true :: z)).
  { clear. induction a as [|i a IH]; intros [|j x] H; cbn in H.
    - injection H as H. auto.
    - injection H as H0 H. right. right. exists x. now rewrite <- H0.
    - injection H as H0 H. right. left. exists a. now rewrite H0.
    - injection H as H0 H. subst j. destruct (IH x H) as [(-> & ->)|[(z & ->)|(z & ->)]]; [auto|right; left; exists z; auto|right; right; exists z; auto]. }
  destruct (G a x E) as [H|[(z & ->)|(z & ->)]]; [exact H|exfalso..].
  - exact (K x _ _ eq_refl Q P z eq_refl).
  - exact (K a _ _ eq_refl P Q z eq_refl).
Qed.
