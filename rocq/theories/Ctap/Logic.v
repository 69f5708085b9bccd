(** Tools to reason about computations: how a computation relates the worlds before and after it,
    and inversion of successful runs. *)
From Verif Require Import Base Facts Hid.Model U2f.Model Cbor.Model Ctap.Crypto Ctap.Types Ctap.Machine
  Ctap.Commands Ctap.Parse Ctap.System.
From Coq Require Import Lia.

Lemma bytes_eqb_eq a b : bytes_eqb a b = true <-> a = b.
Proof.
  unfold bytes_eqb. rewrite <- (lexcmp_eq a b). destruct (lexcmp a b); split; congruence.
Qed.
Lemma bytes_eqb_refl a : bytes_eqb a a = true.
Proof. now apply bytes_eqb_eq. Qed.
Lemma bytes_eqb_neq a b : bytes_eqb a b = false <-> a <> b.
Proof.
  destruct (bytes_eqb a b) eqn:E.
  - apply bytes_eqb_eq in E. split; congruence.
  - split; [intros _ H; apply bytes_eqb_eq in H; congruence | auto].
Qed.

(** ** Frames *)

(** What may change: a preorder on persistent states, one on volatile states, and the events that
    may be emitted. *)
Record params := mkPar {
  Rp : pers -> pers -> Prop;
  Rv : vol -> vol -> Prop;
  okE : event -> Prop;
  Rp_refl : forall p, Rp p p;
  Rp_trans : forall p q r, Rp p q -> Rp q r -> Rp p r;
  Rv_refl : forall v, Rv v v;
  Rv_trans : forall u v w, Rv u v -> Rv v w -> Rv u w
}.

Definition wf (w : world) : Prop := w_p w = last_write (w_log w).

Definition item_ok (P : params) (p : pers) (i : item) : Prop :=
  match i with LWrite q => Rp P p q | LEv ev => okE P ev end.

Record fr (P : params) (w w' : world) : Prop := mkFr {
  fr_log : exists l, w_log w' = l ++ w_log w /\ Forall (item_ok P (w_p w)) l;
  fr_p : Rp P (w_p w) (w_p w');
  fr_v : Rv P (w_v w) (w_v w');
  fr_now : (w_now w <= w_now w')%N;
  fr_up : (w_up w <= w_up w')%nat;
  fr_rng : (w_rng w <= w_rng w')%nat;
  fr_wf : wf w -> wf w'
}.

Lemma fr_refl P w : fr P w w.
Proof.
  split; auto using Rp_refl, Rv_refl; try lia.
  exists []; split; [reflexivity | constructor].
Qed.
Lemma fr_trans P w1 w2 w3 : fr P w1 w2 -> fr P w2 w3 -> fr P w1 w3.
Proof.
  intros [(l1 & E1 & F1) p1 v1 n1 u1 r1 W1] [(l2 & E2 & F2) p2 v2 n2 u2 r2 W2].
  split; eauto using Rp_trans, Rv_trans; try lia.
  exists (l2 ++ l1); split.
  - now rewrite E2, E1, app_assoc.
  - apply Forall_app; split; [ | exact F1].
    eapply Forall_impl; [ | exact F2].
    intros [q | ev]; cbn; eauto using Rp_trans.
Qed.

Definition rel {E A} (P : params) (m : M E A) : Prop := forall w, fr P w (snd (m w)).

Section Rel.
  Variable P : params.

  Lemma rel_ret {E A} (a : A) : rel (E := E) P (ret a).
  Proof. intro w; apply fr_refl. Qed.
  Lemma rel_fail {E A} (s : E) : rel (A := A) P (fail s).
  Proof. intro w; apply fr_refl. Qed.
  Lemma rel_lift {E A} (r : res E A) : rel P (lift r).
  Proof. intro w; apply fr_refl. Qed.
  Lemma rel_guard {E} b (s : E) : rel P (guard b s).
  Proof. destruct b; intro w; apply fr_refl. Qed.
  Lemma rel_gets {E A} (f : vol -> A) : rel (E := E) P (gets f).
  Proof. intro w; apply fr_refl. Qed.
  Lemma rel_now {E} : rel (E := E) P now.
  Proof. intro w; apply fr_refl. Qed.
  Lemma rel_bind {E A B} (m : M E A) (k : A -> M E B) :
    rel P m -> (forall a, rel P (k a)) -> rel P (bind m k).
  Proof.
    intros Hm Hk w. unfold bind. specialize (Hm w).
    destruct (m w) as [[a | s] w1]; cbn in *; auto.
    eapply fr_trans; [exact Hm | apply Hk].
  Qed.
  Lemma rel_map_status {E A} x (f : status -> E) (m : M status A) :
    rel P m -> rel P (map_status x f m).
  Proof.
    intros H w. specialize (H w). unfold map_status.
    destruct (m w) as [[a | s] w1]; [exact H | destruct s; exact H].
  Qed.
  Lemma rel_ignore {A} (m : M status A) : rel P m -> rel P (ignore m).
  Proof.
    intros H w. specialize (H w). unfold ignore.
    destruct (m w) as [[a | s] w1]; [exact H | destruct s; exact H].
  Qed.
  Lemma rel_modify {E} (f : vol -> vol) : (forall v, Rv P v (f v)) -> rel (E := E) P (modify f).
  Proof.
    intros H w. split; cbn; auto using Rp_refl; try lia.
    exists []; split; [reflexivity | constructor].
  Qed.
  Lemma rel_emit {E} ev : okE P ev -> rel (E := E) P (emit ev).
  Proof.
    intros H w. split; cbn; auto using Rp_refl, Rv_refl; try lia.
    exists [LEv ev]; split; [reflexivity | constructor; [exact H | constructor]].
  Qed.
  Lemma rel_draw {E} e n : rel (E := E) P (draw e n).
  Proof.
    intro w. split; cbn; auto using Rp_refl, Rv_refl; try lia.
    exists []; split; [reflexivity | constructor].
  Qed.
  Lemma rel_load {A} e (f : pers -> A) : rel P (load e f).
  Proof.
    intro w. unfold load. destruct (e_fault e (w_op w)) as [[s b] | ]; cbn;
      (split; cbn; auto using Rp_refl, Rv_refl; try lia;
       exists []; split; [reflexivity | constructor]).
  Qed.
  Lemma rel_store e (f : pers -> pers) : (forall p, Rp P p (f p)) -> rel P (store e f).
  Proof.
    intros H w. unfold store. destruct (e_fault e (w_op w)) as [[s [|]] | ]; cbn;
      (split; cbn; auto using Rp_refl, Rv_refl; try lia);
      try (exists [LWrite (f (w_p w))]; split;
           [reflexivity | constructor; [apply H | constructor]]).
    - now intros _.
    - exists []; split; [reflexivity | constructor].
    - now intros _.
  Qed.
  Lemma rel_check_user_presence e : okE P EvPresence -> rel P (check_user_presence e).
  Proof.
    intros H w. unfold check_user_presence. destruct (e_up e (w_up w)) as [r d].
    destruct (up_status r); cbn; (split; cbn; auto using Rp_refl, Rv_refl; try lia).
    - exists []; split; [reflexivity | constructor].
    - exists [LEv EvPresence]; split; [reflexivity | constructor; [exact H | constructor]].
  Qed.
  Lemma rel_find_credential e rp id :
    rel P (find_credential_item e id) -> rel P (find_credential e rp id).
  Proof.
    intros H w. specialize (H w). unfold find_credential.
    destruct (find_credential_item e id w) as [[[k r] | s] w1]; [exact H | destruct s; exact H].
  Qed.
  Lemma rel_first_listed e rp h uv l :
    (forall d, rel P (listed_credential e rp h uv d)) -> rel P (first_listed e rp h uv l).
  Proof.
    intro H. induction l as [ | d l IH]; cbn; [apply rel_ret | ].
    apply rel_bind; [apply H | intros [x | ]; [apply rel_ret | apply IH]].
  Qed.
End Rel.

Ltac head t := lazymatch t with ?f _ => head f | _ => t end.

(** Applies the rules above to a whole computation.  Side conditions on updates and events are tried
    with [side]. *)
Ltac rel_step side :=
  lazymatch goal with
  | |- rel _ (ret _) => apply rel_ret
  | |- rel _ (fail _) => apply rel_fail
  | |- rel _ (lift _) => apply rel_lift
  | |- rel _ (guard _ _) => apply rel_guard
  | |- rel _ (gets _) => apply rel_gets
  | |- rel _ now => apply rel_now
  | |- rel _ (bind _ _) => apply rel_bind; [ | intros ?]
  | |- rel _ (map_status _ _ _) => apply rel_map_status
  | |- rel _ (ignore _) => apply rel_ignore
  | |- rel _ (modify _) => apply rel_modify; side
  | |- rel _ (emit _) => apply rel_emit; side
  | |- rel _ (draw _ _) => apply rel_draw
  | |- rel _ (load _ _) => apply rel_load
  | |- rel _ (store _ _) => apply rel_store; side
  | |- rel _ (check_user_presence _) => apply rel_check_user_presence; side
  | |- rel _ (find_credential _ _ _) => apply rel_find_credential
  | |- rel _ (first_listed _ _ _ _ _) => apply rel_first_listed; intros ?
  | |- rel _ (match ?x with _ => _ end) => destruct x
  | |- rel _ (let _ := _ in _) => cbv zeta
  | |- rel _ ((fun _ => _) _) => cbv beta
  | |- rel _ ?m => let h := head m in unfold h
  end.
Ltac rel_side := solve [intros; cbn; auto | intros; exact Logic.I].
Ltac rel_walk := repeat (first [solve [auto with rel_db] | rel_step ltac:(try rel_side)]).
Create HintDb rel_db.

(** ** Frames given by projections *)

Definition keep {X Y} (f : pers -> X) (g : vol -> Y) (ok : event -> Prop) : params.
Proof.
  refine (mkPar (fun p q => f q = f p) (fun u v => g v = g u) ok _ _ _ _); congruence.
Defined.
Definition anyv (_ : vol) : unit := tt.
Definition anyp (_ : pers) : unit := tt.
Definition anyE (_ : event) : Prop := True.

(** ** Successful runs *)

Lemma bind_ok {E A B} (m : M E A) (k : A -> M E B) w r w' :
  bind m k w = (Ok r, w') -> exists a w1, m w = (Ok a, w1) /\ k a w1 = (Ok r, w').
Proof.
  unfold bind. destruct (m w) as [[a | s] w1]; [ | discriminate]. intro H. eauto.
Qed.
Lemma ret_ok {E A} (a : A) w r w' : ret (E := E) a w = (Ok r, w') -> r = a /\ w' = w.
Proof. unfold ret. intro H. injection H as <- <-. auto. Qed.
Lemma fail_ok {E A} (s : E) w (r : A) w' : fail s w = (Ok r, w') -> False.
Proof. discriminate. Qed.
Lemma lift_ok {E A} (x : res E A) w r w' : lift x w = (Ok r, w') -> x = Ok r /\ w' = w.
Proof. unfold lift. intro H. injection H as -> <-. auto. Qed.
Lemma guard_ok {E} b (s : E) w r w' : guard b s w = (Ok r, w') -> b = true /\ w' = w.
Proof. unfold guard, ret, fail. destruct b; [ | discriminate]. intro H. injection H as <- <-. auto. Qed.
Lemma gets_ok {E A} (f : vol -> A) w r w' :
  gets (E := E) f w = (Ok r, w') -> r = f (w_v w) /\ w' = w.
Proof. unfold gets. intro H. injection H as <- <-. auto. Qed.
Lemma now_ok {E} w r w' : now (E := E) w = (Ok r, w') -> r = w_now w /\ w' = w.
Proof. unfold now. intro H. injection H as <- <-. auto. Qed.
Lemma load_ok {A} e (f : pers -> A) w r w' :
  load e f w = (Ok r, w') -> r = f (w_p w) /\ w_p w' = w_p w /\ w_v w' = w_v w /\
  w_now w' = w_now w /\ w_log w' = w_log w /\ w_up w' = w_up w.
Proof.
  unfold load. destruct (e_fault e (w_op w)) as [[s b] | ]; [discriminate | ].
  intro H. apply pair_equal_spec in H as [H <-]. injection H as <-. cbn. tauto.
Qed.
Lemma store_ok e (f : pers -> pers) w r w' :
  store e f w = (Ok r, w') -> w_p w' = f (w_p w) /\ w_v w' = w_v w /\
  w_now w' = w_now w /\ w_log w' = LWrite (f (w_p w)) :: w_log w /\ w_up w' = w_up w.
Proof.
  unfold store. destruct (e_fault e (w_op w)) as [[s b] | ]; [discriminate | ].
  intro H. apply pair_equal_spec in H as [H <-]. cbn. tauto.
Qed.
Lemma modify_ok {E} f w r w' :
  modify (E := E) f w = (Ok r, w') -> w_v w' = f (w_v w) /\ w_p w' = w_p w /\
  w_now w' = w_now w /\ w_log w' = w_log w /\ w_up w' = w_up w.
Proof. unfold modify. intro H. apply pair_equal_spec in H as [H <-]. cbn. tauto. Qed.
Lemma check_user_presence_ok e w r w' :
  check_user_presence e w = (Ok r, w') ->
  fst (e_up e (w_up w)) = UpConfirmed /\ w_up w' = S (w_up w) /\ w_p w' = w_p w /\
  w_v w' = w_v w /\ w_log w' = LEv EvPresence :: w_log w /\
  w_now w' = (w_now w + snd (e_up e (w_up w)))%N.
Proof.
  unfold check_user_presence. destruct (e_up e (w_up w)) as [u d].
  destruct u; cbn; try discriminate.
  intro H. apply pair_equal_spec in H as [H <-]. cbn. tauto.
Qed.
Lemma draw_ok {E} e n w r w' :
  draw (E := E) e n w = (Ok r, w') -> r = e_rnd e (w_rng w) n /\ w_p w' = w_p w /\
  w_v w' = w_v w /\ w_now w' = w_now w /\ w_log w' = w_log w /\ w_up w' = w_up w /\
  w_rng w' = S (w_rng w).
Proof.
  unfold draw. intro H. apply pair_equal_spec in H as [H <-]. injection H as <-. cbn. tauto.
Qed.
Lemma map_status_ok {E A} x (f : status -> E) (m : M status A) w r w' :
  map_status x f m w = (Ok r, w') -> m w = (Ok r, w').
Proof.
  unfold map_status. destruct (m w) as [[a | s] w1].
  - intro H. apply pair_equal_spec in H as [H <-]. now injection H as <-.
  - destruct s; discriminate.
Qed.
Lemma emit_ok {E} ev w r w' :
  emit (E := E) ev w = (Ok r, w') -> w_p w' = w_p w /\ w_v w' = w_v w /\ w_now w' = w_now w /\
  w_log w' = LEv ev :: w_log w /\ w_up w' = w_up w.
Proof. unfold emit. intro H. apply pair_equal_spec in H as [H <-]. cbn. tauto. Qed.

(** Inverts one step of a successful run. *)
Ltac inv_step :=
  match goal with
  | H : bind _ _ _ = (Ok _, _) |- _ =>
      let a := fresh "a" in let w1 := fresh "w" in let H1 := fresh "H" in
      apply bind_ok in H as (a & w1 & H1 & H); cbv beta in H
  | H : ret _ _ = (Ok _, _) |- _ => apply ret_ok in H as [? ?]; subst
  | H : fail _ _ = (Ok _, _) |- _ => apply fail_ok in H; destruct H
  | H : lift _ _ = (Ok _, _) |- _ => apply lift_ok in H as [? ?]; subst
  | H : guard _ _ _ = (Ok _, _) |- _ => apply guard_ok in H as [? ?]; subst
  | H : gets _ _ = (Ok _, _) |- _ => apply gets_ok in H as [? ?]; subst
  | H : now _ = (Ok _, _) |- _ => apply now_ok in H as [? ?]; subst
  | H : map_status _ _ _ _ = (Ok _, _) |- _ => apply map_status_ok in H
  end.
Ltac inv_run := repeat inv_step.
