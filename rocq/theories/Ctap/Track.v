(** Properties of every write that an operation makes, and so of every point at which power may be
    lost during it. *)
From Verif Require Import Base Facts Hid.Model U2f.Model Cbor.Model Ctap.Crypto Ctap.Types Ctap.Machine
  Ctap.Commands Ctap.Parse Ctap.System Ctap.Logic Ctap.History.
From Coq Require Import Lia.

Section Track.
  (** [A l p]: the persistent state [p] is acceptable after the new items [l]. *)
  Variable A : list item -> pers -> Prop.
  Hypothesis A_mono : forall l l' p, A l p -> A (l' ++ l) p.
  Variable w0 : world.

  Definition since (w : world) (l : list item) : Prop := w_log w = l ++ w_log w0.
  Definition Tr (w : world) : Prop :=
    exists l, since w l /\ (forall l1 p l2, l = l1 ++ LWrite p :: l2 -> A l2 p) /\ A l (w_p w).

  Lemma Tr_start : A [] (w_p w0) -> Tr w0.
  Proof.
    intro H. exists []. split; [reflexivity | split; [ | exact H]].
    intros l1 p l2 E. destruct l1; discriminate.
  Qed.
  Lemma Tr_frame P w w' :
    (forall l p q, A l p -> Rp P p q -> A l q) -> fr P w w' -> Tr w -> Tr w'.
  Proof.
    intros HP F (l & S & H & Hp). destruct (fr_log _ _ _ F) as (k & E & Fk).
    exists (k ++ l). split; [unfold since in *; now rewrite E, S, app_assoc | ].
    split; [ | apply A_mono; eapply HP; [exact Hp | exact (fr_p _ _ _ F)]].
    clear E. induction k as [ | i k IH]; [exact H | ].
    inversion Fk as [ | ? ? Hi Fk']; subst. specialize (IH Fk').
    intros l1 p l2 E. destruct l1 as [ | j l1]; cbn in E.
    - injection E as -> <-. apply A_mono. eapply HP; [exact Hp | exact Hi].
    - injection E as _ E. eapply IH. exact E.
  Qed.
  Lemma Tr_rel {E B} P (m : M E B) :
    (forall l p q, A l p -> Rp P p q -> A l q) -> rel P m -> hoare Tr m (fun _ => Tr).
  Proof. intros HP R w Hw. eapply Tr_frame; [exact HP | apply R | exact Hw]. Qed.
  Lemma Tr_same w w' : w_p w' = w_p w -> w_log w' = w_log w -> Tr w -> Tr w'.
  Proof. unfold Tr, since. intros -> ->. auto. Qed.
  Lemma Tr_write w p : (forall l, since w l -> A l (w_p w) -> A l p) -> Tr w -> Tr (write_world p w).
  Proof.
    intros HA (l & S & H & Hp). exists (LWrite p :: l).
    split; [unfold since in *; cbn; now rewrite S | ].
    pose proof (HA l S Hp) as Q. split; [ | apply (A_mono l [LWrite p]); exact Q].
    intros l1 q l2 E. destruct l1 as [ | i l1]; cbn in E.
    - injection E as -> ->. exact Q.
    - injection E as _ E. eapply H. exact E.
  Qed.
  Lemma Tr_store e f (I : world -> Prop) :
    (forall w, I w -> Tr w) ->
    (forall w l, I w -> since w l -> A l (w_p w) -> A l (f (w_p w))) ->
    hoare I (store e f) (fun _ => Tr).
  Proof.
    intros HI HA w Hw. pose proof (Tr_write w (f (w_p w)) (fun l => HA w l Hw) (HI w Hw)) as Q.
    unfold store. destruct (e_fault e (w_op w)) as [[s [|]] | ]; cbn [snd];
      [eapply Tr_same; [ | | exact Q] | eapply Tr_same; [ | | exact (HI w Hw)]
       | eapply Tr_same; [ | | exact Q]]; reflexivity.
  Qed.

  (** What [Tr] says about each write. *)
  Lemma Tr_use w l1 p l2 : Tr w -> w_log w = l1 ++ LWrite p :: l2 ++ w_log w0 -> A l2 p.
  Proof.
    intros (l & S & H & _) E. unfold since in S. rewrite S in E.
    apply (H l1 p l2). change (LWrite p :: l2 ++ w_log w0) with ((LWrite p :: l2) ++ w_log w0) in E.
    rewrite app_assoc in E. apply app_inv_tail in E. exact E.
  Qed.
End Track.

(** ** Rules for computations *)
Lemma hoare_post {E A} (I : world -> Prop) (m : M E A) (Post Post' : res E A -> world -> Prop) :
  hoare I m Post' -> (forall y w, Post' y w -> Post y w) -> hoare I m Post.
Proof. intros H HP w Hw. apply HP, H, Hw. Qed.
Lemma hoare_seq {E A B} (I : world -> Prop) (m : M E A) (k : A -> M E B) :
  hoare I m (fun _ => I) -> (forall a, hoare I (k a) (fun _ => I)) -> hoare I (bind m k) (fun _ => I).
Proof.
  intros Hm Hk. eapply hoare_bind with (Mid := fun _ => I); [ | exact Hk].
  eapply hoare_post; [exact Hm | ]. intros [] w H; exact H.
Qed.
(** A first part after which [J] holds if it succeeds, and [I] in any case. *)
Lemma hoare_then {E A B} (I : world -> Prop) (J : A -> world -> Prop) (m : M E A) (k : A -> M E B) :
  hoare I m (fun y w => I w /\ forall a, y = Ok a -> J a w) ->
  (forall a, hoare (fun w => I w /\ J a w) (k a) (fun _ => I)) -> hoare I (bind m k) (fun _ => I).
Proof.
  intros Hm Hk. eapply hoare_bind with (Mid := fun a w => I w /\ J a w); [ | exact Hk].
  eapply hoare_post; [exact Hm | ]. intros [a | s] w [H HJ]; auto.
Qed.
Lemma hoare_fact {E A} (F : Prop) (I : world -> Prop) (m : M E A) Post :
  (F -> hoare I m Post) -> hoare (fun w => F /\ I w) m Post.
Proof. intros H w [HF HI]. now apply H. Qed.
Lemma hoare_fact_r {E A} (F : Prop) (I : world -> Prop) (m : M E A) Post :
  (F -> hoare I m Post) -> hoare (fun w => I w /\ F) m Post.
Proof. intros H w [HI HF]. now apply H. Qed.
Lemma hoare_pre {E A} (I J : world -> Prop) (m : M E A) Post :
  hoare J m Post -> (forall w, I w -> J w) -> hoare I m Post.
Proof. intros H HI w Hw. apply H, HI, Hw. Qed.
Lemma hoare_fail {E A} (I : world -> Prop) (s : E) (Post : res E A -> world -> Prop) :
  (forall w, I w -> Post (Err s) w) -> hoare I (fail s) Post.
Proof. intros H w Hw. apply H, Hw. Qed.
Lemma hoare_ret {E A} (I : world -> Prop) (a : A) (Post : res E A -> world -> Prop) :
  (forall w, I w -> Post (Ok a) w) -> hoare I (ret a) Post.
Proof. intros H w Hw. apply H, Hw. Qed.
Lemma hoare_load {A} e (f : pers -> A) (I : world -> Prop) :
  (forall w w', w_p w' = w_p w -> w_v w' = w_v w -> w_log w' = w_log w -> w_now w' = w_now w -> I w -> I w') ->
  hoare I (load e f) (fun y w => I w /\ forall a, y = Ok a -> a = f (w_p w)).
Proof.
  intros HI w Hw. unfold load. destruct (e_fault e (w_op w)) as [[s b] | ]; cbn; split.
  - eapply HI; [ | | | | exact Hw]; reflexivity.
  - discriminate.
  - eapply HI; [ | | | | exact Hw]; reflexivity.
  - intros a H. now injection H as <-.
Qed.
Lemma hoare_guard {E} (I : world -> Prop) b (s : E) :
  hoare I (guard b s) (fun y w => I w /\ forall a, y = Ok a -> b = true).
Proof. intros w H. destruct b; cbn; split; auto. discriminate. Qed.
