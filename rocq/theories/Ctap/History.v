(** Induction over histories of the device. *)
From Verif Require Import Base Facts Hid.Model U2f.Model Cbor.Model Ctap.Crypto Ctap.Types Ctap.Machine
  Ctap.Commands Ctap.Parse Ctap.System Ctap.Logic.
From Coq Require Import Lia.

Definition trivial : params.
Proof. refine (mkPar (fun _ _ => True) (fun _ _ => True) (fun _ => True) _ _ _ _); auto. Defined.

(** A frame of a whole operation follows from frames of its parts. *)
Record op_frame (e : env) (P : params) : Prop := {
  of_cmd : forall x ch, rel P (process_parsed_command e x ch);
  of_u2f : forall b, rel P (u2f_process e b);
  of_vendor : forall ch, rel P (after_vendor_response ch);
  of_atts : forall b en p, Rp P p (set_atts b en p);
  of_touch : forall n v, Rv P v (set_up (grant_up n (v_up v)) v);
  of_compact : forall n p, Rp P p (set_creds (skipn n (p_creds p) ++ firstn n (p_creds p)) p)
}.

Lemma fr_write P p w : Rp P (w_p w) p -> fr P w (write_world p w).
Proof.
  intro H. split; cbn; auto using Rv_refl; try lia.
  - exists [LWrite p]; split; [reflexivity | constructor; [exact H | constructor]].
  - reflexivity.
Qed.

Lemma run_op_frame e P o w : op_frame e P -> fr P w (snd (run_op e o w)).
Proof.
  intros [Hc Hu Hv Ha Ht Hk]. destruct o as [b ch | b | ch b en | | d | n]; cbn [run_op].
  - assert (H : rel P (process_command e b ch)).
    { unfold process_command. apply rel_bind; [apply rel_lift | intro; apply Hc]. }
    specialize (H w). destruct (process_command e b ch w); exact H.
  - specialize (Hu b w). destruct (u2f_process e b w); exact Hu.
  - eapply fr_trans; [apply fr_write, Ha | apply Hv].
  - apply (rel_modify (E := status) P). intro v. apply Ht.
  - split; cbn; auto using Rp_refl, Rv_refl; try lia.
    exists []; split; [reflexivity | constructor].
  - apply fr_write. apply Hk.
Qed.

(** The frame of an operation that is not a CTAP2 message. *)
Record other_frame (e : env) (P : params) : Prop := {
  ot_u2f : forall b, rel P (u2f_process e b);
  ot_vendor : forall ch, rel P (after_vendor_response ch);
  ot_atts : forall b en p, Rp P p (set_atts b en p);
  ot_touch : forall n v, Rv P v (set_up (grant_up n (v_up v)) v);
  ot_compact : forall n p, Rp P p (set_creds (skipn n (p_creds p) ++ firstn n (p_creds p)) p)
}.
Lemma run_op_other e P o w :
  other_frame e P ->
  (exists b ch, o = OpMessage b ch /\ snd (run_op e o w) = snd (process_command e b ch w)) \/
  fr P w (snd (run_op e o w)).
Proof.
  intros [Hu Hv Ha Ht Hk]. destruct o as [b ch | b | ch b en | | d | n].
  - left. exists b, ch. split; [reflexivity | ]. cbn [run_op].
    destruct (process_command e b ch w); reflexivity.
  - right. cbn [run_op]. specialize (Hu b w). destruct (u2f_process e b w); exact Hu.
  - right. cbn [run_op]. eapply fr_trans; [apply fr_write, Ha | apply Hv].
  - right. cbn [run_op]. apply (rel_modify (E := status) P). intro v. apply Ht.
  - right. cbn [run_op]. split; cbn; auto using Rp_refl, Rv_refl; try lia.
    exists []; split; [reflexivity | constructor].
  - right. cbn [run_op]. apply fr_write. apply Hk.
Qed.

Lemma trivial_frame e : op_frame e trivial.
Proof. split; try (cbn; auto; fail); intros; rel_walk. Qed.

Lemma run_op_log e o w : exists l, w_log (snd (run_op e o w)) = l ++ w_log w.
Proof. destruct (run_op_frame e trivial o w (trivial_frame e)) as [(l & E & _)]. eauto. Qed.
Lemma run_op_wf e o w : wf w -> wf (snd (run_op e o w)).
Proof. exact (fr_wf _ _ _ (run_op_frame e trivial o w (trivial_frame e))). Qed.

Lemma reboot_log e w : w_log (reboot e w) = LEv EvBoot :: w_log w.
Proof. reflexivity. Qed.
Lemma reboot_p e w : w_p (reboot e w) = w_p w.
Proof. reflexivity. Qed.
Lemma reboot_wf e w : wf w -> wf (reboot e w).
Proof. intro H. exact H. Qed.

Lemma lose_power_log n w w' : exists l, w_log w' = l ++ w_log (lose_power n w w').
Proof.
  cbn. eexists. symmetry. apply firstn_skipn.
Qed.
Lemma lose_power_ext n w w' :
  (exists l, w_log w' = l ++ w_log w) -> exists l, w_log (lose_power n w w') = l ++ w_log w.
Proof.
  intros (l & E). cbn. rewrite E, app_length, Nat.add_sub.
  rewrite skipn_app.
  replace (Nat.min n (length l) - length l)%nat with 0%nat by lia. cbn. eauto.
Qed.
Lemma lose_power_wf n w w' : wf (lose_power n w w').
Proof. reflexivity. Qed.

(** An invariant of histories: a property [L] of the log that holds of all earlier logs, and a
    property [K] of the whole state that power-up re-establishes. *)
Theorem history_invariant e (L : list item -> Prop) (K : world -> Prop) :
  (forall l l', L (l ++ l') -> L l') ->
  L [LEv EvBoot] ->
  (forall log, L log -> L (LEv EvBoot :: log)) ->
  (forall w, wf w -> L (w_log w) -> K (reboot e w)) ->
  (forall o w, wf w -> L (w_log w) -> K w ->
     L (w_log (snd (run_op e o w))) /\ K (snd (run_op e o w))) ->
  forall h, wf (run e h) /\ L (w_log (run e h)) /\ K (run e h).
Proof.
  intros Hs H0 Hb Hk Ho h. unfold run.
  assert (I0 : wf (start e) /\ L (w_log (start e)) /\ K (start e)).
  { unfold start. split; [reflexivity | split].
    - rewrite reboot_log. exact H0.
    - apply Hk; [reflexivity | ]. cbn. apply (Hs [LEv EvBoot] []). exact H0. }
  revert I0. generalize (start e). induction h as [ | [o k] h IH]; intros w I; [exact I | ].
  cbn [fold_left]. apply IH. destruct I as (W & Lw & Kw). unfold step. cbn [fst snd].
  destruct (Ho o w W Lw Kw) as [L' K']. destruct k as [n | ].
  - pose proof (lose_power_log n w (snd (run_op e o w))) as (l & E).
    assert (L1 : L (w_log (lose_power n w (snd (run_op e o w))))).
    { apply (Hs l). rewrite <- E. exact L'. }
    split; [apply reboot_wf, lose_power_wf | split].
    + rewrite reboot_log. apply Hb, L1.
    + apply Hk; [apply lose_power_wf | exact L1].
  - split; [apply run_op_wf, W | split; assumption].
Qed.

Lemma run_wf e h : wf (run e h).
Proof.
  apply (history_invariant e (fun _ => True) (fun _ => True)); auto.
Qed.

(** Computations that only satisfy a property from some worlds. *)
Definition hoare {E A} (Pre : world -> Prop) (m : M E A) (Post : res E A -> world -> Prop) : Prop :=
  forall w, Pre w -> Post (fst (m w)) (snd (m w)).
Lemma hoare_bind {E A B} Pre (m : M E A) (k : A -> M E B) (Mid : A -> world -> Prop) Post :
  hoare Pre m (fun r w => match r with Ok a => Mid a w | Err s => Post (Err s) w end) ->
  (forall a, hoare (Mid a) (k a) Post) ->
  hoare Pre (bind m k) Post.
Proof.
  intros Hm Hk w Hw. specialize (Hm w Hw). unfold bind.
  destruct (m w) as [[a | s] w1]; cbn in *; [apply Hk; exact Hm | exact Hm].
Qed.
Lemma hoare_conseq {E A} (Pre Pre' : world -> Prop) (m : M E A) (Post Post' : res E A -> world -> Prop) :
  hoare Pre' m Post' -> (forall w, Pre w -> Pre' w) -> (forall r w, Post' r w -> Post r w) ->
  hoare Pre m Post.
Proof. intros H H1 H2 w Hw. apply H2, H, H1, Hw. Qed.
Lemma hoare_rel {E A} P (m : M E A) (I : world -> Prop) :
  rel P m -> (forall w w', fr P w w' -> I w -> I w') -> hoare I m (fun _ => I).
Proof. intros H HI w Hw. eapply HI; [apply H | exact Hw]. Qed.
