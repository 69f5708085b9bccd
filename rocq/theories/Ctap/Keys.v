(** The master keys stay until a reset. *)
From Verif Require Import Base Facts Hid.Model U2f.Model Cbor.Model Ctap.Crypto Ctap.Types Ctap.Machine
  Ctap.Commands Ctap.Parse Ctap.System Ctap.Logic Ctap.History Ctap.Reset.
From Coq Require Import Lia List.
Import ListNotations.

Definition Pmaster : params.
Proof.
  refine (mkPar (fun p q => forall m, p_master p = Some m -> p_master q = Some m) (fun _ _ => True) anyE _ _ _ _); auto.
Defined.

Lemma fr_store P e f w : Rp P (w_p w) (f (w_p w)) -> fr P w (snd (store e f w)).
Proof.
  intros H. unfold store. destruct (e_fault e (w_op w)) as [[s [|]] | ]; cbn;
    (split; cbn; auto using Rp_refl, Rv_refl; try lia);
    try (exists [LWrite (f (w_p w))]; split; [reflexivity | constructor; [apply H | constructor]]).
  - now intros _.
  - exists []; split; [reflexivity | constructor].
  - now intros _.
Qed.

Lemma master_frame e : rel Pmaster (master_keys e).
Proof.
  unfold master_keys, internal. apply rel_map_status. intro w. unfold bind.
  assert (R : rel Pmaster (load e p_master)) by apply rel_load. specialize (R w).
  destruct (load e p_master w) as [[m | s] w1] eqn:E; [ | exact R]. apply load_ok in E as (-> & E & _).
  destruct (p_master (w_p w)) as [x | ] eqn:M; [exact R | ]. cbn [snd] in *.
  eapply fr_trans; [exact R | ].
  assert (R2 : rel Pmaster (draw (E := status) e 128)) by apply rel_draw. specialize (R2 w1).
  destruct (draw e 128 w1) as [[x | s] w2] eqn:D; [ | exact R2]. apply draw_ok in D as (_ & D & _).
  cbn [snd] in R2. eapply fr_trans; [exact R2 | ].
  assert (F : fr Pmaster w2 (snd (store e (set_master (Some x)) w2))).
  { apply fr_store. intros m Hm. rewrite D, E in Hm. congruence. }
  destruct (store e _ w2) as [[u | s] w3]; exact F.
Qed.
Global Hint Resolve master_frame : rel_db.

Lemma master_parsed e x ch : x <> CReset -> rel Pmaster (process_parsed_command e x ch).
Proof. intro H. destruct x; try congruence; rel_walk. Qed.

(** No reset command among these operations. *)
Definition no_reset (e : env) (h : list (op * option nat)) : Prop :=
  Forall (fun y => match fst y with OpMessage b _ => parse_command (e_cfg e) b <> Ok CReset | _ => True end) h.

Lemma master_op e o w :
  match o with OpMessage b _ => parse_command (e_cfg e) b <> Ok CReset | _ => True end ->
  fr Pmaster w (snd (run_op e o w)).
Proof.
  intro H. destruct o as [b ch | b | ch b en | | d | k]; cbn [run_op].
  - assert (R : fr Pmaster w (snd (process_command e b ch w))).
    { unfold process_command, bind, lift. destruct (parse_command (e_cfg e) b) as [x | s] eqn:E.
      - apply master_parsed. congruence.
      - apply fr_refl. }
    destruct (process_command e b ch w); exact R.
  - assert (R : rel Pmaster (u2f_process e b)) by rel_walk.
    specialize (R w). destruct (u2f_process e b w); exact R.
  - eapply fr_trans; [apply (fr_write _ (set_atts b en (w_p w))); cbn; auto | ].
    assert (R : rel Pmaster (after_vendor_response ch)) by rel_walk. apply R.
  - apply (rel_modify (E := status) Pmaster). intro v. exact I.
  - split; cbn; auto; try lia. exists []. split; [reflexivity | constructor].
  - apply fr_write. cbn. auto.
Qed.

Lemma master_history e h2 : forall w m, wf w -> no_reset e h2 ->
  p_master (w_p w) = Some m -> p_master (w_p (fold_left (step e) h2 w)) = Some m.
Proof.
  induction h2 as [ | [o k] h2 IH]; intros w m W N M; [exact M | ]. cbn [fold_left]. inversion N; subst.
  pose proof (master_op e o w H1) as F. apply IH; auto.
  - unfold step. cbn [fst snd]. destruct k; [reflexivity | apply (fr_wf _ _ _ F W)].
  - exact (step_frame e Pmaster w o k W F m M).
Qed.
