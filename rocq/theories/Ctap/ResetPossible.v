(** A reset right after power-up succeeds: the converse of what C39 says about when it is possible. *)
From Verif Require Import Base Facts Hid.Model U2f.Model Cbor.Model Ctap.Crypto Ctap.Types Ctap.Machine
  Ctap.Commands Ctap.Parse Ctap.System Ctap.Logic Ctap.History Ctap.Track Ctap.Pin Ctap.PinChange
  Ctap.TokenSpec Ctap.Token Ctap.Success Ctap.Auth Ctap.Gate Ctap.Answers Ctap.TokenUse Ctap.Enum Ctap.Enumerate Ctap.Reset
  Ctap.Owner Ctap.Works.
From Coq Require Import Lia.

(** The state after power-up. *)
Definition ready : stateful := mkStateful 10000%N (Some SReset) None.

Lemma y_modify {E} f w (Q : unit -> world -> Prop) :
  (forall w1, w_v w1 = f (w_v w) -> w_p w1 = w_p w -> w_now w1 = w_now w -> w_up w1 = w_up w -> Q tt w1) ->
  ends (E := E) (modify f) w Q.
Proof. intro H. eexists _, _. split; [reflexivity | ]. now apply H. Qed.
Lemma y_get_command w (Q : option stateful_cmd -> world -> Prop) : st w = ready -> (w_now w < 10000)%N ->
  (forall w1, st w1 = ready -> w_p w1 = w_p w -> w_now w1 = w_now w -> w_up w1 = w_up w -> Q (Some SReset) w1) ->
  ends get_command w Q.
Proof.
  intros S T H. unfold get_command. apply e_bind. unfold clear_timer. apply e_bind, e_now. apply y_modify.
  intros w1 V1 P1 N1 U1. assert (S1 : st w1 = ready).
  { rewrite V1. cbn [set_st v_st]. rewrite S. unfold is_elapsed. cbn [ready sf_timer].
    destruct (10000 <=? w_now w)%N eqn:E; [lia | reflexivity]. }
  apply e_gets. rewrite S1. now apply H.
Qed.
Lemma y_preamble x ch w (Q : unit -> world -> Prop) : st w = ready -> (w_now w < 10000)%N -> keeps x (Some SReset) = true ->
  (forall w1, st w1 = ready -> w_p w1 = w_p w -> w_now w1 = w_now w -> w_up w1 = w_up w -> Q tt w1) ->
  ends (preamble x ch) w Q.
Proof.
  intros S T K H. unfold preamble. apply e_bind. unfold update_timeouts. apply e_bind, e_now. apply y_modify. intros w1 V1 P1 N1 U1.
  apply e_bind. unfold clear_other_channels. apply e_bind, y_modify. intros w2 V2 P2 N2 U2. apply y_modify. intros w3 V3 P3 N3 U3.
  assert (S3 : st w3 = ready).
  { rewrite V3. cbn [set_st v_st]. rewrite V2. cbn [set_up v_st]. rewrite V1. cbn [set_token v_st]. rewrite S. reflexivity. }
  apply e_bind, y_get_command; [exact S3 | congruence | ]. intros w4 S4 P4 N4 U4. rewrite K. apply e_ret, H; congruence.
Qed.

Lemma ready_step e o w : before_reset e o -> st w = ready -> (w_now (snd (run_op e o w)) < 10000)%N ->
  st (snd (run_op e o w)) = ready.
Proof.
  intros B S T. destruct o as [b ch | b | ch b en | | d | n]; [ | | destruct B | exact S | exact S | exact S].
  2:{ cbn [run_op] in *. assert (R : rel Pst_same (u2f_process e b)) by rel_walk. specialize (R w).
      destruct (u2f_process e b w) as [r w']. pose proof (fr_v _ _ _ R) as V. cbn in V. cbn [snd]. congruence. }
  cbn [run_op before_reset] in *. unfold process_command, bind, lift in *.
  destruct (parse_command (e_cfg e) b) as [x | s]; [ | exact S]. rewrite split_message in *.
  assert (K : keeps x (Some SReset) = true) by (destruct x; cbn in B |- *; solve [reflexivity | destruct B]).
  assert (G : exists w1, preamble x ch w = (Ok tt, w1) /\ w_now w1 = w_now w) by (destruct (preamble_same x ch w) as (w1 & ? & _ & _ & ? & _); eauto).
  destruct G as (w1 & Q & N1). unfold bind in *. rewrite Q in *.
  assert (SAME : forall m : M status response, rel Pst_same m -> forall w0, st (snd (m w0)) = st w0 /\ (w_now w0 <= w_now (snd (m w0)))%N).
  { intros m R w0. split; [exact (fr_v _ _ _ (R w0)) | exact (fr_now _ _ _ (R w0))]. }
  assert (REST : (w_now w1 < 10000)%N -> st w1 = ready ->
    st (snd (match ch with MainHid _ => process_fido_command e x ch | VendorHid _ => process_vendor_command e x end w1)) = ready).
  { intros T1 S1. destruct ch as [cid | cid].
    2:{ assert (R : rel Pst_same (process_vendor_command e x)) by (destruct x; cbn [process_vendor_command]; rel_walk).
        destruct (SAME _ R w1) as [-> _]. exact S1. }
    destruct x; try destruct B; cbn [process_fido_command].
    - assert (R : rel Pst_same (process_make_credential e p)) by rel_walk. destruct (SAME _ R w1) as [-> _]. exact S1.
    - assert (R : rel Pst_same (process_get_info e)) by rel_walk. destruct (SAME _ R w1) as [-> _]. exact S1.
    - assert (X : exists w2, get_command w1 = (Ok (Some SReset), w2) /\ st w2 = ready).
      { destruct (y_get_command w1 (fun s w2 => s = Some SReset /\ st w2 = ready) S1 T1) as (s & w2 & E & -> & S2); [auto | eauto]. }
      destruct X as (w2 & X & S2). unfold process_reset. unfold bind at 1. rewrite X.
      match goal with |- st (snd (?m w2)) = _ => assert (R : rel Pst_same m) by rel_walk end.
      destruct (SAME _ R w2) as [-> _]. exact S2.
    - assert (R : rel Pst_same (process_selection e)) by rel_walk. destruct (SAME _ R w1) as [-> _]. exact S1. }
  assert (MONO : (w_now w1 <= w_now (snd (match ch with MainHid _ => process_fido_command e x ch | VendorHid _ => process_vendor_command e x end w1)))%N).
  { destruct ch as [cid | cid].
    - assert (R : rel (keep anyp anyv anyE) (process_fido_command e x (MainHid cid))) by (destruct x; try destruct B; cbn [process_fido_command]; rel_walk).
      exact (fr_now _ _ _ (R w1)).
    - assert (R : rel Pst_same (process_vendor_command e x)) by (destruct x; cbn [process_vendor_command]; rel_walk).
      destruct (SAME _ R w1) as [_ X]. exact X. }
  assert (T1 : (w_now w1 < 10000)%N).
  { destruct (match ch with MainHid _ => process_fido_command e x ch | VendorHid _ => process_vendor_command e x end w1) as [r w'].
    cbn [snd] in *. lia. }
  assert (S1 : st w1 = ready).
  { destruct (y_preamble x ch w (fun _ w2 => st w2 = ready) S ltac:(lia) K) as (u & w2 & E & S2); [auto | ].
    rewrite Q in E. injection E as _ <-. exact S2. }
  specialize (REST T1 S1).
  destruct (match ch with MainHid _ => process_fido_command e x ch | VendorHid _ => process_vendor_command e x end w1) as [r w'].
  exact REST.
Qed.
Lemma step_now e o w : (w_now w <= w_now (step e w (o, None)))%N.
Proof.
  unfold step. cbn [fst snd]. destruct o as [b ch | b | ch b en | | d | n]; cbn [run_op].
  - assert (R : rel (keep anyp anyv anyE) (process_command e b ch)) by rel_walk.
    pose proof (fr_now _ _ _ (R w)) as F. destruct (process_command e b ch w) as [r w2]. cbn [snd] in F |- *. exact F.
  - assert (R : rel (keep anyp anyv anyE) (u2f_process e b)) by rel_walk.
    pose proof (fr_now _ _ _ (R w)) as F. destruct (u2f_process e b w) as [r w2]. cbn [snd] in F |- *. exact F.
  - apply N.le_refl.
  - apply N.le_refl.
  - cbn. lia.
  - apply N.le_refl.
Qed.
Lemma ready_history e h1 h2 : powered_up h1 -> Forall (fun y => snd y = None /\ before_reset e (fst y)) h2 ->
  (w_now (run e (h1 ++ h2)) < 10000)%N -> st (run e (h1 ++ h2)) = ready.
Proof.
  intros P F. induction h2 as [ | [o k] h2 IH] using rev_ind.
  - intros _. rewrite app_nil_r. destruct P as [-> | (h' & o & n & ->)]; [reflexivity | ]. rewrite run_app. reflexivity.
  - apply Forall_app in F as [F1 F2]. inversion_clear F2 as [ | ? ? [F3 F4] _]. cbn in F3, F4. subst k. intro T.
    rewrite app_assoc, run_app in *. apply (ready_step e o _ F4); [ | exact T]. apply IH; [exact F1 | ].
    pose proof (step_now e o (run e (h1 ++ h2))). lia.
Qed.

Section Reset.
  Variable e : env.
  Hypothesis NF : nofault e.
  Lemma x_reset w : st w = ready -> (w_now w < 10000)%N -> fst (e_up e (w_up w)) = UpConfirmed ->
    ends (process_reset e) w (fun r _ => r = RReset).
  Proof.
    intros S T U. unfold process_reset. apply e_bind, y_get_command; [exact S | exact T | ]. intros w1 S1 P1 N1 U1.
    apply e_bind, x_presence; [now rewrite U1 | ]. intros w2 P2.
    apply e_bind. unfold storage_reset. apply e_bind, e_store; [exact NF | ]. intros w3 _ _ _. apply x_internal, e_store; [exact NF | ].
    intros w4 _ _ _. apply e_bind.
    assert (G : tot (client_pin_reset e)).
    { unfold client_pin_reset, regenerate, reset_token, mod_token.
      repeat match goal with
             | |- tot (bind _ _) => apply t_bind; [ | intro]
             | |- tot (draw _ _) => apply t_draw
             | |- tot (modify _) => apply t_modify
             end. }
    eapply x_weak; [apply G | ]. intros u w4' _. cbv beta.
    apply e_bind, y_modify. intros w5 _ _ _ _. now apply e_ret.
  Qed.
End Reset.
