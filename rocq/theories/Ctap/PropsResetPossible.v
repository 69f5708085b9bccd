(** Property theorem C39: a reset right after power-up succeeds. *)
From Verif Require Import Base Facts Hid.Model U2f.Model Cbor.Model Ctap.Crypto Ctap.Types Ctap.Machine
  Ctap.Commands Ctap.Parse Ctap.System Ctap.Logic Ctap.History Ctap.Track Ctap.Pin Ctap.PinChange
  Ctap.Answers Ctap.Enum Ctap.Enumerate Ctap.Reset Ctap.Toy Ctap.ToyMore Ctap.PropsToken Ctap.PropsReset Ctap.Owner Ctap.ResetPossible.
From Coq Require Import String List Lia.
Import ListNotations.
Open Scope list_scope.

(** The converse of [C39_only]: whatever happened before, a forgotten or blocked PIN included, after
    a power cycle the reset is answered if it comes within 10 seconds, only the commands reset,
    getInfo, selection and makeCredential or messages that are no CTAP2 commands came before it, and
    the user confirms. What it leaves is [C39_erases]. *)
Theorem C39_possible : forall e h1 h2 b cid,
  nofault e -> parse_command (e_cfg e) b = Ok CReset ->
  (h1 = [] \/ exists h' o n, h1 = h' ++ [(o, Some n)]) ->
  Forall (fun y => snd y = None /\
    match fst y with
    | OpMessage b' _ =>
        match parse_command (e_cfg e) b' with
        | Ok CReset | Ok CGetInfo | Ok CSelection | Ok (CMakeCredential _) | Err _ => True
        | Ok _ => False
        end
    | OpVendor _ _ _ => False
    | _ => True
    end) h2 ->
  let w := run e (h1 ++ h2) in
  (w_now w < w_now (run e h1) + 10000)%N ->
  fst (e_up e (w_up w)) = UpConfirmed ->
  exists w', run_op e (OpMessage b (MainHid cid)) w = (OutCtap (Ok RReset), w').
Proof.
  intros e h1 h2 b cid NF Hx P F w T U.
  assert (Z : w_now (run e h1) = 0%N).
  { destruct P as [-> | (h' & o & n & ->)]; [reflexivity | ]. rewrite run_app. reflexivity. }
  rewrite Z, N.add_0_l in T.
  assert (S : v_st (w_v w) = ready).
  { apply ready_history; [exact P | | exact T]. eapply Forall_impl; [ | exact F]. intros [o k] [Hk B]. split; [exact Hk | ].
    destruct o; cbn in *; auto. }
  destruct (y_preamble CReset (MainHid cid) w (fun _ w1 => v_st (w_v w1) = ready /\ w_now w1 = w_now w /\ w_up w1 = w_up w) S T eq_refl)
    as ([] & w1 & E1 & S1 & N1 & U1); [auto | ].
  destruct (x_reset e NF w1 S1 ltac:(now rewrite N1) ltac:(now rewrite U1)) as (r & w2 & E2 & ->).
  exists w2. cbn [run_op]. unfold process_command. unfold bind at 1, lift at 1. rewrite Hx, split_message. unfold bind at 1.
  rewrite E1. cbn [process_fido_command]. now rewrite E2.
Qed.
Print Assumptions C39_possible.

(** A PIN is set and a credential stored; power is cycled; getInfo, selection, an unknown command
    and a registration follow. *)
Definition h_after : history :=
  [on [4%N]; on [11%N]; on [99%N]; on (mc_msg toy_rp [2%N] true None); (OpTick 7000, None)].
Example C39_possible_nonvacuous :
  nofault toy /\ parse_command toy_cfg reset_msg = Ok CReset /\
  (exists h' o n, h_cycle = h' ++ [(o, Some n)]) /\
  forallb (fun y => match snd y, fst y with
    | None, OpMessage b' _ =>
        match parse_command toy_cfg b' with
        | Ok CReset | Ok CGetInfo | Ok CSelection | Ok (CMakeCredential _) | Err _ => true
        | Ok _ => false
        end
    | None, OpTick _ => true
    | _, _ => false
    end) h_after = true /\
  p_pin (w_p (run toy (h_cycle ++ h_after))) <> None /\
  (w_now (run toy (h_cycle ++ h_after)) <? 10000)%N = true /\ (7000 <? w_now (run toy (h_cycle ++ h_after)))%N = true.
Proof.
  split; [intro; reflexivity | ]. split; [vm_compute; reflexivity | ].
  split; [exists h_made, (OpTick 1), 0%nat; reflexivity | ]. split; [vm_compute; reflexivity | ].
  split; [vm_compute; discriminate | ]. split; vm_compute; reflexivity.
Qed.
