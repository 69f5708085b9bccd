(** Property theorems C51 about the dispatch of commands. *)
From Verif Require Import Base Facts Hid.Model U2f.Model Cbor.Model Ctap.Crypto Ctap.Types Ctap.Machine
  Ctap.Commands Ctap.Parse Ctap.System Ctap.Logic Ctap.History Ctap.Track Ctap.Pin Ctap.PinChange
  Ctap.MinPin Ctap.TokenSpec Ctap.Token Ctap.Success Ctap.Auth Ctap.Gate Ctap.Answers Ctap.TokenUse
  Ctap.Enum Ctap.NoPanic Ctap.Toy Ctap.ToyMore Ctap.PropsToken.
From Coq Require Import String List Lia.
Import ListNotations.
Open Scope list_scope.

(** ** C51 *)

(** Every byte string, on any channel and after any history in which only usable attestation keys
    were provisioned, gets one response: the success code with data, or one error byte. *)
Theorem C51_one_answer : forall e h b ch,
  Forall (fun y => provisioned e (fst y)) h ->
  exists r, fst (run_op e (OpMessage b ch) (run e h)) = OutCtap r /\
    match r with
    | Ok _ => exists c body, response_bytes (e_cfg e) r = Some (c :: body) /\
                             (c = 0%N \/ c = status_code VENDOR_INTERNAL_ERROR /\ body = [])
    | Err s => response_bytes (e_cfg e) r = Some [status_code s]
    end.
Proof.
  intros e h b ch F. pose proof (message_calm e h b ch F) as H.
  destruct (run_op e (OpMessage b ch) (run e h)) as [o w'] eqn:E. cbn [fst] in *.
  cbn [run_op] in E. destruct (process_command e b ch (run e h)) as [r w1]. injection E as <- <-.
  exists r. split; [reflexivity | ]. destruct r as [y | s].
  - unfold response_bytes. destruct (response_value (e_cfg e) y) as [v | ]; [ | eauto].
    destruct (cbor_write v) as [bs | ]; eauto 8.
  - destruct s; try reflexivity. congruence.
Qed.
Print Assumptions C51_one_answer.

(** A continuation command that succeeds on a channel was preceded by the command that starts the
    enumeration, uninterrupted and on the same channel; in between there were only continuations of
    the same kind on that channel and events that are no CTAP2 commands; and it arrives less than
    30 seconds after the start was answered. *)
Theorem C51_continuation : forall e h b ch x k r w',
  parse_command (e_cfg e) b = Ok x -> continues k x ->
  run_op e (OpMessage b ch) (run e h) = (OutCtap (Ok r), w') ->
  exists b1 x1 h1 h2,
    h = h1 ++ (OpMessage b1 ch, None) :: h2 /\
    parse_command (e_cfg e) b1 = Ok x1 /\ begins k x1 /\
    Forall (fun y => snd y = None /\ harmless e k ch (fst y)) h2 /\
    (w_now (run e h) < w_now (run e (h1 ++ [(OpMessage b1 ch, None)])) + 30000)%N.
Proof.
  intros e h b ch x k r w' Hx Hk H. cbn [run_op] in H. unfold process_command, bind, lift in H.
  rewrite Hx in H. destruct (process_parsed_command e x ch (run e h)) as [y w1] eqn:E.
  injection H as -> ->. destruct (next_running e x ch k (run e h) r w' Hk E) as (t & c & Hs & Ht & Hc).
  destruct (enum_history e h k c t Hs) as (cid & b1 & x1 & h1 & h2 & -> & Eh & P & B & F & T).
  assert (EC : MainHid cid = ch) by (apply Hc; reflexivity). subst ch.
  exists b1, x1, h1, h2. split; [exact Eh | ]. split; [exact P | ]. split; [exact B | ]. split; [exact F | ].
  rewrite Eh in Ht |- *. lia.
Qed.
Print Assumptions C51_continuation.

(** Two credentials; an assertion and its continuation.  The continuation fails without a start,
    after another command, on another channel, and after 30 seconds. *)
Definition mc_of (user : bytes) (h : history) : history :=
  h ++ [on (token_perms_msg toy_pin 3 (Some toy_rp))] ++
  [on (mc_msg toy_rp user true (Some (client_token (h ++ [on (token_perms_msg toy_pin 3 (Some toy_rp))]))))].
Definition h_two : history := mc_of [2; 2]%N (mc_of [1; 1]%N [on (set_pin_msg toy_pin)]).
Definition ask_msg : bytes := ga_msg toy_rp true None.
Definition next_msg : bytes := [8%N].
Definition h_asked : history := h_two ++ [on ask_msg].
Example C51_continuation_nonvacuous :
  parse_command toy_cfg next_msg = Ok CGetNextAssertion /\
  is_ok (answer h_asked next_msg) = true /\
  answer h_two next_msg = OutCtap (Err NOT_ALLOWED) /\
  answer (h_asked ++ [on [4%N]]) next_msg = OutCtap (Err NOT_ALLOWED) /\
  answer (h_asked ++ [(OpMessage next_msg (MainHid [9; 9; 9; 9]%N), None)]) next_msg = OutCtap (Err NOT_ALLOWED) /\
  is_ok (answer (h_asked ++ [(OpTick 28999, None)]) next_msg) = true /\
  answer (h_asked ++ [(OpTick 30000, None)]) next_msg = OutCtap (Err NOT_ALLOWED).
Proof. vm_compute. repeat split; reflexivity. Qed.

(** "Immediately" is not what the code does: messages that are no CTAP2 commands, here an invalid
    command byte on another channel and a U2F message, may come between the start and the
    continuation. *)
Theorem C51_immediately_refuted : exists e h b1 x y b ch,
  parse_command (e_cfg e) b1 = Ok (CGetAssertion x) /\
  parse_command (e_cfg e) b = Ok CGetNextAssertion /\
  (let h' := h ++ [(OpMessage b1 ch, None); (OpMessage [0x3F%N] (MainHid y), None); (OpU2f [], None)] in
   ch <> MainHid y /\
   exists r, fst (run_op e (OpMessage b ch) (run e h')) = OutCtap (Ok r)).
Proof.
  exists toy, h_two, ask_msg.
  destruct (parse_command toy_cfg ask_msg) as [[] | ] eqn:E; try (vm_compute in E; discriminate E).
  exists p, [9; 9; 9; 9]%N, next_msg, ch0. split; [exact E | ]. split; [reflexivity | ].
  split; [discriminate | ].
  destruct (fst (run_op toy (OpMessage next_msg ch0)
    (run toy (h_two ++ [(OpMessage ask_msg ch0, None); (OpMessage [0x3F%N] (MainHid [9; 9; 9; 9]%N), None); (OpU2f [], None)]))))
    as [[r | ] | | ] eqn:R; [eauto | exfalso; vm_compute in R; discriminate R ..].
Qed.
Print Assumptions C51_immediately_refuted.
