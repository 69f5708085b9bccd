(** Property theorems C39 about reset. *)
From Verif Require Import Base Facts Hid.Model U2f.Model Cbor.Model Ctap.Crypto Ctap.Types Ctap.Machine
  Ctap.Commands Ctap.Parse Ctap.System Ctap.Logic Ctap.History Ctap.Track Ctap.Pin Ctap.PinChange
  Ctap.MinPin Ctap.TokenSpec Ctap.Token Ctap.Success Ctap.Auth Ctap.Gate Ctap.Answers Ctap.TokenUse
  Ctap.Enum Ctap.Reset Ctap.Toy Ctap.ToyMore Ctap.PropsToken.
From Coq Require Import String List Lia.
Import ListNotations.
Open Scope list_scope.

(** A reset that succeeds comes less than 10 seconds after power-up; since then only the commands
    reset, getInfo, selection and makeCredential, or messages that are no CTAP2 commands, were
    received; and the user was present during it. *)
Theorem C39_only : forall e h b ch r w',
  parse_command (e_cfg e) b = Ok CReset ->
  run_op e (OpMessage b ch) (run e h) = (OutCtap (Ok r), w') ->
  (exists h1 h2, h = h1 ++ h2 /\
     (h1 = [] \/ exists h' o n, h1 = h' ++ [(o, Some n)]) /\
     Forall (fun y => snd y = None /\
       match fst y with
       | OpMessage b' _ =>
           match parse_command (e_cfg e) b' with
           | Ok CReset | Ok CGetInfo | Ok CSelection | Ok (CMakeCredential _) | Err _ => True
           | Ok _ => False
           end
       | OpVendor _ _ _ => False
       | _ => True
       end) h2 /\
     (w_now (run e h) < w_now (run e h1) + 10000)%N) /\
  exists l1 l2, w_log w' = l1 ++ LEv EvPresence :: l2 ++ w_log (run e h).
Proof.
  intros e h b ch r w' Hx H. destruct (reset_done e b ch _ r w' Hx H) as (S & T & _ & _ & _ & L).
  split; [ | exact L]. destruct (reset_history e h S) as (h1 & h2 & E & P & F & ST & N1).
  exists h1, h2. split; [exact E | ]. split; [exact P | ]. split; [ | rewrite ST in T; cbn in T; lia].
  eapply Forall_impl; [ | exact F]. intros [o k] [Hk B]. split; [exact Hk | ]. destruct o; cbn in *; auto.
Qed.
Print Assumptions C39_only.

(** Afterwards the stored state is that of a new device with the same attestation certificates and
    keys: no credential, no PIN and no configuration; no token is valid and no touch is pending. *)
Theorem C39_erases : forall e h b ch r w',
  parse_command (e_cfg e) b = Ok CReset ->
  run_op e (OpMessage b ch) (run e h) = (OutCtap (Ok r), w') ->
  w_p w' = set_atts (p_batch (w_p (run e h))) (p_ent (w_p (run e h))) pers_init /\
  p_creds (w_p w') = [] /\ p_pin (w_p w') = None /\ p_master (w_p w') = None /\
  t_perms (v_token (w_v w')) = 0%N /\ v_up (w_v w') = up_init.
Proof.
  intros e h b ch r w' Hx H. destruct (reset_done e b ch _ r w' Hx H) as (_ & _ & P & T & U & _).
  rewrite P. repeat split; auto.
Qed.
Print Assumptions C39_erases.

(** A reset that fails or is interrupted has erased everything or nothing. *)
Theorem C39_all_or_nothing : forall e h b ch k,
  parse_command (e_cfg e) b = Ok CReset ->
  let p := w_p (run e h) in
  let p' := w_p (run e (h ++ [(OpMessage b ch, k)])) in
  p' = p \/ p' = set_atts (p_batch p) (p_ent p) pers_init.
Proof.
  intros e h b ch k Hx. cbv zeta. rewrite run_app.
  apply (step_frame e Pclear (run e h) (OpMessage b ch) k (run_wf e h)).
  cbn [run_op]. unfold process_command, bind, lift. rewrite Hx.
  pose proof (reset_frame e ch (run e h)) as R. destruct (process_parsed_command e CReset ch (run e h)). exact R.
Qed.
Print Assumptions C39_all_or_nothing.

(** The keys that seal credential IDs are gone: whatever happens after a reset, keys that are in
    use then were drawn from the random number generator after the reset. *)
Theorem C39_new_keys : forall e h b ch r w' h2 m,
  parse_command (e_cfg e) b = Ok CReset ->
  run_op e (OpMessage b ch) (run e h) = (OutCtap (Ok r), w') ->
  p_master (w_p (run e (h ++ (OpMessage b ch, None) :: h2))) = Some m ->
  exists i, (w_rng w' <= i)%nat /\ m = e_rnd e i 128.
Proof.
  intros e h b ch r w' h2 m Hx H Hm.
  assert (E : run e (h ++ (OpMessage b ch, None) :: h2) = fold_left (step e) h2 w').
  { unfold run. rewrite fold_left_app. cbn [fold_left]. fold (run e h). unfold step at 2. cbn [fst snd]. now rewrite H. }
  rewrite E in Hm. destruct (reset_done e b ch _ r w' Hx H) as (_ & _ & P & _).
  assert (W : wf w') by (pose proof (run_op_wf e (OpMessage b ch) (run e h) (run_wf e h)) as W; now rewrite H in W).
  destruct (fresh_history e (w_rng w') h2 w' W (le_n _)) as [D | (i & Hi & D)].
  - left. rewrite P. reflexivity.
  - congruence.
  - exists i. split; [exact Hi | congruence].
Qed.
Print Assumptions C39_new_keys.

(** A PIN is set and a resident credential registered; after a power cycle the reset succeeds, also
    after getInfo and selection; it is refused after 10 seconds and after getNextAssertion. *)
Definition h_cycle : history := h_made ++ [(OpTick 1, Some 0%nat)].
Definition reset_msg : bytes := [7%N].
Example C39_nonvacuous :
  parse_command toy_cfg reset_msg = Ok CReset /\
  is_ok (answer h_cycle reset_msg) = true /\
  length (p_creds (w_p (run toy h_cycle))) = 1%nat /\ p_pin (w_p (run toy h_cycle)) <> None /\
  p_creds (w_p (run toy (h_cycle ++ [on reset_msg]))) = [] /\
  is_ok (answer (h_cycle ++ [on [4%N]; on [11%N]; (OpTick 8999, None)]) reset_msg) = true /\
  answer (h_cycle ++ [(OpTick 10000, None)]) reset_msg = OutCtap (Err NOT_ALLOWED) /\
  answer (h_cycle ++ [on [8%N]]) reset_msg = OutCtap (Err NOT_ALLOWED).
Proof. vm_compute. repeat split; try reflexivity. discriminate. Qed.
(** After the reset and a new registration there are new keys. *)
Example C39_new_keys_nonvacuous :
  let h := h_cycle ++ [on reset_msg; on (mc_msg toy_rp [1]%N false None)] in
  p_master (w_p (run toy h)) <> None /\ p_master (w_p (run toy h)) <> p_master (w_p (run toy h_made)).
Proof. vm_compute. split; discriminate. Qed.
(** Power is lost during the reset, after the first of its two writes or before it. *)
Example C39_crash_nonvacuous :
  let f n := length (p_creds (w_p (run toy (h_cycle ++ [(OpMessage reset_msg ch0, Some n)])))) in
  f 1%nat = 0%nat /\ f 2%nat = 1%nat.
Proof. vm_compute. split; reflexivity. Qed.
