(** C70: packets between the firmware and the host, through the kernel's USB driver. *)
From Coq Require Import List Arith Bool Lia.
Import ListNotations.
From Verif Require Import Base.
From Verif.Usb Require Import Model Spec Proofs Transmit Own Fair.
Local Open Scope nat_scope.

(** ** Reception *)

(** For any number of endpoints and any schedule of the process, the alarm, the
    controller and the host: as long as no call returned an error, the packets the
    calls returned for an endpoint are packets the host sent to that endpoint,
    unchanged, in the order it sent them, and none of them twice. *)
Theorem C70_received n evs w :
  0 < n -> run n init evs = Some w -> no_error w ->
  forall e, subsequence (received w e) (sent_by_host w e).
Proof.
  intros Hn H NE e.
  destruct (run_inv n Hn evs init w (init_inv n) H NE) as (acc & R & _).
  unfold sent_by_host; rewrite (r_sent _ _ _ _ _ _ _ _ R).
  apply sub_right.
  pose proof (r_pend _ _ _ _ _ _ _ _ R) as P.
  destruct (filter is_event _) as [|[|e0|] [|]]; try contradiction;
    [apply P | apply P |].
  destruct P as (_ & (l & q & _ & Q2 & Q3) & Q4).
  destruct (Nat.eq_dec e e0) as [->|N]; [|exact (proj1 (Q4 e N))].
  rewrite Q2; apply sub_right; apply Q3.
Qed.
Print Assumptions C70_received.

(** If moreover no call timed out, then between calls every packet the host sent
    was returned by a call, but for the one the controller holds for the next
    call.  Missing: a packet may be lost when a call times out
    ([C70_complete_refuted]). *)
Theorem C70_complete_partial n evs w :
  0 < n -> run n init evs = Some w -> no_error w -> no_timeout w -> at_phase w = Idle ->
  forall e, sent_by_host w e = received w e ++ held_packet w e.
Proof.
  intros Hn H NE NT P e.
  destruct (run_inv n Hn evs init w (init_inv n) H NE) as (acc & R & _ & Hi & _).
  unfold sent_by_host, held_packet; rewrite (r_sent _ _ _ _ _ _ _ _ R); f_equal.
  pose proof (r_pend _ _ _ _ _ _ _ _ R) as Q.
  rewrite P in Q; cbn [front app mode] in Q; rewrite P in Hi.
  rewrite (Hi eq_refl) in Q.
  symmetry; apply (proj2 Q); unfold strict; rewrite P; auto.
Qed.
Print Assumptions C70_complete_partial.

(** A process that waits for a packet is woken: no packet is held back while it
    sleeps with nothing to wake it. *)
Theorem C70_woken n evs w c e :
  0 < n -> run n init evs = Some w -> no_error w ->
  at_phase w = Waiting c -> receives c = true ->
  held (ctrl (sys w)) e = true ->
  upcalls (proc (sys w)) <> [].
Proof.
  intros Hn H NE P RC HH U.
  destruct (run_inv n Hn evs init w (init_inv n) H NE) as (acc & R & F & _).
  pose proof (r_pend _ _ _ _ _ _ _ _ R) as Q.
  rewrite P, U in Q; cbn in Q.
  destruct Q as [W _]; specialize (W eq_refl ltac:(discriminate)).
  pose proof (r_side _ _ _ _ _ _ _ _ R) as S; rewrite W, P in S; cbn in S.
  destruct S as (c' & M & S); injection M as <-.
  rewrite (r_held _ _ _ _ _ _ _ _ R) in HH.
  rewrite F in HH; [discriminate|].
  unfold can_receive_packet; rewrite W, S, side_receives; exact RC.
Qed.
Print Assumptions C70_woken.

(** No endpoint starves: while the controller holds one packet of an endpoint, at
    most as many calls return a packet as there are endpoints. *)
Theorem C70_fair n before after w w' e :
  0 < n -> run n init before = Some w -> run n w after = Some w' -> no_error w' ->
  holds w e = true -> holds w' e = true -> sent_by_host w' e = sent_by_host w e ->
  receptions w' <= receptions w + n.
Proof.
  intros Hn H H' NE Hw Hw' Hs.
  pose proof (run_inv n Hn before init w (init_inv n) H (run_no_error n after w w' H' NE)) as I.
  pose proof (run_fair n e Hn after w w' I H' NE Hw Hw' ltac:(unfold sent_count; rewrite Hs; reflexivity)) as M.
  pose proof (inv_pending n w I) as P.
  pose proof (dist_bound n e (next_endpoint_index (kern (sys w))) Hn) as D.
  unfold measure in M; lia.
Qed.
Print Assumptions C70_fair.

(** ** Transmission *)

(** Whatever happens, errors included, the packets the host got from an endpoint
    were given to calls for that endpoint, in that order, each of them at most
    once. *)
Theorem C70_given n evs w :
  0 < n -> run n init evs = Some w ->
  forall e, subsequence (got_by_host w e) (given w e).
Proof.
  intros Hn H e.
  assert (S0 : sound init) by (intros i; apply sub_nil).
  pose proof (run_sound n evs Hn init w S0 H e) as S.
  eapply sub_trans; [apply (sub_prefix _ (opt (in_flight (ctrl (sys w)) e) ++ opt (tx (sys w) e)));
                     apply sub_refl|].
  eapply sub_trans; [exact S|].
  unfold given, issued, current.
  destruct (at_phase w); rewrite ?app_nil_r; try apply sub_refl.
  rewrite flat_map_app; apply sub_right, sub_refl.
Qed.
Print Assumptions C70_given.

(** With one endpoint, whatever the host does: a call never returns an error, and
    the packets reported as sent were got by the host, in that order. *)
Theorem C70_reported_partial evs w :
  calls_are (endpoint_exists 1) evs -> run 1 init evs = Some w ->
  no_error w /\ forall e, subsequence (reported w e) (got_by_host w e).
Proof.
  intros HC H.
  destruct (one_run evs init w (init_inv 1) (init_own 1) eq_refl HC H) as (_ & O & NE).
  split; [exact NE|].
  intros e; exact (sub_prefix _ _ _ (o_rep _ _ O e)).
Qed.
Print Assumptions C70_reported_partial.

(** With any number of endpoints, if the host takes every packet at once, no packet
    arrives between the end of a call that timed out and its cancellation, and
    the call that both sends and receives is only used with one endpoint: the
    kernel does not panic, no call returns an error, and the packets reported as
    sent were got by the host.  What is missing is false, see the refutations
    below. *)
Theorem C70_panic_partial n evs :
  0 < n -> prompt evs -> quiet n evs ->
  calls_are (fun c => one_way n c /\ endpoint_exists n c) evs ->
  exists w, run n init evs = Some w /\ no_error w
            /\ forall e, subsequence (reported w e) (got_by_host w e).
Proof.
  intros Hn PR Q HC.
  destruct (prompt_run n Hn (length evs) evs init [] (le_n _) eq_refl (init_inv n)
              (init_own n) eq_refl (init_calm n) PR Q HC) as (w & R & _ & O & NE & _).
  exists w; split; [exact R|]; split; [exact NE|].
  intros e; exact (sub_prefix _ _ _ (o_rep _ _ O e)).
Qed.
Print Assumptions C70_panic_partial.

(** ** What does not hold *)

Definition p1 : packet := repeat 1%N 64.
Definition p2 : packet := repeat 2%N 64.
Definition q1 : packet := repeat 11%N 64.
Definition q2 : packet := repeat 12%N 64.

(** A call that ends by its alarm. *)
Definition times_out (c : call) : list event := [Begin c; Command; Ring; Yield; Leave; Cancel].

(** The host does not take a response before the call that sends it times out; then
    it does, and sends a new request: the kernel panics (usbc_ctap_hid.rs line
    931 of the patch: the cancelled packet is still in flight, and its end stops
    the reception in progress). *)
Definition slow_host : list event :=
  [Begin (Send p1 1); Command; In_ 1; Ring; Yield; Leave; Cancel;
   Begin Recv; Command; Done 1; Out 1 q1].

Theorem C70_panic_refuted :
  ~ (forall evs, calls_are (endpoint_exists 1) evs -> run 1 init evs <> None).
Proof.
  intros H; apply (H slow_host).
  - intros c Hc; cbn in Hc.
    repeat (destruct Hc as [Hc|Hc]; [try discriminate Hc; injection Hc as <-; cbn; auto with arith|]).
    contradiction.
  - vm_compute; reflexivity.
Qed.
Print Assumptions C70_panic_refuted.

(** Even with a host that takes packets at once, with two endpoints: the firmware
    sends on one and receives from the other, whose packet leaves the first
    transmission in place; it ends while the firmware waits for a packet. *)
Definition two_endpoints : list event :=
  [Begin (SendOrRecv p1 1); Command; Out 2 q1; Yield; Leave;
   Begin Recv; Command; In_ 1; Done 1; Out 1 q2].

Theorem C70_panic_prompt_refuted :
  ~ (forall evs, prompt evs -> quiet 2 evs -> calls_are (endpoint_exists 2) evs ->
       run 2 init evs <> None).
Proof.
  intros H; apply (H two_endpoints).
  - cbn; auto.
  - intros pre e q post w c E R.
    unfold two_endpoints in E.
    repeat (destruct pre as [|x pre]; cbn in E; [try discriminate E|injection E as <- E];
            try (vm_compute in R; injection R as <-; discriminate)).
    all: try (destruct pre; discriminate E).
    all: vm_compute in R; injection R as <-; discriminate.
  - intros c Hc; cbn in Hc.
    repeat (destruct Hc as [Hc|Hc]; [try discriminate Hc; injection Hc as <-; cbn; auto with arith|]).
    contradiction.
  - vm_compute; reflexivity.
Qed.
Print Assumptions C70_panic_prompt_refuted.

(** Even if the firmware only receives: a packet that arrives when the call has
    timed out and is not cancelled yet is copied to a buffer that is no longer
    there (usb_ctap.rs line 309 of the patch). *)
Definition late_packet : list event :=
  [Begin Recv; Command; Ring; Yield; Leave; Out 1 q1].

Theorem C70_panic_race_refuted :
  ~ (forall evs, prompt evs -> calls_are (fun c => c = Recv) evs -> run 1 init evs <> None).
Proof.
  intros H; apply (H late_packet).
  - cbn; auto.
  - intros c Hc; cbn in Hc.
    repeat (destruct Hc as [Hc|Hc]; [try discriminate Hc; injection Hc as <-; reflexivity|]).
    contradiction.
  - vm_compute; reflexivity.
Qed.
Print Assumptions C70_panic_race_refuted.

(** A packet that arrives between the alarm and the end of the call is lost. *)
Definition lost_packet : list event :=
  [Begin Recv; Command; Ring; Yield; Out 1 q1; Leave; Cancel].

Theorem C70_complete_refuted :
  ~ (forall evs w, prompt evs -> run 1 init evs = Some w -> no_error w -> at_phase w = Idle ->
       forall e, sent_by_host w e = received w e ++ held_packet w e).
Proof.
  intros H.
  destruct (run 1 init lost_packet) as [w|] eqn:E; [|vm_compute in E; discriminate E].
  assert (NE : existsb is_error (results w) = false /\ at_phase w = Idle
               /\ sent_by_host w 1 = [q1] /\ received w 1 ++ held_packet w 1 = []).
  { vm_compute in E; injection E as <-; vm_compute; auto. }
  destruct NE as (N1 & N2 & N3 & N4).
  specialize (H lost_packet w ltac:(cbn; auto) E N1 N2 1).
  rewrite N3, N4 in H; discriminate H.
Qed.
Print Assumptions C70_complete_refuted.

(** "In that case, the original content of buf is not sent to the host"
    (usb_ctap_hid.rs lines 180-182) is wrong: a call may return a received packet
    and the host still get the packet of the call. *)
Definition sent_anyway : list event :=
  [Begin (SendOrRecv p1 1); Command; In_ 1; Out 1 q1; Yield; Leave; Done 1].

Theorem C70_not_sent_refuted :
  ~ (forall evs w e p q, run 1 init evs = Some w ->
       results w = [(SendOrRecv p 1, IsReceived e q)] -> got_by_host w 1 = []).
Proof.
  intros H.
  destruct (run 1 init sent_anyway) as [w|] eqn:E; [|vm_compute in E; discriminate E].
  assert (X : results w = [(SendOrRecv p1 1, IsReceived 1 q1)] /\ got_by_host w 1 = [p1]).
  { vm_compute in E; injection E as <-; vm_compute; auto. }
  destruct X as [X1 X2].
  rewrite (H sent_anyway w 1 p1 q1 E X1) in X2; discriminate X2.
Qed.
Print Assumptions C70_not_sent_refuted.

(** With two endpoints, a packet may be reported as sent that the host did not
    get: the end of a cancelled transmission on the other endpoint is taken for
    its own. *)
Definition wrong_endpoint : list event :=
  [Begin (Send p1 1); Command; In_ 1; Ring; Yield; Leave; Cancel;
   Begin (Send p2 2); Command; Done 1; Yield; Leave].

Theorem C70_reported_refuted :
  ~ (forall evs w, calls_are (endpoint_exists 2) evs -> run 2 init evs = Some w ->
       no_error w -> forall e, subsequence (reported w e) (got_by_host w e)).
Proof.
  intros H.
  destruct (run 2 init wrong_endpoint) as [w|] eqn:E; [|vm_compute in E; discriminate E].
  assert (X : existsb is_error (results w) = false
              /\ reported w 2 = [p2] /\ got_by_host w 2 = []).
  { vm_compute in E; injection E as <-; vm_compute; auto. }
  destruct X as (X1 & X2 & X3).
  assert (HC : calls_are (endpoint_exists 2) wrong_endpoint).
  { intros c Hc; cbn in Hc.
    repeat (destruct Hc as [Hc|Hc]; [try discriminate Hc; injection Hc as <-; cbn; auto with arith|]).
    contradiction. }
  specialize (H wrong_endpoint w HC E X1 2).
  rewrite X2, X3 in H; inversion H.
Qed.
Print Assumptions C70_reported_refuted.

(** With two endpoints a call may be refused although the host takes packets at
    once: the packet of the call that received on the other endpoint is still
    queued. *)
Definition refused : list event :=
  [Begin (SendOrRecv p1 1); Command; Out 2 q1; Yield; Leave; Begin (Send p2 1); Command].

Theorem C70_error_refuted :
  ~ (forall evs w, prompt evs -> calls_are (endpoint_exists 2) evs ->
       run 2 init evs = Some w -> no_error w).
Proof.
  intros H.
  destruct (run 2 init refused) as [w|] eqn:E; [|vm_compute in E; discriminate E].
  assert (X : existsb is_error (results w) = true).
  { vm_compute in E; injection E as <-; vm_compute; reflexivity. }
  assert (HC : calls_are (endpoint_exists 2) refused).
  { intros c Hc; cbn in Hc.
    repeat (destruct Hc as [Hc|Hc]; [try discriminate Hc; injection Hc as <-; cbn; auto with arith|]).
    contradiction. }
  specialize (H refused w ltac:(cbn; auto) HC E).
  unfold no_error in H; congruence.
Qed.
Print Assumptions C70_error_refuted.

(** After an error, a packet may be returned for the wrong endpoint. *)
Definition mixed_up : list event :=
  [Begin (SendOrRecv p1 1); Command; Out 2 q1; Yield; Leave;
   Begin (SendOrRecv p2 1); Command;
   Begin Recv; Out 1 q1; Command; Out 2 q2; Yield; Leave].

Theorem C70_received_refuted :
  ~ (forall evs w, prompt evs -> run 2 init evs = Some w ->
       forall e, subsequence (received w e) (sent_by_host w e)).
Proof.
  intros H.
  destruct (run 2 init mixed_up) as [w|] eqn:E; [|vm_compute in E; discriminate E].
  assert (X : received w 1 = [q2] /\ sent_by_host w 1 = [q1]).
  { vm_compute in E; injection E as <-; vm_compute; auto. }
  destruct X as (X1 & X2).
  specialize (H mixed_up w ltac:(cbn; auto) E 1).
  rewrite X1, X2 in H; inversion H; subst; inversion H2.
Qed.
Print Assumptions C70_received_refuted.

(** ** The hypotheses are met *)

(** Two endpoints; packets held and delivered, sent and timed out. *)
Definition a_session : list event :=
  [Out 1 q1; Out 2 q2; Begin Recv; Command; Yield; Leave;
   Begin Recv; Command; Yield; Leave;
   Begin (Send p1 1); Command; In_ 1; Done 1; Yield; Leave;
   Begin (Send p2 2); Command; Ring; Yield; Leave; Cancel;
   Begin Recv; Command; Out 2 q1; Yield; Leave].

Example C70_nonvacuous :
  (exists w, run 2 init a_session = Some w
     /\ map snd (results w) = [IsReceived 1 q1; IsReceived 2 q2; IsSent; IsTimeout;
                               IsReceived 2 q1]
     /\ received w 2 = [q2; q1] /\ got_by_host w 1 = [p1])
  /\ prompt a_session /\ quiet 2 a_session
  /\ calls_are (fun c => one_way 2 c /\ endpoint_exists 2 c) a_session.
Proof.
  split; [|split; [cbn; auto|split]].
  - destruct (run 2 init a_session) as [w|] eqn:E; [|vm_compute in E; discriminate E].
    exists w; split; [reflexivity|].
    vm_compute in E; injection E as <-; vm_compute; auto.
  - intros pre e q post w c E R.
    unfold a_session in E.
    do 27 (destruct pre as [|x pre]; cbn in E;
           [try discriminate E; vm_compute in R; injection R as <-; discriminate
           |injection E as <- E]).
    destruct pre; discriminate E.
  - intros c Hc; cbn in Hc.
    repeat (destruct Hc as [Hc|Hc];
            [first [discriminate Hc | injection Hc as <-; split; [right; exact I | cbn; auto with arith]]|]).
    contradiction.
Qed.

Example C70_one_nonvacuous :
  exists w, run 1 init [Begin (SendOrRecv p1 1); Command; In_ 1; Done 1; Yield; Leave;
                        Begin (SendOrRecv p2 1); Command; Out 1 q1; Yield; Leave] = Some w
    /\ map snd (results w) = [IsSent; IsReceived 1 q1]
    /\ reported w 1 = [p1] /\ got_by_host w 1 = [p1].
Proof.
  match goal with |- exists w, run 1 init ?l = _ /\ _ =>
    destruct (run 1 init l) as [w|] eqn:E; [|vm_compute in E; discriminate E] end.
  exists w; split; [reflexivity|].
  vm_compute in E; injection E as <-; vm_compute; auto.
Qed.

(** Both endpoints have packets: the second one waits for one packet of the first. *)
Example C70_fair_nonvacuous :
  exists w w',
    run 2 init [Out 1 q1; Out 2 q2] = Some w
    /\ run 2 w [Begin Recv; Command; Yield; Leave; Out 1 q1] = Some w'
    /\ holds w 2 = true /\ holds w' 2 = true /\ holds w' 1 = true
    /\ sent_by_host w' 2 = sent_by_host w 2
    /\ receptions w = 0 /\ receptions w' = 1.
Proof.
  destruct (run 2 init [Out 1 q1; Out 2 q2]) as [w|] eqn:E; [|vm_compute in E; discriminate E].
  destruct (run 2 w [Begin Recv; Command; Yield; Leave; Out 1 q1]) as [w'|] eqn:E'.
  - exists w, w'; split; [reflexivity|]; split; [exact E'|].
    vm_compute in E; injection E as <-; vm_compute in E'; injection E' as <-; vm_compute.
    repeat split.
  - vm_compute in E; injection E as <-; vm_compute in E'; discriminate E'.
Qed.
