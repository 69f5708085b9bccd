(** Property C63: waiting for the user. *)
From Verif Require Import Base Facts.
From Verif Require Hid.Model Hid.Spec Hid.Proofs Ctap.Machine.
From Verif Require Import Device.Wait Device.WaitSpec.
Import Hid.Model Ctap.Machine.
Import Device.Wait Device.WaitSpec.
From Coq Require Import List Lia ZArith.
Import ListNotations.
Open Scope list_scope.

Lemma keepalive_one cid : length cid = 4%nat -> keepalive cid = [upneeded cid].
Proof.
  intros L. unfold keepalive, split_message. rewrite Hid.Proofs.packets_framing by (cbn; auto; unfold Nlen; cbn; lia).
  unfold Hid.Spec.framing. cbn. reflexivity.
Qed.
Lemma transport_eqb_eq a b : transport_eqb a b = true <-> a = b.
Proof. destruct a, b; cbn; split; congruence. Qed.

Lemma cancel_byte b : (b < 256)%N -> negb (N.land b PACKET_TYPE_MASK =? 0)%N = true ->
  (N.land b 127 =? cmd_code Cancel)%N = (b =? 0x91)%N.
Proof.
  intros B M.
  assert (K : forallb (fun b => implb (negb (N.land b PACKET_TYPE_MASK =? 0)%N) (Bool.eqb (N.land b 127 =? cmd_code Cancel)%N (b =? 0x91)%N))
                (map N.of_nat (seq 0 256)) = true) by (vm_compute; reflexivity).
  rewrite forallb_forall in K. specialize (K b). rewrite M in K. cbn [implb] in K. apply Bool.eqb_prop, K.
  apply in_map_iff. exists (N.to_nat b). split; [apply N2Nat.id|]. apply in_seq. lia.
Qed.

Lemma send_one s n ch : length (cid_of ch) = 4%nat -> packets_ok s ->
  send_all s n (transport_of ch) (cid_of ch) (keepalive (cid_of ch)) =
  ([CSend (transport_of ch) (upneeded (cid_of ch)) (fst (s_link s n)) (snd (s_link s n))],
   match fst (s_link s n) with
   | LError => KPanic
   | l => if is_cancel ch l then KCanceled else KOk
   end).
Proof.
  intros L P. rewrite keepalive_one by exact L. cbn [send_all]. destruct (s_link s n) as [l d] eqn:E. cbn [fst snd].
  destruct l as [| |t q|]; try reflexivity. cbn [is_cancel]. destruct (transport_eqb t (transport_of ch)); cbn [negb andb]; [|reflexivity].
  destruct (P _ _ _ _ E) as (Lq & Oq). unfold process_single_packet.
  assert (Eb : nth 0 (skipn 4 q) 0%N = nth 4 q 0%N).
  { do 4 (destruct q as [|? q]; [discriminate Lq|]). reflexivity. }
  rewrite Eb. assert (B : (nth 4 q 0 < 256)%N).
  { apply Hid.Proofs.bytes_ok_nth; exact Oq. }
  destruct (negb (N.land (nth 4 q 0) PACKET_TYPE_MASK =? 0)%N) eqn:M; destruct (bytes_eqb (firstn 4 q) (cid_of ch)); cbn [negb andb]; try reflexivity.
  - assert ((N.land (nth 4 q 0) 127 =? cmd_code Cancel)%N = (nth 4 q 0 =? 0x91)%N) as ->.
    { exact (cancel_byte _ B M). }
    destruct (nth 4 q 0 =? 145)%N; reflexivity.
  - assert ((nth 4 q 0 =? 0x91)%N = false) as ->; [|reflexivity].
    destruct (N.eqb_spec (nth 4 q 0%N) 0x91%N) as [E1|]; [|reflexivity]. rewrite E1 in M. discriminate M.
Qed.

(** How the waiting went: [k] rounds without a decision, then one of four ends. *)
Definition ends (s : surroundings) (ch : Ctap.Machine.channel) (k : nat) (cs : list call) (o : option up_result) : Prop :=
  ((k <= 300)%nat /\ fst (s_wait s k) <> UpTimeout /\
     cs = rounds s ch k ++ [CWait (delay k) (fst (s_wait s k)) (snd (s_wait s k))] /\ o = Some (fst (s_wait s k))) \/
  ((k <= 300)%nat /\ fst (s_wait s k) = UpTimeout /\ is_cancel ch (fst (s_link s k)) = true /\
     cs = rounds s ch (S k) /\ o = Some UpCanceled) \/
  ((k <= 300)%nat /\ fst (s_wait s k) = UpTimeout /\ fst (s_link s k) = LError /\ cs = rounds s ch (S k) /\ o = None) \/
  (k = 301%nat /\ cs = rounds s ch k /\ o = Some UpTimeout).

Lemma rounds_S s ch k : rounds s ch (S k) = rounds s ch k ++ round s ch k.
Proof. unfold rounds. rewrite seq_S, flat_map_app. cbn [flat_map Nat.add]. now rewrite app_nil_r. Qed.

Lemma loop_ends s ch : length (cid_of ch) = 4%nat -> packets_ok s ->
  forall more i, (i + more = 301)%nat -> open s ch i ->
  exists k cs, (i <= k)%nat /\ open s ch k /\ fst (wait_loop s ch i i more) = cs /\
    ends s ch k (rounds s ch i ++ cs) (snd (wait_loop s ch i i more)).
Proof.
  intros L P. induction more as [|more IH]; intros i Hi O; cbn [wait_loop].
  - exists i, []. split; [lia|]. split; [exact O|]. split; [reflexivity|]. right. right. right. rewrite app_nil_r. cbn [snd]. repeat split. lia.
  - destruct (s_wait s i) as [r d] eqn:E. fold (delay i). destruct (timed_out r) eqn:T; cbn [negb].
    + destruct r; try discriminate T. rewrite (send_one s i ch L P). destruct (is_cancel ch (fst (s_link s i))) eqn:C.
      * destruct (fst (s_link s i)) as [| |t q|] eqn:F; try discriminate C. rewrite C. exists i. eexists. split; [lia|]. split; [exact O|]. split; [reflexivity|].
        right. left. cbn [fst snd]. rewrite E, F. split; [lia|]. split; [reflexivity|]. split; [exact C|]. split; [|reflexivity]. rewrite rounds_S. unfold round. now rewrite E, F.
      * destruct (fst (s_link s i)) as [| |t q|] eqn:F.
        4: { exists i. eexists. split; [lia|]. split; [exact O|]. split; [reflexivity|]. right. right. left. cbn [fst snd]. rewrite E, F.
             split; [lia|]. split; [reflexivity|]. split; [reflexivity|]. split; [|reflexivity]. rewrite rounds_S. unfold round. now rewrite E, F. }
        all: rewrite ?C.
        all: assert (O' : open s ch (S i)) by (intros j Hj; destruct (Nat.eq_dec j i) as [->|]; [rewrite E, F; repeat split; try discriminate; exact C|apply O; lia]).
        all: destruct (IH (S i) ltac:(lia) O') as (k & cs & Hk & Ok' & Hcs & He).
        all: cbn [length]; rewrite Nat.add_1_r; destruct (wait_loop s ch (S i) (S i) more) as [cs' o]; cbn [fst snd] in *; subst cs'.
        all: exists k; eexists; split; [lia|]; split; [exact Ok'|]; split; [reflexivity|].
        all: rewrite rounds_S, <- app_assoc in He; unfold round in He; rewrite E, F in He; exact He.
    + exists i. eexists. split; [lia|]. split; [exact O|]. split; [reflexivity|]. left. rewrite E. cbn [fst snd]. repeat split; try lia.
      intros ->. discriminate T.
Qed.

Lemma story s ch : length (cid_of ch) = 4%nat -> packets_ok s ->
  exists k, open s ch k /\ ends s ch k (fst (check_user_presence s ch)) (snd (check_user_presence s ch)).
Proof.
  intros L P. destruct (loop_ends s ch L P 301 0 eq_refl) as (k & cs & _ & O & H & E); [intros j Hj; lia|].
  exists k. split; [exact O|]. unfold check_user_presence. change (S TIMEOUT_ITERATIONS) with 301%nat. rewrite <- H in E. exact E.
Qed.
(** The number of rounds is determined. *)
Lemma story_unique s ch k k' cs cs' o o' : open s ch k -> open s ch k' -> ends s ch k cs o -> ends s ch k' cs' o' -> k = k'.
Proof.
  assert (W : forall k k' cs cs' o o', open s ch k -> open s ch k' -> ends s ch k cs o -> ends s ch k' cs' o' -> (k <= k')%nat).
  { clear. intros k k' cs cs' o o' O O' E E'. destruct (Nat.le_gt_cases k k') as [|G]; [assumption|exfalso].
    destruct (O k' G) as (W & F & C). destruct E' as [(_ & N & _)|[(_ & _ & C' & _)|[(_ & _ & F' & _)|(K & _)]]]; try congruence.
    destruct E as [(B & _)|[(B & _)|[(B & _)|(B & _)]]]; lia. }
  intros O O' E E'. apply Nat.le_antisymm; eapply W; eassumption.
Qed.

(** ** C63 *)

(** What ends the waiting, and with what result.  While the user does nothing, a keepalive is sent on the channel of the request
    at most every round; nothing else is sent. *)
Theorem C63_outcomes : forall s ch, length (cid_of ch) = 4%nat -> packets_ok s ->
  exists k, open s ch k /\ ends s ch k (fst (check_user_presence s ch)) (snd (check_user_presence s ch)).
Proof. exact story. Qed.
Print Assumptions C63_outcomes.

(** The user is taken to be present exactly when a call of wait_with_timeout says so, after at most 300 that time out, and no CANCEL came before. *)
Theorem C63_confirmed : forall s ch, length (cid_of ch) = 4%nat -> packets_ok s ->
  (snd (check_user_presence s ch) = Some UpConfirmed <->
   exists k, (k <= 300)%nat /\ open s ch k /\ fst (s_wait s k) = UpConfirmed).
Proof.
  intros s ch L P. destruct (story s ch L P) as (k & O & E). split.
  - intros H. exists k. rewrite H in E. destruct E as [(B & _ & _ & R)|[(_ & _ & _ & _ & R)|[(_ & _ & _ & _ & R)|(_ & _ & R)]]]; try discriminate R.
    injection R as R. auto.
  - intros (k' & B & O' & W).
    assert (E' : ends s ch k' (rounds s ch k' ++ [CWait (delay k') (fst (s_wait s k')) (snd (s_wait s k'))]) (Some (fst (s_wait s k')))).
    { left. rewrite W. repeat split; try exact B. discriminate. }
    pose proof (story_unique _ _ _ _ _ _ _ _ O O' E E') as <-.
    destruct E as [(_ & _ & _ & R)|[(_ & T & _)|[(_ & T & _)|(K & _)]]]; try congruence. lia.
Qed.
Print Assumptions C63_confirmed.

(** CANCEL on the channel of the request ends the waiting, whenever it comes; nothing else does so with this result, unless the
    presence hardware reports a cancellation itself. *)
Theorem C63_cancel : forall s ch, length (cid_of ch) = 4%nat -> packets_ok s -> (forall k, fst (s_wait s k) <> UpCanceled) ->
  (snd (check_user_presence s ch) = Some UpCanceled <->
   exists k, (k <= 300)%nat /\ open s ch k /\ fst (s_wait s k) = UpTimeout /\ is_cancel ch (fst (s_link s k)) = true).
Proof.
  intros s ch L P N. destruct (story s ch L P) as (k & O & E). split.
  - intros H. exists k. rewrite H in E. destruct E as [(_ & _ & _ & R)|[(B & T & C & _)|[(_ & _ & _ & _ & R)|(_ & _ & R)]]]; try discriminate R; auto.
    injection R as R. symmetry in R. destruct (N _ R).
  - intros (k' & B & O' & W & C).
    assert (E' : ends s ch k' (rounds s ch (S k')) (Some UpCanceled)) by (right; left; auto).
    pose proof (story_unique _ _ _ _ _ _ _ _ O O' E E') as <-.
    destruct E as [(_ & T & _)|[(_ & _ & _ & _ & R)|[(_ & _ & F & _)|(K & _)]]]; try congruence; [|lia]. rewrite F in C. discriminate C.
Qed.
Print Assumptions C63_cancel.

Lemma time_app a b : time_of (a ++ b) = (time_of a + time_of b)%N.
Proof. induction a as [|c a IH]; cbn [app time_of fold_right]; [reflexivity|]. unfold time_of in *. lia. Qed.

(** The user has 30 seconds: when the waiting times out, at least 30 seconds have passed if every wait lasts as long as asked;
    and it ends after 60.1 seconds at the latest if every wait and every send keeps to its timeout. *)
Theorem C63_timeout : forall s ch, length (cid_of ch) = 4%nat -> packets_ok s -> (forall k, fst (s_wait s k) <> UpTimeout \/ delay k <= snd (s_wait s k))%N ->
  (snd (check_user_presence s ch) = Some UpTimeout -> (30000 <= time_of (fst (check_user_presence s ch)))%N) /\
  ((forall k, snd (s_wait s k) <= delay k /\ snd (s_link s k) <= 100)%N -> (time_of (fst (check_user_presence s ch)) <= 60100)%N).
Proof.
  intros s ch L P D.
  assert (Lo : forall k, open s ch k -> (100 * N.of_nat k <= time_of (rounds s ch k) + 100)%N).
  { induction k as [|k IH]; intros O; [cbn; lia|]. rewrite rounds_S, time_app. specialize (IH (fun j Hj => O j ltac:(lia))).
    destruct (O k ltac:(lia)) as (T & _). destruct (D k) as [D'|D']; [destruct (D' T)|]. cbn [round time_of fold_right call_time].
    destruct k; [|cbn [delay] in D']; lia. }
  assert (Up : (forall k, snd (s_wait s k) <= delay k /\ snd (s_link s k) <= 100)%N -> forall k, (time_of (rounds s ch k) + 100 <= N.of_nat k * 200 + match k with O => 100 | _ => 0 end)%N).
  { intros U. induction k as [|k IH]; [cbn; lia|]. rewrite rounds_S, time_app. destruct (U k) as (U1 & U2).
    cbn [round time_of fold_right call_time]. destruct k; cbn [delay] in U1; lia. }
  destruct (story s ch L P) as (k & O & E). split.
  - intros H. rewrite H in E. destruct E as [(_ & N & _ & R)|[(_ & _ & _ & _ & R)|[(_ & _ & _ & _ & R)|(K & -> & _)]]]; try discriminate R.
    + injection R as R. symmetry in R. destruct (N R).
    + subst k. specialize (Lo 301%nat O). lia.
  - intros U. specialize (Up U). destruct E as [(B & _ & -> & _)|[(B & _ & _ & -> & _)|[(B & _ & _ & -> & _)|(K & -> & _)]]].
    + rewrite time_app. specialize (Up k). destruct (U k) as (U1 & _). cbn [time_of fold_right call_time]. destruct k; cbn [delay] in U1; lia.
    + specialize (Up (S k)). cbv beta iota in Up. lia.
    + specialize (Up (S k)). cbv beta iota in Up. lia.
    + specialize (Up k). subst k. cbv beta iota in Up. lia.
Qed.
Print Assumptions C63_timeout.

(** Other clients do not matter: which packets come from other channels or transports, or other packets than CANCEL, or whether the
    platform reads the keepalives, changes neither the result nor what is sent. *)
Definition sent (c : call) : option (transport * packet) := match c with CSend t p _ _ => Some (t, p) | _ => None end.
Theorem C63_others : forall s s' ch, length (cid_of ch) = 4%nat -> packets_ok s -> packets_ok s' ->
  (forall k, fst (s_wait s k) = fst (s_wait s' k)) ->
  (forall k, is_cancel ch (fst (s_link s k)) = is_cancel ch (fst (s_link s' k)) /\ (fst (s_link s k) = LError <-> fst (s_link s' k) = LError)) ->
  snd (check_user_presence s ch) = snd (check_user_presence s' ch) /\
  map sent (fst (check_user_presence s ch)) = map sent (fst (check_user_presence s' ch)).
Proof.
  intros s s' ch L P P' W K. destruct (story s ch L P) as (k & O & E). destruct (story s' ch L P') as (k' & O' & E').
  assert (O2 : open s' ch k).
  { intros j Hj. destruct (O j Hj) as (A & B & C). destruct (K j) as (K1 & K2). rewrite <- W, <- K1. repeat split; auto. rewrite <- K2. exact B. }
  assert (S : forall k, map sent (rounds s ch k) = map sent (rounds s' ch k)).
  { clear. induction k as [|k IH]; [reflexivity|]. rewrite !rounds_S, !map_app, IH. reflexivity. }
  assert (E2 : exists cs o, ends s' ch k cs o /\ snd (check_user_presence s ch) = o /\ map sent (fst (check_user_presence s ch)) = map sent cs).
  { destruct (K k) as (K1 & K2). unfold ends in *. rewrite K1, K2 in E. rewrite (W k) in E.
    destruct E as [(B & N & -> & ->)|[(B & T & C & -> & ->)|[(B & T & C & -> & ->)|(B & -> & ->)]]]; eexists; eexists.
    - split; [left; repeat split; assumption|]. split; [reflexivity|]. rewrite !map_app, S. reflexivity.
    - split; [right; left; repeat split; assumption|]. split; [reflexivity|]. apply S.
    - split; [right; right; left; repeat split; assumption|]. split; [reflexivity|]. apply S.
    - split; [right; right; right; repeat split; assumption|]. split; [reflexivity|]. apply S. }
  destruct E2 as (cs & o & E2 & -> & ->). pose proof (story_unique _ _ _ _ _ _ _ _ O2 O' E2 E') as <-. clear - E2 E'.
  destruct E2 as [(B & N & -> & ->)|[(B & T & C & -> & ->)|[(B & T & C & -> & ->)|(B & -> & ->)]]];
    destruct E' as [(B' & N' & -> & ->)|[(B' & T' & C' & -> & ->)|[(B' & T' & C' & -> & ->)|(B' & -> & ->)]]]; try congruence; try lia; auto;
    try (rewrite C in C'; discriminate C'); try (rewrite C' in C; discriminate C).
Qed.
Print Assumptions C63_others.

(** Finding: a client that sends a packet on another channel meanwhile gets no answer, not even the error that the channel is busy
    (CTAP 2.1, section 11.2.5.1): the packet is lost. *)
Theorem C63_busy_refuted : exists s ch t q d, packets_ok s /\ length (cid_of ch) = 4%nat /\
  In (CSend t (upneeded (cid_of ch)) (LReceived t q) d) (fst (check_user_presence s ch)) /\
  Hid.Spec.packet_chan q <> cid_of ch /\ nth 4 q 0%N = 0x86%N /\
  (forall t' p l d', In (CSend t' p l d') (fst (check_user_presence s ch)) -> p = upneeded (cid_of ch)) /\
  snd (check_user_presence s ch) = Some UpConfirmed.
Proof.
  set (q := ([0; 0; 0; 2; 0x86; 0; 8] ++ repeat 1 57)%N).
  exists (mkSur (fun k => match k with O => (UpTimeout, 0%N) | _ => (UpConfirmed, 5%N) end) (fun _ => (LReceived Hid.Model.MainHid q, 0%N))),
    (Ctap.Machine.MainHid [0; 0; 0; 1]%N), Hid.Model.MainHid, q, 0%N.
  split; [|split; [reflexivity|]].
  { intros n t p d H. cbn [s_link] in H. injection H as _ <- _. split; reflexivity. }
  assert (E : check_user_presence (mkSur (fun k => match k with O => (UpTimeout, 0%N) | _ => (UpConfirmed, 5%N) end) (fun _ => (LReceived Hid.Model.MainHid q, 0%N)))
    (Ctap.Machine.MainHid [0; 0; 0; 1]%N) =
    ([CWait 0 UpTimeout 0; CSend Hid.Model.MainHid (upneeded [0; 0; 0; 1]%N) (LReceived Hid.Model.MainHid q) 0; CWait 100 UpConfirmed 5], Some UpConfirmed))
    by (vm_compute; reflexivity).
  rewrite E. cbn [fst snd cid_of]. split; [right; left; reflexivity|]. split; [vm_compute; discriminate|]. split; [reflexivity|]. split; [|reflexivity].
  intros t' p l d' [H|[H|[H|[]]]]; try discriminate H. injection H as _ <- _ _. reflexivity.
Qed.
Print Assumptions C63_busy_refuted.

Definition idle_user (l : link) : surroundings := mkSur (fun k => (UpTimeout, delay k)) (fun k => (match k with 3%nat => l | _ => LSent end, 10%N)).
Example C63_nonvacuous :
  let ch := Ctap.Machine.MainHid [0; 0; 0; 1]%N in
  let cancel := LReceived Hid.Model.MainHid ([0; 0; 0; 1; 0x91; 0; 0] ++ repeat 0 57)%N in
  let other := LReceived Hid.Model.MainHid ([0; 0; 0; 2; 0x91; 0; 0] ++ repeat 0 57)%N in
  packets_ok (idle_user cancel) /\ packets_ok (idle_user other) /\
  snd (check_user_presence (idle_user cancel) ch) = Some UpCanceled /\
  snd (check_user_presence (idle_user other) ch) = Some UpTimeout /\ time_of (fst (check_user_presence (idle_user other) ch)) = 33010%N /\
  snd (check_user_presence (idle_user LError) ch) = None.
Proof.
  cbv zeta. split; [|split].
  1, 2: intros n t p d H; cbn [idle_user s_link] in H; destruct n as [|[|[|[|n]]]]; try discriminate H; injection H as _ <- _; split; reflexivity.
  repeat split; vm_compute; reflexivity.
Qed.
