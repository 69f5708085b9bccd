(** No endpoint waits for ever while packets of the others are received. *)
From Coq Require Import List Arith Bool Lia.
Import ListNotations.
From Verif Require Import Base.
From Verif.Usb Require Import Model Spec Proofs.
Local Open Scope nat_scope.

Definition is_received (s : status) : bool :=
  match s with Received _ => true | _ => false end.
Definition count (l : list status) : nat := length (filter is_received l).
Definition pend (s : state) : nat := count (upcalls (proc s)).

(** How many endpoints come before [e], from index [i]. *)
Definition dist (n e i : nat) : nat := (e - 1 + (n - i mod n)) mod n.

Lemma dist_bound n e i : 0 < n -> dist n e i < n.
Proof. intros H; apply Nat.mod_upper_bound; lia. Qed.

Lemma dist_mod n e i : 0 < n -> dist n e (i mod n) = dist n e i.
Proof. intros H; unfold dist; rewrite Nat.mod_mod by lia; reflexivity. Qed.

Lemma next_mod n i : 0 < n ->
  S i mod n = if i mod n + 1 =? n then 0 else i mod n + 1.
Proof.
  intros H.
  assert (Hn : n <> 0) by lia.
  pose proof (Nat.mod_upper_bound i n Hn) as B.
  replace (S i) with (i + 1) by lia.
  rewrite <- Nat.add_mod_idemp_l by exact Hn.
  destruct (i mod n + 1 =? n) eqn:E.
  - apply Nat.eqb_eq in E; rewrite E; apply Nat.mod_same; exact Hn.
  - apply Nat.eqb_neq in E; apply Nat.mod_small; lia.
Qed.

Lemma dist_value n e i : known n e = true ->
  dist n e i = if i mod n <=? e - 1 then e - 1 - i mod n else e - 1 + n - i mod n.
Proof.
  intros K; apply known_range in K; unfold dist.
  assert (Hn : n <> 0) by lia.
  pose proof (Nat.mod_upper_bound i n Hn) as B.
  destruct (i mod n <=? e - 1) eqn:E.
  - apply Nat.leb_le in E.
    replace (e - 1 + (n - i mod n)) with (e - 1 - i mod n + 1 * n) by lia.
    rewrite Nat.mod_add by exact Hn; apply Nat.mod_small; lia.
  - apply Nat.leb_gt in E.
    replace (e - 1 + (n - i mod n)) with (e - 1 + n - i mod n) by lia.
    apply Nat.mod_small; lia.
Qed.

Lemma dist_next n e i :
  known n e = true -> i mod n + 1 <> e -> dist n e i = S (dist n e (S i)).
Proof.
  intros K N.
  assert (Hn : 0 < n) by (apply known_range in K; lia).
  rewrite !dist_value by exact K; rewrite next_mod by exact Hn.
  apply known_range in K.
  pose proof (Nat.mod_upper_bound i n ltac:(lia)) as B.
  destruct (i mod n + 1 =? n) eqn:E; [apply Nat.eqb_eq in E | apply Nat.eqb_neq in E];
    destruct (i mod n <=? e - 1) eqn:L; [apply Nat.leb_le in L | apply Nat.leb_gt in L
                                        | apply Nat.leb_le in L | apply Nat.leb_gt in L];
    match goal with |- context [?a <=? ?b] => destruct (a <=? b) eqn:L' end;
    first [apply Nat.leb_le in L' | apply Nat.leb_gt in L']; lia.
Qed.

Lemma count_app l m : count (l ++ m) = count l + count m.
Proof. unfold count; rewrite filter_app, app_length; reflexivity. Qed.

Lemma count_nil : count [] = 0.
Proof. reflexivity. Qed.

Lemma schedule_count p s :
  count (upcalls (schedule p s)) <= count (upcalls p) + if is_received s then 1 else 0.
Proof.
  unfold schedule; destruct (match s with Sent => _ | Received _ => _ | Timeout => _ end); [|lia].
  cbn [upcalls]; rewrite count_app; destruct s; cbn; lia.
Qed.

Local Arguments count : simpl never.
Local Arguments schedule : simpl never.
Local Arguments dist : simpl never.
Local Arguments Nat.modulo : simpl never.

(** The loop after a packet was accepted. *)
Lemma loop_over n is : 0 < n -> forall s s',
  receive_loop n s is = Some s' -> can_receive_packet (kern s) = false ->
  pend s' = pend s /\ next_endpoint_index (kern s') = next_endpoint_index (kern s)
  /\ ctrl s' = ctrl s.
Proof.
  intros Hn; induction is as [|i is IH]; intros s s' H CR; cbn [receive_loop] in H.
  - injection H as <-; auto.
  - set (e := i mod n + 1) in *.
    destruct (delayed_out (endpoints (kern s) e)) eqn:D; [|exact (IH _ _ H CR)].
    match type of H with context [send_packet_to_client n ?x e] => set (s0 := x) in * end.
    destruct (send_packet_to_client n s0 e) as [[s1 b]|] eqn:O; [|discriminate].
    destruct (offered n s0 e s1 b O (loop_known n i Hn))
      as (_ & [(-> & CR' & _)|(-> & _ & ->)]).
    + change (can_receive_packet (kern s) = true) in CR'; congruence.
    + apply (IH _ _ H CR).
Qed.

(** The loop when a packet of [e] is held. *)
Lemma loop_fair n e : 0 < n -> known n e = true -> forall m a s s',
  receive_loop n s (seq a m) = Some s' ->
  can_receive_packet (kern s) = true ->
  delayed_out (endpoints (kern s) e) = true ->
  dist n e a < m ->
  held (ctrl s') e = true ->
  pend s' + dist n e (next_endpoint_index (kern s')) <= pend s + dist n e a.
Proof.
  intros Hn K; induction m as [|m IH]; intros a s s' H CR De Da He; [lia|].
  cbn [seq receive_loop] in H.
  set (e1 := a mod n + 1) in *.
  destruct (delayed_out (endpoints (kern s) e1)) eqn:D.
  - match type of H with context [send_packet_to_client n ?x e1] => set (s0 := x) in * end.
    destruct (send_packet_to_client n s0 e1) as [[s1 b]|] eqn:O; [|discriminate].
    destruct (offered n s0 e1 s1 b O (loop_known n a Hn))
      as (_ & [(-> & _ & _ & _ & ->)|(-> & CR' & ->)]).
    + destruct (loop_over n _ Hn _ _ H eq_refl) as (P & N & C).
      rewrite C in He; cbn in He.
      assert (Ne : e1 <> e).
      { intros ->; rewrite update_same in He; discriminate. }
      rewrite N, P.
      cbn [next_endpoint_index kern resume_out set_ctrl].
      rewrite (dist_next n e a K Ne).
      replace (e1 mod n) with (S a mod n).
      2:{ rewrite next_mod by exact Hn; fold e1.
          destruct (e1 =? n) eqn:E.
          - apply Nat.eqb_eq in E; rewrite E; symmetry; apply Nat.mod_same; lia.
          - apply Nat.eqb_neq in E; symmetry; apply Nat.mod_small.
            pose proof (Nat.mod_upper_bound a n ltac:(lia)); unfold e1 in *; lia. }
      rewrite dist_mod by exact Hn.
      unfold pend; cbn [proc resume_out set_ctrl].
      match goal with |- context [schedule ?p ?x] => pose proof (schedule_count p x) as S end.
      cbn in S; cbn; lia.
    + change (can_receive_packet (kern s) = false) in CR'; congruence.
  - assert (Ne : e1 <> e) by congruence.
    rewrite (dist_next n e a K Ne) in Da |- *.
    enough (pend s' + dist n e (next_endpoint_index (kern s')) <= pend s + dist n e (S a)) by lia.
    apply (IH (S a) s s' H CR De); [lia | exact He].
Qed.

Lemma receive_fair n e s s' :
  0 < n -> known n e = true ->
  receive_packet n s = Some s' ->
  can_receive_packet (kern s) = true ->
  delayed_out (endpoints (kern s) e) = true ->
  held (ctrl s') e = true ->
  pend s' + dist n e (next_endpoint_index (kern s'))
  <= pend s + dist n e (next_endpoint_index (kern s)).
Proof.
  intros Hn K H CR De He; unfold receive_packet in H.
  destruct (pending_out (kern s)).
  - injection H as <-; lia.
  - exact (loop_fair n e Hn K n _ _ _ H CR De (dist_bound _ _ _ Hn) He).
Qed.

Lemma transmit_next n k p e :
  next_endpoint_index (fst (transmit_packet n k p e)) = next_endpoint_index k.
Proof.
  unfold transmit_packet; destruct (known n e); [|reflexivity].
  destruct (pending_in (endpoints k e)); reflexivity.
Qed.

Lemma cancel_all_next n es : forall k,
  next_endpoint_index (fst (cancel_all n k es)) = next_endpoint_index k.
Proof.
  induction es as [|e es IH]; intros k; [reflexivity|].
  cbn [cancel_all].
  destruct (cancel_in_transaction n k e) as [k1 a] eqn:E1.
  destruct (cancel_out_transaction n k1 e) as [k2 b] eqn:E2.
  specialize (IH k2); destruct (cancel_all n k2 es) as [k3 r]; cbn [fst] in *.
  rewrite IH.
  unfold cancel_in_transaction in E1; unfold cancel_out_transaction in E2.
  destruct (known n e); injection E1 as <- _; injection E2 as <- _; reflexivity.
Qed.

Lemma cancel_next n s e :
  next_endpoint_index (kern (fst (command_cancel n s e))) = next_endpoint_index (kern s)
  /\ proc (fst (command_cancel n s e)) = proc s
  /\ ctrl (fst (command_cancel n s e)) = ctrl s.
Proof.
  unfold command_cancel; destruct (waiting (kern s)); [|auto].
  destruct (cancel_transaction n (stop_waiting (kern s)) e) as [k r] eqn:E.
  cbn; split; [|auto].
  unfold cancel_transaction in E; destruct (0 <? e).
  - unfold cancel_in_transaction, cancel_out_transaction in E.
    destruct (known n e); injection E as <- _; reflexivity.
  - pose proof (cancel_all_next n (seq 1 n) (stop_waiting (kern s))) as C.
    rewrite E in C; exact C.
Qed.

(** The commands, from a state where no call waits. *)
Lemma command_fair n s c e s' r :
  0 < n -> known n e = true ->
  app_side (kern s) = None -> waiting (kern s) = false ->
  command n s c = Some (s', r) ->
  delayed_out (endpoints (kern s) e) = true ->
  held (ctrl s') e = true ->
  pend s' + dist n e (next_endpoint_index (kern s'))
  <= pend s + dist n e (next_endpoint_index (kern s)).
Proof.
  intros Hn K A W H De He.
  destruct c as [|p i|p i]; cbn [command] in H.
  - unfold command_receive, set_side in H; rewrite A in H; cbn [waiting set_app] in H.
    rewrite W in H.
    match type of H with context [receive_packet n ?x] =>
      destruct (receive_packet n x) as [s1|] eqn:R; [|discriminate] end.
    injection H as <- <-.
    exact (receive_fair n e _ _ Hn K R eq_refl De He).
  - unfold command_transmit, set_side in H; rewrite A in H; cbn [waiting set_app] in H.
    rewrite W in H.
    match type of H with context [transmit_packet n ?k p i] =>
      pose proof (transmit_next n k p i) as T; destruct (transmit_packet n k p i) as [k' r'] end.
    cbn in T.
    destruct r'; injection H as <- <-; cbn; rewrite T; unfold pend; cbn; lia.
  - unfold command_transmit_or_receive, set_side in H; rewrite A in H; cbn [waiting set_app] in H.
    rewrite W in H.
    match type of H with context [receive_packet n ?x] =>
      destruct (receive_packet n x) as [s1|] eqn:R; [|discriminate] end.
    destruct (negb (waiting (kern s1))).
    + injection H as <- <-.
      exact (receive_fair n e _ _ Hn K R eq_refl De He).
    + pose proof (transmit_next n (kern s1) p i) as T.
      destruct (transmit_packet n (kern s1) p i) as [k' r']; cbn in T.
      injection H as <- <-; cbn in He |- *; rewrite T.
      exact (receive_fair n e _ _ Hn K R eq_refl De He).
Qed.

(** ** The measure *)

Definition measure (n e : nat) (w : world) : nat :=
  receptions w + count (front (at_phase w)) + pend (sys w)
  + dist n e (next_endpoint_index (kern (sys w))).

Lemma receptions_last s p l c o :
  receptions (mk_world s p (l ++ [(c, o)]))
  = length (filter is_reception l) + match o with IsReceived _ _ => 1 | _ => 0 end.
Proof.
  unfold receptions; cbn [results]; rewrite filter_app, app_length; f_equal.
  cbn; destruct o; reflexivity.
Qed.

Lemma step_fair n w ev w' e :
  0 < n -> inv n w -> step n w ev = Some w' ->
  holds w e = true -> holds w' e = true ->
  measure n e w' <= measure n e w.
Proof.
  intros Hn I H Hw Hw'.
  destruct I as (acc & R & F & Hm & _).
  assert (De : delayed_out (endpoints (kern (sys w)) e) = true).
  { rewrite <- (r_held _ _ _ _ _ _ _ _ R); exact Hw. }
  pose proof (r_known _ _ _ _ _ _ _ _ R e De) as K.
  unfold measure.
  destruct ev as [i|i|i q| |c| | | |]; cbn [step] in H; unfold at_state in H.
  - injection H as <-.
    unfold packet_in; destruct (known n i); unfold receptions; cbn; [|lia].
    destruct (tx_packet (endpoints (kern (sys w)) i)); cbn; unfold pend, receptions; cbn; rewrite ?count_nil; lia.
  - destruct (packet_transmitted n (sys w) i) as [s|] eqn:E; [|discriminate]; injection H as <-.
    cbn; unfold receptions; cbn.
    enough (pend s <= pend (sys w)
            /\ next_endpoint_index (kern s) = next_endpoint_index (kern (sys w))) as [P N]
      by (rewrite N; lia).
    unfold packet_transmitted in E.
    destruct (in_flight (ctrl (sys w)) i); [|injection E as <-; auto].
    destruct (known n i) eqn:Ki; [|injection E as <-; cbn; auto].
    destruct (tx_packet _); [discriminate|]; injection E as <-.
    unfold cancel_out_transaction; rewrite Ki.
    unfold client_packet_transmitted.
    match goal with |- context [if ?b then _ else _] => destruct b end; cbn; [|auto].
    split; [|reflexivity].
    unfold pend; cbn.
    pose proof (schedule_count (proc (sys w)) Sent) as S; cbn in S; lia.
  - destruct (packet_out n (sys w) i q) as [s|] eqn:E; [|discriminate]; injection H as <-.
    cbn; unfold receptions; cbn.
    enough (pend s <= pend (sys w)
            /\ next_endpoint_index (kern s) = next_endpoint_index (kern (sys w))) as [P N]
      by (rewrite N; lia).
    unfold packet_out in E.
    destruct (known n i) eqn:Ki; [|cbn in E; injection E as <-; auto].
    destruct (_ && _) eqn:B; [|injection E as <-; auto].
    match type of E with context [send_packet_to_client n ?x i] => set (s0 := x) in * end.
    destruct (send_packet_to_client n s0 i) as [[s1 b]|] eqn:O; [|discriminate].
    destruct (offered n s0 i s1 b O Ki) as (_ & [(-> & CR & _)|(-> & _ & ->)]).
    + change (can_receive_packet (kern (sys w)) = true) in CR.
      rewrite (F CR e) in De; discriminate.
    + injection E as <-; cbn; auto.
  - injection H as <-; cbn; unfold receptions; cbn.
    destruct (alarm (proc (sys w))); cbn; [|lia].
    unfold pend; cbn.
    pose proof (schedule_count (proc (sys w)) Timeout) as S; cbn in S; lia.
  - destruct (at_phase w) eqn:P; injection H as <-; rewrite ?P; cbn; try lia.
    unfold pend, receptions; cbn; rewrite ?count_nil; lia.
  - destruct (at_phase w) as [|c|c|c st|c] eqn:P; try (injection H as <-; rewrite P; lia).
    destruct (command n (sys w) c) as [[s r]|] eqn:C; [|discriminate].
    destruct (idle_waits _ _ _ _ _ _ _ R) as (W & A & _).
    assert (He : held (ctrl s) e = true).
    { destruct r; injection H as <-; exact Hw'. }
    pose proof (command_fair n (sys w) c e s r Hn K A W C De He) as M.
    destruct r; injection H as <-; cbn [at_phase sys front] in *;
      rewrite ?receptions_last; unfold receptions; cbn in *; unfold pend in *; cbn in *; rewrite ?count_nil in *; lia.
  - destruct (at_phase w) as [|c|c|c st|c] eqn:P;
      [injection H as <-; rewrite P; lia | injection H as <-; rewrite P; lia |
      | destruct (upcalls _); injection H as <-; rewrite P; lia
      | injection H as <-; rewrite P; lia].
    destruct (upcalls (proc (sys w))) as [|u us] eqn:U; injection H as <-;
      [rewrite P; lia|].
    unfold pend, receptions; cbn; rewrite U.
    change (u :: us) with ([u] ++ us); rewrite count_app, ?count_nil; lia.
  - destruct (at_phase w) as [|c|c|c st|c] eqn:P; try (injection H as <-; rewrite P; lia).
    destruct st; injection H as <-; rewrite ?receptions_last; unfold pend, receptions; cbn;
      rewrite ?count_nil; try change (count [Received e0]) with 1; lia.
  - destruct (at_phase w) as [|c|c|c st|c] eqn:P; try (injection H as <-; rewrite P; lia).
    injection H as <-; rewrite receptions_last.
    destruct (cancel_next n (sys w) (cancelled_endpoint c)) as (N & Q & _).
    unfold pend, receptions; cbn; rewrite N, Q, ?count_nil; lia.
Qed.

(** ** A packet that is held was sent *)

Definition sent_count (w : world) (e : nat) : nat := length (sent_by_host w e).

Definition moved (e : nat) (s s' : state) : Prop :=
  host_sent (ctrl s') = host_sent (ctrl s)
  /\ (held (ctrl s') e = true -> held (ctrl s) e = true).

Lemma loop_moved n e is : 0 < n -> forall s s', receive_loop n s is = Some s' -> moved e s s'.
Proof.
  intros Hn; induction is as [|i is IH]; intros s s' H; cbn [receive_loop] in H.
  - injection H as <-; split; auto.
  - set (e1 := i mod n + 1) in *.
    destruct (delayed_out (endpoints (kern s) e1)) eqn:D; [|exact (IH _ _ H)].
    match type of H with context [send_packet_to_client n ?x e1] => set (s0 := x) in * end.
    destruct (send_packet_to_client n s0 e1) as [[s1 b]|] eqn:O; [|discriminate].
    destruct (offered n s0 e1 s1 b O (loop_known n i Hn))
      as (_ & [(-> & _ & _ & _ & ->)|(-> & _ & ->)]); destruct (IH _ _ H) as [A B]; cbn in A, B.
    + split; [exact A|]; intros X; specialize (B X).
      destruct (update_cases (held (ctrl s)) e1 false e) as [[-> U]|[_ U]]; rewrite U in B;
        [discriminate | exact B].
    + split; [exact A | exact B].
Qed.

Lemma receive_moved n e s s' : 0 < n -> receive_packet n s = Some s' -> moved e s s'.
Proof.
  intros Hn H; unfold receive_packet in H; destruct (pending_out (kern s)).
  - injection H as <-; split; auto.
  - destruct (loop_moved n e _ Hn _ _ H) as [A B]; split; [exact A | exact B].
Qed.

Lemma command_moved n s c e s' r : 0 < n -> command n s c = Some (s', r) -> moved e s s'.
Proof.
  intros Hn H; destruct c as [|p i|p i]; cbn [command] in H.
  - unfold command_receive in H; destruct (set_side (kern s) Receive) as [k|];
      [|injection H as <- _; split; auto].
    destruct (waiting k); [injection H as <- _; split; auto|].
    match type of H with context [receive_packet n ?x] =>
      destruct (receive_packet n x) as [s1|] eqn:R; [|discriminate] end.
    injection H as <- _; exact (receive_moved n e _ _ Hn R).
  - unfold command_transmit in H; destruct (set_side (kern s) Transmit) as [k|];
      [|injection H as <- _; split; auto].
    destruct (waiting k); [injection H as <- _; split; auto|].
    destruct (transmit_packet n k p i) as [k' r'].
    destruct r'; injection H as <- _; split; auto.
  - unfold command_transmit_or_receive in H;
      destruct (set_side (kern s) TransmitOrReceive) as [k|]; [|injection H as <- _; split; auto].
    destruct (waiting k); [injection H as <- _; split; auto|].
    match type of H with context [receive_packet n ?x] =>
      destruct (receive_packet n x) as [s1|] eqn:R; [|discriminate] end.
    pose proof (receive_moved n e _ _ Hn R) as M.
    destruct (negb (waiting (kern s1))); [injection H as <- _; exact M|].
    destruct (transmit_packet n (kern s1) p i) as [k' r'].
    injection H as <- _; exact M.
Qed.

Lemma moved_count e w s' p l :
  moved e (sys w) s' ->
  sent_count w e <= sent_count (mk_world s' p l) e
  /\ (holds (mk_world s' p l) e = true -> holds w e = false ->
      S (sent_count w e) <= sent_count (mk_world s' p l) e).
Proof.
  intros [A B]; unfold sent_count, sent_by_host, holds in *; cbn; rewrite A.
  split; [lia|]; intros X Y; rewrite (B X) in Y; discriminate.
Qed.

Lemma moved_refl e s s' : ctrl s' = ctrl s -> moved e s s'.
Proof. intros E; unfold moved; rewrite E; auto. Qed.

Lemma step_moved n w ev w' e :
  0 < n -> step n w ev = Some w' ->
  sent_count w e <= sent_count w' e
  /\ (holds w' e = true -> holds w e = false -> S (sent_count w e) <= sent_count w' e).
Proof.
  intros Hn H.
  assert (Same : w = w' -> sent_count w e <= sent_count w' e
    /\ (holds w' e = true -> holds w e = false -> S (sent_count w e) <= sent_count w' e)).
  { intros <-; split; [lia | intros X Y; congruence]. }
  destruct ev as [i|i|i q| |c| | | |]; cbn [step] in H; unfold at_state in H.
  - injection H as <-; apply moved_count.
    unfold packet_in; destruct (known n i); [|apply moved_refl; reflexivity].
    destruct (tx_packet _); [|apply moved_refl; reflexivity].
    split; auto.
  - destruct (packet_transmitted n (sys w) i) as [s|] eqn:E; [|discriminate]; injection H as <-.
    apply moved_count.
    unfold packet_transmitted in E.
    destruct (in_flight (ctrl (sys w)) i); [|injection E as <-; apply moved_refl; reflexivity].
    destruct (known n i); [|injection E as <-; split; auto].
    destruct (tx_packet _); [discriminate|]; injection E as <-.
    unfold client_packet_transmitted.
    match goal with |- context [if ?b then _ else _] => destruct b end; split; auto.
  - destruct (packet_out n (sys w) i q) as [s|] eqn:E; [|discriminate]; injection H as <-.
    unfold packet_out in E.
    destruct (known n i) eqn:Ki;
      [|cbn in E; injection E as <-; apply moved_count; apply moved_refl; reflexivity].
    destruct (_ && _) eqn:B;
      [|injection E as <-; apply moved_count; apply moved_refl; reflexivity].
    match type of E with context [send_packet_to_client n ?x i] => set (s0 := x) in * end.
    destruct (send_packet_to_client n s0 i) as [[s1 b]|] eqn:O; [|discriminate].
    unfold sent_count, sent_by_host, holds.
    destruct (offered n s0 i s1 b O Ki) as (_ & [(-> & _ & _ & _ & ->)|(-> & _ & ->)]);
      injection E as <-; cbn; rewrite of_endpoint_app, app_length, of_endpoint_one.
    + split; [lia|]; intros X Y; congruence.
    + split; [lia|]; intros X Y.
      destruct (update_cases (held (ctrl (sys w))) i true e) as [[-> U]|[_ U]];
        [rewrite Nat.eqb_refl; cbn; lia | rewrite U in X; congruence].
  - injection H as <-; apply moved_count; apply moved_refl.
    destruct (alarm (proc (sys w))); reflexivity.
  - destruct (at_phase w); injection H as H; try (apply Same; exact H).
    subst w'; apply moved_count, moved_refl; reflexivity.
  - destruct (at_phase w) as [|c|c|c st|c]; try (injection H as H; apply Same; exact H).
    destruct (command n (sys w) c) as [[s r]|] eqn:C; [|discriminate].
    pose proof (command_moved n (sys w) c e s r Hn C) as M.
    destruct r; injection H as <-; apply moved_count; exact M.
  - destruct (at_phase w) as [|c|c|c st|c]; destruct (upcalls (proc (sys w)));
      injection H as H; try (apply Same; exact H).
    subst w'; apply moved_count, moved_refl; reflexivity.
  - destruct (at_phase w) as [|c|c|c st|c]; try (injection H as H; apply Same; exact H).
    destruct st; injection H as <-; apply moved_count, moved_refl; reflexivity.
  - destruct (at_phase w) as [|c|c|c st|c]; try (injection H as H; apply Same; exact H).
    injection H as <-; apply moved_count, moved_refl.
    apply (cancel_next n (sys w) (cancelled_endpoint c)).
Qed.

Lemma run_moved n e : 0 < n -> forall evs w w', run n w evs = Some w' ->
  sent_count w e <= sent_count w' e
  /\ (holds w' e = true -> holds w e = false -> S (sent_count w e) <= sent_count w' e).
Proof.
  intros Hn; induction evs as [|ev evs IH]; intros w w' H; cbn [run] in H.
  - injection H as <-; split; [lia | intros X Y; congruence].
  - destruct (step n w ev) as [w1|] eqn:E; [|discriminate].
    destruct (step_moved n w ev w1 e Hn E) as [A1 B1], (IH w1 w' H) as [A2 B2].
    split; [lia|]; intros X Y.
    destruct (holds w1 e) eqn:Z; [specialize (B1 eq_refl Y) | specialize (B2 X eq_refl)]; lia.
Qed.

Lemma run_fair n e : 0 < n -> forall evs w w',
  inv n w -> run n w evs = Some w' -> no_error w' ->
  holds w e = true -> holds w' e = true -> sent_count w' e = sent_count w e ->
  measure n e w' <= measure n e w.
Proof.
  intros Hn; induction evs as [|ev evs IH]; intros w w' I H NE Hw Hw' Hc; cbn [run] in H.
  - injection H as <-; lia.
  - destruct (step n w ev) as [w1|] eqn:E; [|discriminate].
    destruct (step_moved n w ev w1 e Hn E) as [A1 B1].
    destruct (run_moved n e Hn evs w1 w' H) as [A2 B2].
    assert (Z : holds w1 e = true).
    { destruct (holds w1 e); [reflexivity|]; specialize (B2 Hw' eq_refl); lia. }
    pose proof (step_inv n w ev w1 Hn I E (run_no_error n evs w1 w' H NE)) as I1.
    pose proof (step_fair n w ev w1 e Hn I E Hw Z).
    specialize (IH w1 w' I1 H NE Z Hw' ltac:(lia)); lia.
Qed.

(** At most one reception is on its way to the process. *)
Lemma inv_pending n w : inv n w -> count (front (at_phase w)) + pend (sys w) <= 1.
Proof.
  intros (acc & R & _); pose proof (r_pend _ _ _ _ _ _ _ _ R) as P.
  unfold pend; rewrite <- count_app.
  assert (C : forall l, count l = count (filter is_event l)).
  { induction l as [|[| |] l IH]; cbn; unfold count in *; cbn; auto. }
  rewrite C; destruct (filter is_event _) as [|[|e0|] [|]]; try contradiction; unfold count; cbn; lia.
Qed.
