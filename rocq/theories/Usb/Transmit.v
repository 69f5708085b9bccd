(** Proofs about the transmission of packets, and about panics. *)
From Coq Require Import List Arith Bool Lia.
Import ListNotations.
From Verif Require Import Base.
From Verif.Usb Require Import Model Spec Proofs.
Local Open Scope nat_scope.

Definition opt {A} (o : option A) : list A := match o with Some x => [x] | None => [] end.

Definition tx (s : state) (e : nat) : option packet := tx_packet (endpoints (kern s) e).
Definition pend (s : state) (e : nat) : bool := pending_in (endpoints (kern s) e).

(** Nothing is queued for transmission that was not before. *)
Definition shrinks (s s' : state) : Prop :=
  in_flight (ctrl s') = in_flight (ctrl s) /\ host_got (ctrl s') = host_got (ctrl s)
  /\ forall e, (tx s' e = tx s e /\ pend s' e = pend s e)
               \/ (tx s' e = None /\ pend s' e = false).

Lemma shrinks_refl s : shrinks s s.
Proof. repeat split; auto. Qed.

Lemma shrinks_trans a b c : shrinks a b -> shrinks b c -> shrinks a c.
Proof.
  intros (A1 & A2 & A3) (B1 & B2 & B3); split; [congruence|]; split; [congruence|].
  intros e; destruct (A3 e) as [[X Y]|[X Y]], (B3 e) as [[U V]|[U V]];
    rewrite ?U, ?V; auto.
Qed.

Lemma update_tx f e x :
  tx_packet x = tx_packet (f e) -> pending_in x = pending_in (f e) ->
  forall i, tx_packet (update f e x i) = tx_packet (f i)
            /\ pending_in (update f e x i) = pending_in (f i).
Proof. intros A B i; destruct (update_cases f e x i) as [[-> ->]|[_ ->]]; auto. Qed.

(** A state in which the process was served, or nothing happened to it. *)
Definition served (n : nat) (s s' : state) : Prop :=
  (waiting (kern s') = waiting (kern s) /\ app_side (kern s') = app_side (kern s)
   /\ pending_out (kern s') = pending_out (kern s) /\ proc s' = proc s
   /\ forall e, tx s' e = tx s e /\ pend s' e = pend s e)
  \/ (exists e q,
        known n e = true /\ can_receive_packet (kern s) = true
        /\ pending_out (kern s) = true
        /\ waiting (kern s') = false /\ app_side (kern s') = None
        /\ pending_out (kern s') = false
        /\ tx s' e = None /\ pend s' e = false
        /\ (forall i, i <> e -> tx s' i = tx s i /\ pend s' i = pend s i)
        /\ proc s' = schedule (mk_process (Some q) (on_transmit (proc s))
                        (on_receive (proc s)) (alarm (proc s)) (upcalls (proc s)))
                      (Received e)).

Lemma served_shrinks n s s' :
  in_flight (ctrl s') = in_flight (ctrl s) -> host_got (ctrl s') = host_got (ctrl s) ->
  served n s s' -> shrinks s s'.
Proof.
  intros A B [(_ & _ & _ & _ & H)|(e & q & _ & _ & _ & _ & _ & _ & H1 & H2 & H3 & _)];
    repeat split; auto.
  intros i; destruct (Nat.eq_dec i e) as [->|N]; [right; auto | left; apply H3; exact N].
Qed.

Lemma loop_served n : 0 < n -> forall is s s',
  receive_loop n s is = Some s' ->
  served n s s' /\ in_flight (ctrl s') = in_flight (ctrl s)
  /\ host_got (ctrl s') = host_got (ctrl s).
Proof.
  intros Hn is; induction is as [|i is IH]; intros s s' H; cbn [receive_loop] in H.
  - injection H as <-; repeat split; auto; left; repeat split; auto.
  - set (e := i mod n + 1) in *.
    pose proof (loop_known n i Hn) as K; fold e in K.
    destruct (delayed_out (endpoints (kern s) e)) eqn:D; [|apply IH; exact H].
    match type of H with context [send_packet_to_client n ?x e] => set (s0 := x) in * end.
    destruct (send_packet_to_client n s0 e) as [[s1 b]|] eqn:O; [|discriminate].
    destruct (offered n s0 e s1 b O K) as (_ & [(-> & CR & PO & RB & ->)|(-> & CR & ->)]).
    + match type of H with receive_loop n ?x is = _ => set (s2 := x) in * end.
      destruct (IH s2 s' H) as (SV & IF & HG).
      split; [|split; [exact IF | exact HG]].
      destruct SV as [(A1 & A2 & A3 & A4 & A5)|(e' & q' & _ & X & _)].
      2:{ unfold can_receive_packet in X; cbn in X; discriminate X. }
      right; exists e, (out_buffer (endpoints (kern s0) e)).
      split; [exact K|]; split; [exact CR|]; split; [exact PO|].
      rewrite A1, A2, A3, A4; cbn [kern s2 resume_out set_ctrl waiting app_side pending_out proc].
      do 3 (split; [reflexivity|]).
      destruct (A5 e) as [-> ->].
      unfold tx, pend; cbn; rewrite !update_same; cbn.
      split; [reflexivity|]; split; [reflexivity|]; split; [|reflexivity].
      intros j N; destruct (A5 j) as [X Y]; unfold tx, pend in X, Y; rewrite X, Y; cbn.
      rewrite !(update_other _ _ _ j) by exact N; auto.
    + match type of H with receive_loop n ?x is = _ => set (s2 := x) in * end.
      destruct (IH s2 s' H) as (SV & IF & HG).
      split; [|split; [exact IF | exact HG]].
      assert (T : forall j, tx s2 j = tx s j /\ pend s2 j = pend s j).
      { intros j; unfold tx, pend; cbn.
        destruct (Nat.eq_dec j e) as [->|N].
        - rewrite !update_same; cbn; rewrite ?update_same; auto.
        - rewrite !(update_other _ _ _ j) by exact N; auto. }
      destruct SV as [(A1 & A2 & A3 & A4 & A5)|(e' & q' & _ & X & _)].
      * left; split; [exact A1|]; split; [exact A2|]; split; [exact A3|]; split; [exact A4|].
        intros j; destruct (A5 j), (T j); split; congruence.
      * exfalso. change (can_receive_packet (kern s) = false) in CR.
        change (can_receive_packet (kern s) = true) in X. congruence.
Qed.

(** ** What the host got was given by a call *)

(** The calls whose command was issued. *)
Definition issued (w : world) : list call :=
  match at_phase w with
  | Waiting c | Woken c _ | Cancelling c => map fst (results w) ++ [c]
  | _ => map fst (results w)
  end.

Definition line (s : state) (e : nat) : list packet :=
  of_endpoint e (host_got (ctrl s)) ++ opt (in_flight (ctrl s) e) ++ opt (tx s e).

Definition sound (w : world) : Prop :=
  forall e, subsequence (line (sys w) e) (flat_map (given_in e) (issued w)).

Lemma shrinks_line s s' e : shrinks s s' -> subsequence (line s' e) (line s e).
Proof.
  intros (A & B & C); unfold line; rewrite A, B.
  apply sub_app; [apply sub_refl|]; apply sub_app; [apply sub_refl|].
  destruct (C e) as [[-> _]|[-> _]]; [apply sub_refl | apply sub_empty].
Qed.

Lemma receive_served n s s' :
  0 < n -> receive_packet n s = Some s' ->
  pending_out (kern s) = false ->
  served n (set_kern s (set_pending_out (kern s) true)) s'
  /\ in_flight (ctrl s') = in_flight (ctrl s) /\ host_got (ctrl s') = host_got (ctrl s).
Proof.
  intros Hn H P; unfold receive_packet in H; rewrite P in H.
  apply (loop_served n Hn _ _ _ H).
Qed.

Lemma receive_shrinks n s s' :
  0 < n -> receive_packet n s = Some s' -> shrinks s s'.
Proof.
  intros Hn H.
  destruct (pending_out (kern s)) eqn:P.
  - unfold receive_packet in H; rewrite P in H; injection H as <-; apply shrinks_refl.
  - destruct (receive_served n s s' Hn H P) as (SV & A & B).
    exact (served_shrinks n (set_kern s (set_pending_out (kern s) true)) s' A B SV).
Qed.

Lemma transmit_line n s p e k r i :
  transmit_packet n (kern s) p e = (k, r) ->
  subsequence (line (set_kern s k) i) (line s i ++ (if e =? i then [p] else [])).
Proof.
  intros H; unfold transmit_packet in H.
  assert (G : subsequence (line s i) (line s i ++ (if e =? i then [p] else [])))
    by (apply sub_right, sub_refl).
  destruct (known n e); [|injection H as <- <-; exact G].
  destruct (pending_in (endpoints (kern s) e)); injection H as <- <-; [exact G|].
  unfold line, tx; cbn.
  destruct (Nat.eq_dec i e) as [->|N].
  - rewrite update_same, Nat.eqb_refl; cbn.
    rewrite <- !app_assoc; apply sub_app; [apply sub_refl|]; apply sub_app; [apply sub_refl|].
    apply (sub_app [] _ [p] [p]); [apply sub_empty | apply sub_refl].
  - rewrite update_other by exact N.
    apply sub_right, sub_refl.
Qed.

Lemma command_line n s c s' r i :
  0 < n -> command n s c = Some (s', r) ->
  subsequence (line s' i) (line s i ++ given_in i c).
Proof.
  intros Hn H; destruct c as [|p e|p e]; cbn [command given_in] in *.
  - unfold command_receive, set_side in H.
    rewrite app_nil_r.
    destruct (match app_side (kern s) with None => _ | Some b => _ end) as [k|] eqn:K.
    2:{ injection H as <- <-; apply sub_refl. }
    assert (E : forall o b, shrinks s (set_kern s (set_app k o b)) /\ shrinks s (set_kern s k)).
    { assert (KE : endpoints k = endpoints (kern s)).
      { destruct (app_side (kern s)) as [a|]; [destruct (side_eqb Receive a); [|discriminate]|];
          injection K as <-; reflexivity. }
      intros o b; unfold shrinks, tx, pend; cbn; rewrite KE; repeat split; auto. }
    destruct (waiting k).
    + injection H as <- <-. exact (shrinks_line _ _ _ (proj2 (E None false))).
    + destruct (receive_packet n _) as [s1|] eqn:R; [|discriminate].
      injection H as <- <-.
      apply (shrinks_line s).
      exact (shrinks_trans _ _ _ (proj1 (E (app_side k) true)) (receive_shrinks n _ _ Hn R)).
  - unfold command_transmit, set_side in H.
    destruct (match app_side (kern s) with None => _ | Some b => _ end) as [k|] eqn:K.
    2:{ injection H as <- <-; apply sub_right, sub_refl. }
    assert (E : endpoints k = endpoints (kern s)).
    { destruct (app_side (kern s)) as [a|]; [destruct (side_eqb Transmit a); [|discriminate]|];
        injection K as <-; reflexivity. }
    assert (E' : line (set_kern s k) i = line s i) by (unfold line, tx; cbn; rewrite E; auto).
    destruct (waiting k).
    + injection H as <- <-; rewrite E'; apply sub_right, sub_refl.
    + destruct (transmit_packet n k p e) as [k1 r1] eqn:T.
      pose proof (transmit_line n (set_kern s k) p e k1 r1 i T) as L; rewrite E' in L.
      destruct r1; injection H as <- <-; exact L.
  - unfold command_transmit_or_receive, set_side in H.
    destruct (match app_side (kern s) with None => _ | Some b => _ end) as [k|] eqn:K.
    2:{ injection H as <- <-; apply sub_right, sub_refl. }
    assert (E : endpoints k = endpoints (kern s)).
    { destruct (app_side (kern s)) as [a|];
        [destruct (side_eqb TransmitOrReceive a); [|discriminate]|];
        injection K as <-; reflexivity. }
    destruct (waiting k).
    + injection H as <- <-; unfold line, tx; cbn; rewrite E; apply sub_right, sub_refl.
    + destruct (receive_packet n _) as [s1|] eqn:R; [|discriminate].
      pose proof (shrinks_line _ _ i (receive_shrinks n _ _ Hn R)) as L.
      assert (E' : line (set_kern s (set_app k (app_side k) true)) i = line s i)
        by (unfold line, tx; cbn; rewrite E; auto).
      rewrite E' in L.
      destruct (negb (waiting (kern s1))).
      * injection H as <- <-; apply sub_right; exact L.
      * destruct (transmit_packet n (kern s1) p e) as [k1 r1] eqn:T.
        injection H as <- <-.
        eapply sub_trans; [exact (transmit_line n s1 p e k1 r1 i T)|].
        apply sub_app; [exact L | apply sub_refl].
Qed.

Lemma cancel_in_shrinks n s k e :
  (forall i, (tx (set_kern s k) i = tx s i /\ pend (set_kern s k) i = pend s i)
             \/ (tx (set_kern s k) i = None /\ pend (set_kern s k) i = false)) ->
  shrinks s (set_kern s (fst (cancel_in_transaction n k e))).
Proof.
  intros H; unfold shrinks; split; [reflexivity|]; split; [reflexivity|].
  intros i; unfold cancel_in_transaction; destruct (known n e); [|apply H].
  unfold tx, pend in *; cbn in *.
  destruct (Nat.eq_dec i e) as [->|N].
  - rewrite update_same; auto.
  - rewrite update_other by exact N; apply H.
Qed.

Lemma cancel_all_shrinks n s es : forall k,
  (forall i, (tx (set_kern s k) i = tx s i /\ pend (set_kern s k) i = pend s i)
             \/ (tx (set_kern s k) i = None /\ pend (set_kern s k) i = false)) ->
  shrinks s (set_kern s (fst (cancel_all n k es))).
Proof.
  induction es as [|e es IH]; intros k H.
  - split; [reflexivity|]; split; [reflexivity | exact H].
  - cbn [cancel_all].
    pose proof (cancel_in_shrinks n s k e H) as C.
    destruct (cancel_in_transaction n k e) as [k1 a]; cbn [fst] in C.
    destruct (cancel_out_transaction n k1 e) as [k2 b] eqn:O.
    specialize (IH k2).
    destruct (cancel_all n k2 es) as [k3 r]; cbn [fst] in *.
    apply IH.
    assert (EE : endpoints k2 = endpoints k1).
    { unfold cancel_out_transaction in O; destruct (known n e); injection O as <- <-;
        reflexivity. }
    unfold tx, pend; cbn; rewrite EE; apply C.
Qed.

Lemma cancel_shrinks n s e : shrinks s (fst (command_cancel n s e)).
Proof.
  unfold command_cancel; destruct (waiting (kern s)); [|apply shrinks_refl].
  unfold cancel_transaction; destruct (0 <? e).
  - pose proof (cancel_in_shrinks n s (stop_waiting (kern s)) e) as C.
    destruct (cancel_in_transaction n (stop_waiting (kern s)) e) as [k1 a]; cbn [fst] in C.
    assert (C' : shrinks s (set_kern s k1)) by (apply C; intros i; left; auto).
    destruct (cancel_out_transaction n k1 e) as [k2 b] eqn:O; cbn [fst].
    assert (EE : endpoints k2 = endpoints k1).
    { unfold cancel_out_transaction in O; destruct (known n e); injection O as <- <-;
        reflexivity. }
    destruct C' as (C1 & C2 & C3); split; [exact C1|]; split; [exact C2|].
    intros i; unfold tx, pend; cbn; rewrite EE; apply C3.
  - pose proof (cancel_all_shrinks n s (seq 1 n) (stop_waiting (kern s))) as C.
    destruct (cancel_all n (stop_waiting (kern s)) (seq 1 n)) as [k1 a]; cbn [fst] in *.
    apply C; intros i; left; auto.
Qed.

Lemma out_served n s e q s' :
  packet_out n s e q = Some s' ->
  served n s s' /\ in_flight (ctrl s') = in_flight (ctrl s)
  /\ host_got (ctrl s') = host_got (ctrl s).
Proof.
  intros H; unfold packet_out in H.
  destruct (known n e && (length q =? 64) && negb (held (ctrl s) e)) eqn:G;
    [|injection H as <-; repeat split; left; repeat split; auto].
  apply andb_prop in G; destruct G as [G Hh]; apply andb_prop in G; destruct G as [K _].
  set (x := mk_endpoint _ _ _ q) in H.
  match type of H with context [send_packet_to_client n ?y e] => set (s0 := y) in * end.
  destruct (send_packet_to_client n s0 e) as [[s1 b]|] eqn:O; [|discriminate].
  destruct (offered n s0 e s1 b O K) as (_ & [(-> & CR & PO & RB & ->)|(-> & CR & ->)]).
  - injection H as <-; split; [|split; reflexivity].
    right; exists e, (out_buffer (endpoints (kern s0) e)).
    split; [exact K|]; split; [exact CR|]; split; [exact PO|].
    do 3 (split; [reflexivity|]).
    unfold tx, pend; cbn; rewrite !update_same; cbn.
    split; [reflexivity|]; split; [reflexivity|]; split; [|reflexivity].
    intros j N; rewrite !(update_other _ _ _ j) by exact N; auto.
  - injection H as <-; split; [|split; reflexivity].
    left; repeat split; unfold tx, pend; cbn.
    + destruct (Nat.eq_dec e0 e) as [->|N];
        [rewrite !update_same; cbn; rewrite ?update_same
        | rewrite !(update_other _ _ _ e0) by exact N]; auto.
    + destruct (Nat.eq_dec e0 e) as [->|N];
        [rewrite !update_same; cbn; rewrite ?update_same
        | rewrite !(update_other _ _ _ e0) by exact N]; auto.
Qed.

Lemma in_line n s e i : subsequence (line (packet_in n s e) i) (line s i).
Proof.
  unfold packet_in; destruct (known n e); [|apply sub_refl].
  destruct (tx_packet (endpoints (kern s) e)) as [p|] eqn:T; [|apply sub_refl].
  unfold line, tx; cbn.
  destruct (Nat.eq_dec i e) as [->|N].
  - rewrite !update_same, T; cbn.
    apply sub_app; [apply sub_refl|].
    apply (sub_app [] _ [p] [p]); [apply sub_empty | apply sub_refl].
  - rewrite !(update_other _ _ _ i) by exact N; apply sub_refl.
Qed.

Lemma done_line n s e s' i :
  packet_transmitted n s e = Some s' -> subsequence (line s' i) (line s i).
Proof.
  intros H; unfold packet_transmitted in H.
  destruct (in_flight (ctrl s) e) as [p|] eqn:I; [|injection H as <-; apply sub_refl].
  assert (G : subsequence
    (of_endpoint i (host_got (ctrl s) ++ [(e, p)])
       ++ opt (update (in_flight (ctrl s)) e None i) ++ opt (tx s i)) (line s i)).
  { rewrite of_endpoint_app, of_endpoint_one; unfold line.
    rewrite <- !app_assoc; apply sub_app; [apply sub_refl|].
    destruct (Nat.eq_dec i e) as [->|N].
    - rewrite Nat.eqb_refl, update_same, I; apply sub_refl.
    - assert (N' : (e =? i) = false) by (apply Nat.eqb_neq; congruence).
      rewrite N', update_other by exact N; apply sub_refl. }
  destruct (known n e) eqn:K.
  2:{ injection H as <-; exact G. }
  cbn [kern set_ctrl] in H.
  destruct (tx_packet (endpoints (kern s) e)) eqn:T; [discriminate|].
  injection H as <-.
  match goal with |- subsequence (line (client_packet_transmitted ?x) i) _ => set (s1 := x) end.
  assert (L : line (client_packet_transmitted s1) i = line s1 i).
  { unfold client_packet_transmitted; destruct (_ && _); reflexivity. }
  rewrite L. unfold s1, cancel_out_transaction; rewrite K; unfold line at 1, tx; cbn.
  assert (T' : tx_packet (update (endpoints (kern s)) e
    (mk_endpoint None false (delayed_out (endpoints (kern s) e))
                 (out_buffer (endpoints (kern s) e))) i) = tx s i).
  { unfold tx; destruct (Nat.eq_dec i e) as [->|N];
      [rewrite update_same, T | rewrite update_other by exact N]; reflexivity. }
  rewrite T'; exact G.
Qed.

Lemma step_sound n w ev w' : 0 < n -> sound w -> step n w ev = Some w' -> sound w'.
Proof.
  intros Hn S H e; specialize (S e).
  destruct ev; cbn [step] in H; unfold at_state in H.
  - injection H as <-; cbn.
    eapply sub_trans; [apply in_line | exact S].
  - destruct (packet_transmitted n (sys w) e0) as [s|] eqn:E; [|discriminate].
    injection H as <-; cbn.
    eapply sub_trans; [exact (done_line _ _ _ _ e E) | exact S].
  - destruct (packet_out n (sys w) e0 q) as [s|] eqn:E; [|discriminate].
    injection H as <-; cbn.
    destruct (out_served _ _ _ _ _ E) as (SV & A & B).
    eapply sub_trans; [apply (shrinks_line (sys w)) | exact S].
    apply (served_shrinks n); auto.
  - injection H as <-; cbn.
    destruct (alarm (proc (sys w))); exact S.
  - unfold issued in *.
    destruct (at_phase w) eqn:P; injection H as <-; cbn; rewrite ?P; exact S.
  - unfold issued in *.
    destruct (at_phase w) eqn:P; try (injection H as <-; cbn; rewrite ?P; exact S).
    destruct (command n (sys w) c) as [[s r]|] eqn:E; [|discriminate].
    pose proof (command_line n _ _ _ _ e Hn E) as L.
    assert (G : subsequence (line s e) (flat_map (given_in e) (map fst (results w) ++ [c]))).
    { eapply sub_trans; [exact L|].
      rewrite flat_map_app; cbn [flat_map]; rewrite app_nil_r.
      apply sub_app; [exact S | apply sub_refl]. }
    destruct r; injection H as <-; cbn; rewrite ?map_app; exact G.
  - unfold issued in *.
    destruct (at_phase w) eqn:P; try (injection H as <-; cbn; rewrite ?P; exact S).
    destruct (upcalls (proc (sys w))); injection H as <-; cbn; rewrite ?P; exact S.
  - unfold issued in *.
    destruct (at_phase w) as [| | |c []|] eqn:P; injection H as <-; cbn; rewrite ?P, ?map_app;
      exact S.
  - unfold issued in *.
    destruct (at_phase w) as [| | |c []|] eqn:P; injection H as <-; cbn [at_phase results];
      rewrite ?P, ?map_app; try exact S.
    eapply sub_trans; [apply (shrinks_line (sys w)), cancel_shrinks | exact S].
Qed.

Lemma run_sound n evs : 0 < n -> forall w w',
  sound w -> run n w evs = Some w' -> sound w'.
Proof.
  intros Hn; induction evs as [|ev evs IH]; intros w w' S H; cbn in H.
  - injection H as <-; exact S.
  - destruct (step n w ev) as [w1|] eqn:E; [|discriminate].
    exact (IH w1 w' (step_sound n w ev w1 Hn S E) H).
Qed.
