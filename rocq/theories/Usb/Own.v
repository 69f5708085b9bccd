(** Proofs about the outcome of calls: errors, packets reported as sent, panics. *)
From Coq Require Import List Arith Bool Lia.
Import ListNotations.
From Verif Require Import Base.
From Verif.Usb Require Import Model Spec Proofs Transmit.
Local Open Scope nat_scope.

Definition gives (c : call) (p : packet) (e : nat) : Prop :=
  c = Send p e \/ c = SendOrRecv p e.

Definition is_sent (s : status) : bool := match s with Sent => true | _ => false end.

Definition report (w : world) (e : nat) : list packet :=
  if existsb is_sent (front (at_phase w) ++ upcalls (proc (sys w)))
  then flat_map (given_in e) (current w) else [].

Record own (n : nat) (w : world) : Prop := {
  o_pend : forall e, pend (sys w) e = true \/ tx (sys w) e <> None ->
    known n e = true /\ waiting (kern (sys w)) = true
    /\ exists c p, mode (at_phase w) = Some c /\ gives c p e;
  o_line : forall c p e, mode (at_phase w) = Some c -> gives c p e ->
    waiting (kern (sys w)) = true ->
    tx (sys w) e = Some p \/ (tx (sys w) e = None /\ in_flight (ctrl (sys w)) e = Some p);
  o_call : forall c, In c (current w) -> one_way n c /\ endpoint_exists n c;
  o_rep : forall e, subsequence (reported w e ++ report w e) (got_by_host w e)
}.

Lemma gives_transmits c p e : gives c p e -> transmits c = true.
Proof. intros [->| ->]; reflexivity. Qed.

Lemma gives_given c p e i : gives c p e -> given_in i c = if e =? i then [p] else [].
Proof. intros [->| ->]; reflexivity. Qed.

Lemma mode_current w c : mode (at_phase w) = Some c -> current w = [c].
Proof. unfold current; destruct (at_phase w); cbn; congruence. Qed.

Lemma gives_fun c p e p' e' : gives c p e -> gives c p' e' -> p = p' /\ e = e'.
Proof. intros [->| ->] [E|E]; try discriminate; injection E; auto. Qed.

Lemma known_one e e' : known 1 e = true -> known 1 e' = true -> e = e'.
Proof. rewrite !known_range; lia. Qed.

Lemma no_sent_event l : filter is_event l = [] -> existsb is_sent l = false.
Proof.
  induction l as [|[] l IH]; cbn; intros H; auto; discriminate.
Qed.

(** A waiting process has no event yet. *)
Lemma waiting_no_sent n w acc st :
  reception n (mode (at_phase w)) (live (at_phase w)) (front (at_phase w)) st
            (received w) acc (sys w) ->
  waiting (kern (sys w)) = true ->
  existsb is_sent (front (at_phase w) ++ upcalls (proc (sys w))) = false.
Proof.
  intros R W; apply no_sent_event.
  pose proof (r_pend _ _ _ _ _ _ _ _ R) as P; rewrite W in P.
  destruct (filter is_event _) as [|[|e0|] [|]]; try contradiction;
    try (destruct P; discriminate); reflexivity.
Qed.

Lemma init_own n : own n init.
Proof.
  constructor; cbn.
  - intros e [H|H]; [discriminate | congruence].
  - discriminate.
  - contradiction.
  - intros e; apply sub_nil.
Qed.

(** *** Transactions of the controller *)

Lemma own_in n w e :
  own n w -> own n (mk_world (packet_in n (sys w) e) (at_phase w) (results w)).
Proof.
  intros [A B C D].
  unfold packet_in; destruct (known n e) eqn:K; [|destruct w; constructor; auto].
  destruct (tx_packet (endpoints (kern (sys w)) e)) as [p|] eqn:T;
    [|destruct w; constructor; auto].
  constructor; cbn [sys at_phase results].
  - intros i H; apply A; unfold pend, tx in *; cbn in *.
    destruct (Nat.eq_dec i e) as [->|N].
    + right; congruence.
    + rewrite !(update_other _ _ _ i) in H by exact N; exact H.
  - intros c q i M G W; specialize (B c q i M G W); unfold tx in *; cbn.
    destruct (Nat.eq_dec i e) as [->|N].
    + rewrite !update_same; cbn. rewrite T in B.
      destruct B as [B|[B _]]; [|discriminate]. injection B as ->; auto.
    + rewrite !(update_other _ _ _ i) by exact N; exact B.
  - exact C.
  - exact D.
Qed.

(** The process was served with a packet of the host, or nothing changed. *)
Lemma own_served n w s' acc st :
  own n w ->
  reception n (mode (at_phase w)) (live (at_phase w)) (front (at_phase w)) st
            (received w) acc (sys w) ->
  served n (sys w) s' ->
  in_flight (ctrl s') = in_flight (ctrl (sys w)) ->
  host_got (ctrl s') = host_got (ctrl (sys w)) ->
  own n (mk_world s' (at_phase w) (results w)).
Proof.
  intros [A B C D] R SV I G.
  destruct SV as [(S1 & S2 & S3 & S4 & S5)|(e & q & K & CR & PO & S1 & S2 & S3 & S4 & S5 & S6 & S7)].
  - constructor; cbn [sys at_phase results].
    + intros i H; destruct (S5 i) as [X Y]; rewrite X, Y in H; rewrite S1; apply A; exact H.
    + intros c p i M GV W; destruct (S5 i) as [X _]; rewrite X, I; apply (B c); auto; congruence.
    + exact C.
    + intros i; specialize (D i); unfold report, got_by_host in *; cbn in *.
      rewrite S4, G; exact D.
  - constructor; cbn [sys at_phase results].
    + intros i H; exfalso.
      destruct (Nat.eq_dec i e) as [->|N].
      * rewrite S4, S5 in H; destruct H; congruence.
      * destruct (S6 i N) as [X Y]; rewrite X, Y in H.
        destruct (A i H) as (Ki & W & c & p & M & GV).
        destruct (waits_for _ _ _ _ _ _ _ _ R CR) as (c' & M' & RC & _).
        assert (c' = c) by congruence; subst c'.
        destruct (C c) as [O _]; [rewrite (mode_current w c M); left; reflexivity|].
        destruct O as [->|O].
        -- apply N; exact (known_one i e Ki K).
        -- destruct GV as [->| ->]; [discriminate | contradiction].
    + intros; congruence.
    + exact C.
    + intros i; specialize (D i); unfold report, got_by_host in *; cbn in *.
      rewrite S7, G; unfold schedule; cbn.
      destruct (on_receive (proc (sys w))); cbn; [|exact D].
      rewrite app_assoc, existsb_last; cbn; rewrite orb_false_r; exact D.
Qed.

Lemma sub_prefix {A} (l k m : list A) : subsequence (l ++ k) m -> subsequence l m.
Proof. intros H; eapply sub_trans; [apply sub_right, sub_refl | exact H]. Qed.

(** The host took a packet: if the process waits for a transmission it is its
    own. *)
Lemma own_done n w e s' acc st :
  own n w ->
  reception n (mode (at_phase w)) (live (at_phase w)) (front (at_phase w)) st
            (received w) acc (sys w) ->
  (forall c p, mode (at_phase w) = Some c -> waiting (kern (sys w)) = true ->
     transmits c = true -> in_flight (ctrl (sys w)) e = Some p ->
     tx (sys w) e = None -> known n e = true -> gives c p e) ->
  packet_transmitted n (sys w) e = Some s' ->
  own n (mk_world s' (at_phase w) (results w)).
Proof.
  intros [A B C D] R Hg H; unfold packet_transmitted in H.
  destruct (in_flight (ctrl (sys w)) e) as [p|] eqn:I;
    [|injection H as <-; destruct w; constructor; auto].
  assert (D' : forall i, subsequence (reported w i ++ report w i)
                 (of_endpoint i (host_got (ctrl (sys w)) ++ [(e, p)]))).
  { intros i; rewrite of_endpoint_app; apply sub_right, D. }
  destruct (known n e) eqn:K.
  2:{ injection H as <-; constructor; cbn [sys at_phase results].
      - exact A.
      - intros c q i M G W; specialize (B c q i M G W); cbn.
        destruct (Nat.eq_dec i e) as [->|N]; [|rewrite update_other by exact N; exact B].
        exfalso. destruct (C c) as [_ X]; [rewrite (mode_current w c M); left; reflexivity|].
        assert (KE : known n e = true)
          by (apply known_range; destruct G as [->| ->]; exact X).
        congruence.
      - exact C.
      - exact D'. }
  cbn [kern set_ctrl] in H.
  destruct (tx_packet (endpoints (kern (sys w)) e)) eqn:T; [discriminate|].
  injection H as <-.
  unfold cancel_out_transaction; rewrite K; cbn [fst].
  set (x := mk_endpoint None false _ _).
  assert (TX : forall i, tx_packet (update (endpoints (kern (sys w))) e x i) = tx (sys w) i).
  { intros i; unfold tx; destruct (Nat.eq_dec i e) as [->|N];
      [rewrite update_same, T | rewrite update_other by exact N]; reflexivity. }
  assert (PE : forall i, pending_in (update (endpoints (kern (sys w))) e x i) = true ->
                         i <> e /\ pend (sys w) i = true).
  { intros i Hi; destruct (Nat.eq_dec i e) as [->|N].
    - rewrite update_same in Hi; discriminate.
    - rewrite update_other in Hi by exact N; auto. }
  unfold client_packet_transmitted; cbn [kern set_kern set_endpoint set_pending_out waiting
    app_side].
  pose proof (r_side _ _ _ _ _ _ _ _ R) as S.
  destruct (waiting (kern (sys w))) eqn:W; cbn [andb].
  2:{ constructor; cbn [sys at_phase results].
      - intros i Hi; exfalso. unfold pend, tx in Hi; cbn in Hi.
        assert (Hi' : pend (sys w) i = true \/ tx (sys w) i <> None).
        { destruct Hi as [Hi|Hi]; [left; apply PE; exact Hi | right; rewrite <- TX; exact Hi]. }
        destruct (A i Hi') as (_ & X & _); congruence.
      - cbn; intros; congruence.
      - exact C.
      - exact D'. }
  destruct S as (c & M & S); rewrite S, side_transmits.
  destruct (transmits c) eqn:TR.
  - (* the process is told *)
    specialize (Hg c p M eq_refl TR eq_refl T eq_refl).
    constructor; cbn [sys at_phase results].
    + intros i Hi; exfalso. unfold pend, tx in Hi; cbn in Hi.
      assert (Hi' : i <> e /\ (pend (sys w) i = true \/ tx (sys w) i <> None)).
      { destruct Hi as [Hi|Hi].
        - destruct (PE i Hi); auto.
        - rewrite TX in Hi; split; [|auto]. intros ->. apply Hi; exact T. }
      destruct Hi' as [N Hi']; destruct (A i Hi') as (_ & _ & c' & p' & M' & G').
      assert (c' = c) by congruence; subst c'.
      destruct (gives_fun _ _ _ _ _ Hg G') as [_ E]; congruence.
    + cbn; intros; congruence.
    + exact C.
    + intros i; specialize (D i).
      pose proof (waiting_no_sent n w acc st R W) as NS.
      unfold report in D; rewrite NS, app_nil_r in D.
      unfold got_by_host; cbn [sys ctrl set_kern set_ctrl host_got].
      rewrite of_endpoint_app.
      change (reported (mk_world _ (at_phase w) (results w)) i) with (reported w i).
      apply sub_app; [exact D|].
      unfold report, current; cbn [sys at_phase proc set_kern set_ctrl].
      rewrite of_endpoint_one.
      match goal with |- subsequence (if ?b then _ else _) _ => destruct b end; [|apply sub_empty].
      change (subsequence (flat_map (given_in i) (current w)) (if e =? i then [p] else [])).
      rewrite (mode_current w c M); cbn [flat_map]; rewrite app_nil_r.
      rewrite (gives_given c p e i Hg); apply sub_refl.
  - constructor; cbn [sys at_phase results].
    + intros i Hi. unfold pend, tx in Hi; cbn in Hi.
      assert (Hi' : pend (sys w) i = true \/ tx (sys w) i <> None).
      { destruct Hi as [Hi|Hi]; [left; apply PE; exact Hi | right; rewrite <- TX; exact Hi]. }
      cbn; rewrite W; exact (A i Hi').
    + intros c' q i M' G'; assert (c' = c) by congruence; subst c'.
      rewrite (gives_transmits _ _ _ G') in TR; discriminate.
    + exact C.
    + exact D'.
Qed.

(** *** The calls *)

Lemma clear_command n s c s' r :
  0 < n ->
  waiting (kern s) = false -> app_side (kern s) = None -> pending_out (kern s) = false ->
  (forall e, pend s e = false /\ tx s e = None) ->
  endpoint_exists n c ->
  command n s c = Some (s', r) ->
  r = Success
  /\ (forall e, pend s' e = true \/ tx s' e <> None ->
        known n e = true /\ waiting (kern s') = true /\ exists p, gives c p e)
  /\ (forall p e, gives c p e -> waiting (kern s') = true -> tx s' e = Some p)
  /\ in_flight (ctrl s') = in_flight (ctrl s) /\ host_got (ctrl s') = host_got (ctrl s)
  /\ existsb is_sent (upcalls (proc s')) = existsb is_sent (upcalls (proc s))
  /\ (can_receive_packet (kern s') = true -> pending_out (kern s') = true)
  /\ (receive_buffer (proc s) <> None -> receive_buffer (proc s') <> None).
Proof.
  intros Hn W A PO CL EX H.
  assert (SV : forall s1, receive_packet n (set_kern s (set_app (kern s)
                 (Some (side_of c)) true)) = Some s1 ->
    (waiting (kern s1) = false \/ waiting (kern s1) = true /\ pending_out (kern s1) = true)
    /\ (forall e, pend s1 e = false /\ tx s1 e = None)
    /\ in_flight (ctrl s1) = in_flight (ctrl s) /\ host_got (ctrl s1) = host_got (ctrl s)
    /\ existsb is_sent (upcalls (proc s1)) = existsb is_sent (upcalls (proc s))
    /\ (receive_buffer (proc s) <> None -> receive_buffer (proc s1) <> None)).
  { intros s1 E.
    destruct (receive_served n _ _ Hn E PO) as (SV & I & G).
    destruct SV as [(S1 & S2 & S3 & S4 & S5)
                   |(e & q & K & CR & PO' & S1 & S2 & S3 & S4 & S5 & S6 & S7)].
    - split; [right; cbn in S1, S3; auto|].
      split; [intros e; destruct (S5 e) as [X Y], (CL e) as [U V];
              unfold tx, pend in *; cbn in X, Y; split; congruence|].
      split; [exact I|]; split; [exact G|]; rewrite S4; auto.
    - split; [left; exact S1|].
      split; [intros i; destruct (Nat.eq_dec i e) as [->|N]; [auto|];
              destruct (S6 i N) as [X Y], (CL i) as [U V];
              unfold tx, pend in *; cbn in X, Y; split; congruence|].
      split; [exact I|]; split; [exact G|]; rewrite S7; unfold schedule; cbn.
      destruct (on_receive (proc s)); cbn; [|split; [reflexivity|intros _ X; discriminate X]].
      rewrite existsb_last; cbn; rewrite orb_false_r.
      split; [reflexivity|intros _ X; discriminate X]. }
  destruct c as [|p e|p e]; cbn [command endpoint_exists side_of] in *.
  - unfold command_receive, set_side in H; rewrite A in H; cbn [waiting set_app app_side] in H.
    rewrite W in H.
    destruct (receive_packet n _) as [s1|] eqn:E; [|discriminate].
    injection H as <- <-.
    destruct (SV s1 eq_refl) as (X1 & X2 & X3 & X4 & X5 & X6).
    split; [reflexivity|].
    split; [intros e [Y|Y]; destruct (X2 e); congruence|].
    split; [intros p e [Y|Y]; discriminate Y|].
    do 3 (split; [assumption|]).
    split; [|exact X6].
    intros CR; destruct X1 as [X1|[_ X1]]; [|exact X1].
    unfold can_receive_packet in CR; rewrite X1 in CR; discriminate.
  - unfold command_transmit, set_side in H; rewrite A in H; cbn [waiting set_app app_side] in H.
    rewrite W in H; unfold transmit_packet in H.
    assert (K : known n e = true) by (apply known_range; exact EX).
    rewrite K in H; cbn [endpoints set_app] in H.
    destruct (CL e) as [P T]; unfold pend in P; rewrite P in H.
    injection H as <- <-.
    split; [reflexivity|]; cbn.
    assert (OT : forall i, i <> e -> pend s i = false /\ tx s i = None) by (intros; apply CL).
    split; [|split; [|split; [reflexivity|split; [reflexivity|split; [reflexivity|]]]]].
    + intros i Hi; destruct (Nat.eq_dec i e) as [->|N].
      * split; [exact K|]; split; [reflexivity|]; exists p; left; reflexivity.
      * exfalso; unfold pend, tx in *; cbn in Hi; rewrite !update_other in Hi by exact N.
        destruct (OT i N) as [X Y]; destruct Hi; congruence.
    + intros q i [G|G] _; [|discriminate]. injection G as <- <-.
      unfold tx; cbn; rewrite update_same; reflexivity.
    + split; [unfold can_receive_packet; cbn; discriminate | auto].
  - unfold command_transmit_or_receive, set_side in H; rewrite A in H.
    cbn [waiting set_app app_side] in H; rewrite W in H.
    destruct (receive_packet n _) as [s1|] eqn:E; [|discriminate].
    destruct (SV s1 eq_refl) as (X1 & X2 & X3 & X4 & X5 & X6).
    destruct (waiting (kern s1)) eqn:W1; cbn [negb] in H.
    + assert (K : known n e = true) by (apply known_range; exact EX).
      unfold transmit_packet in H; rewrite K in H.
      destruct (X2 e) as [P T]; unfold pend in P; rewrite P in H.
      injection H as <- <-.
      split; [reflexivity|]; cbn.
      split; [|split; [|do 3 (split; [assumption|]); split; [|exact X6]]].
      * intros i Hi; destruct (Nat.eq_dec i e) as [->|N].
        -- split; [exact K|]; split; [exact W1|]; exists p; right; reflexivity.
        -- exfalso; unfold pend, tx in *; cbn in Hi; rewrite !update_other in Hi by exact N.
           destruct (X2 i) as [X Y]; destruct Hi; congruence.
      * intros q i [G|G] _; [discriminate|]. injection G as <- <-.
        unfold tx; cbn; rewrite update_same; reflexivity.
      * intros _. destruct X1 as [X1|[_ X1]]; [congruence | exact X1].
    + injection H as <- <-.
      split; [reflexivity|].
      split; [intros i [Y|Y]; destruct (X2 i); congruence|].
      split; [intros; congruence|].
      do 3 (split; [assumption|]).
      split; [|exact X6].
      intros CR; unfold can_receive_packet in CR; rewrite W1 in CR; discriminate.
Qed.

Lemma cancel_clears n w c :
  own n w -> at_phase w = Cancelling c ->
  forall e, pend (fst (command_cancel n (sys w) (cancelled_endpoint c))) e = false
            /\ tx (fst (command_cancel n (sys w) (cancelled_endpoint c))) e = None.
Proof.
  intros [A B C D] P e.
  set (s' := fst (command_cancel n (sys w) (cancelled_endpoint c))).
  destruct (cancel_shrinks n (sys w) (cancelled_endpoint c)) as (_ & _ & SH).
  specialize (SH e); fold s' in SH.
  destruct SH as [[X Y]|[X Y]]; [|auto].
  assert (NP : pend s' e = true \/ tx s' e <> None -> False).
  { intros H; rewrite X, Y in H.
    destruct (A e H) as (K & W & c' & p & M & G).
    rewrite P in M; cbn in M; injection M as <-.
    unfold s', command_cancel in X, Y; rewrite W in X, Y.
    assert (Z : forall es k, In e es ->
              pending_in (endpoints (fst (cancel_all n k es)) e) = false
              /\ tx_packet (endpoints (fst (cancel_all n k es)) e) = None).
    { clear - K; induction es as [|i es IH]; intros k Hi; [contradiction|].
      cbn [cancel_all].
      destruct (cancel_in_transaction n k i) as [k1 a] eqn:E1.
      destruct (cancel_out_transaction n k1 i) as [k2 b] eqn:E2.
      assert (EE : endpoints k2 = endpoints k1).
      { unfold cancel_out_transaction in E2; destruct (known n i); injection E2 as <- <-;
          reflexivity. }
      destruct (in_dec Nat.eq_dec e es) as [I|I].
      - specialize (IH k2 I); destruct (cancel_all n k2 es) as [k3 r]; exact IH.
      - destruct Hi as [->|Hi]; [|contradiction].
        pose proof (cancel_all_shrinks n
          (mk_state k2 (mk_process None false false false [])
                    (mk_bus (fun _ => None) (fun _ => false) [] [])) es k2) as SH.
        destruct SH as (_ & _ & SH); [intros j; left; auto|].
        specialize (SH e); unfold tx, pend in SH; cbn in SH.
        assert (Q : pending_in (endpoints k2 e) = false /\ tx_packet (endpoints k2 e) = None).
        { rewrite EE; unfold cancel_in_transaction in E1; rewrite K in E1.
          injection E1 as <- <-; cbn; rewrite update_same; auto. }
        destruct (cancel_all n k2 es) as [k3 r]; cbn [fst] in *.
        destruct Q as [Q1 Q2], SH as [[U V]|[U V]]; split; congruence. }
    unfold cancel_transaction in X, Y.
    destruct G as [->| ->]; cbn [cancelled_endpoint] in X, Y.
    - apply known_range in K.
      assert (LT : (0 <? e) = true) by (apply Nat.ltb_lt; lia).
      assert (K' : known n e = true) by (apply known_range; lia).
      rewrite LT in X, Y; unfold cancel_in_transaction, cancel_out_transaction in X, Y.
      rewrite K' in X, Y; unfold tx, pend in *; cbn in X, Y.
      rewrite update_same in X, Y; cbn in X, Y.
      destruct H as [H|H]; [rewrite <- Y in H; discriminate | rewrite <- X in H; congruence].
    - cbn [Nat.ltb Nat.leb] in X, Y.
      apply known_range in K.
      destruct (Z (seq 1 n) (stop_waiting (kern (sys w)))) as [Z1 Z2];
        [apply in_seq; lia|].
      destruct (cancel_all n (stop_waiting (kern (sys w))) (seq 1 n)) as [k r].
      unfold tx, pend in *; cbn in *.
      destruct H as [H|H]; [rewrite <- Y, Z1 in H; discriminate
                           | rewrite <- X, Z2 in H; congruence]. }
  destruct (pend s' e) eqn:E1; [exfalso; auto|].
  destruct (tx s' e) eqn:E2; [exfalso; apply NP; right; discriminate|auto].
Qed.

Lemma reported_last s p l r e :
  reported (mk_world s p (l ++ [r])) e = flat_map (reported_in e) l ++ reported_in e r.
Proof. unfold reported; cbn; rewrite flat_map_app; cbn; rewrite app_nil_r; reflexivity. Qed.

(** The events that are not the end of a transmission. *)
Lemma own_step n w ev w' :
  0 < n -> inv n w -> own n w -> no_error w ->
  (forall e, ev <> Done e) ->
  (forall c, ev = Begin c -> one_way n c /\ endpoint_exists n c) ->
  step n w ev = Some w' ->
  own n w' /\ no_error w'.
Proof.
  intros Hn (acc & R & F & Hi & Hp) O NE ND HB H.
  destruct ev; cbn [step] in H; unfold at_state in H.
  - injection H as <-; split; [apply own_in; exact O | exact NE].
  - exfalso; exact (ND e eq_refl).
  - destruct (packet_out n (sys w) e q) as [s|] eqn:E; [|discriminate].
    injection H as <-; split; [|exact NE].
    destruct (out_served _ _ _ _ _ E) as (SV & I & G).
    exact (own_served n w s acc _ O R SV I G).
  - injection H as <-; split; [|exact NE].
    destruct O as [A B C D].
    destruct (alarm (proc (sys w))) eqn:AL; [|destruct w; constructor; auto].
    constructor; [exact A | exact B | exact C|].
    intros e; specialize (D e); unfold report in *; cbn [sys at_phase proc set_proc upcalls].
    unfold schedule; rewrite AL; cbn [upcalls].
    rewrite app_assoc, existsb_last; cbn [is_sent]; rewrite orb_false_r; exact D.
  - destruct (at_phase w) eqn:P; injection H as <-; try (split; assumption).
    split; [|exact NE].
    cbn in R. destruct (idle_waits _ _ _ _ _ _ _ R) as (W & _ & _).
    destruct O as [A B C D]; constructor; cbn.
    + intros e X; destruct (A e X) as (_ & Y & _); congruence.
    + discriminate.
    + intros c' [<-|[]]; apply HB; reflexivity.
    + intros e; unfold report; cbn; rewrite app_nil_r.
      exact (sub_prefix _ _ _ (D e)).
  - destruct (at_phase w) eqn:P; try (injection H as <-; split; assumption).
    destruct (command n (sys w) c) as [[s r]|] eqn:E; [|discriminate].
    cbn in R. destruct (idle_waits _ _ _ _ _ _ _ R) as (W & SA & PO).
    destruct O as [A B C D].
    assert (CL : forall e, pend (sys w) e = false /\ tx (sys w) e = None).
    { intros e; destruct (pend (sys w) e) eqn:X.
      - destruct (A e (or_introl X)) as (_ & Y & _); congruence.
      - destruct (tx (sys w) e) eqn:T; [|auto].
        destruct (A e) as (_ & Y & _); [right; congruence | congruence]. }
    assert (CC : In c (current w)) by (unfold current; rewrite P; left; reflexivity).
    destruct (clear_command n _ _ _ _ Hn W SA PO CL (proj2 (C c CC)) E)
      as (-> & X1 & X2 & X3 & X4 & X5 & _).
    injection H as <-; split; [|exact NE].
    constructor; cbn [sys at_phase results].
    + intros e Y; destruct (X1 e Y) as (Y1 & Y2 & p & Y3); split; [exact Y1|];
        split; [exact Y2|]; exists c, p; auto.
    + intros c' p e M G Wt; injection M as <-; left; exact (X2 p e G Wt).
    + intros c' [<-|[]]; exact (C c CC).
    + intros e; specialize (D e); unfold got_by_host; cbn; rewrite X4.
      unfold report; cbn [at_phase front app sys]; rewrite X5.
      rewrite (no_sent_event _ (Hi eq_refl)), app_nil_r.
      exact (sub_prefix _ _ _ D).
  - destruct (at_phase w) eqn:P; try (injection H as <-; split; assumption).
    destruct (upcalls (proc (sys w))) as [|u us] eqn:U; injection H as <-;
      [split; assumption|].
    split; [|exact NE].
    destruct O as [A B C D]; rewrite P in *; constructor; cbn [sys at_phase results].
    + exact A.
    + exact B.
    + intros c'; unfold current in C; rewrite P in C; exact (C c').
    + intros e; specialize (D e); unfold report, current in *; rewrite P, U in D; exact D.
  - destruct (at_phase w) as [| | |c u|] eqn:P; try (injection H as <-; split; assumption).
    cbn in R.
    pose proof (r_pend _ _ _ _ _ _ _ _ R) as Q.
    destruct O as [A B C D]; rewrite P in *.
    assert (A' : waiting (kern (sys w)) = false ->
                 forall e, pend (sys w) e = true \/ tx (sys w) e <> None -> False).
    { intros W e X; destruct (A e X) as (_ & Y & _); congruence. }
    destruct u as [|e0|]; injection H as <-.
    + cbn in Q. destruct (filter is_event (upcalls (proc (sys w)))) as [|]; [|contradiction].
      destruct Q as [W _].
      split; [|unfold no_error; cbn; rewrite existsb_last; cbn; rewrite orb_false_r; exact NE].
      constructor; cbn [sys at_phase results].
      * intros e X; exfalso; exact (A' W e X).
      * discriminate.
      * intros c' [].
      * intros e; specialize (D e); unfold report in D; rewrite P in D; cbn in D.
        unfold report; cbn [at_phase front app sys release proc upcalls set_proc existsb].
        rewrite app_nil_r, reported_last; cbn.
        unfold current in D; rewrite P in D; cbn in D; rewrite app_nil_r in D; exact D.
    + cbn in Q. destruct (filter is_event (upcalls (proc (sys w)))) as [|]; [|contradiction].
      destruct Q as [W _].
      split; [|unfold no_error; cbn; rewrite existsb_last; cbn; rewrite orb_false_r; exact NE].
      constructor; cbn [sys at_phase results].
      * intros e X; exfalso; exact (A' W e X).
      * discriminate.
      * intros c' [].
      * intros e; unfold report; cbn [at_phase front app sys release proc upcalls set_proc existsb].
        rewrite app_nil_r, reported_last; cbn; rewrite app_nil_r.
        exact (sub_prefix _ _ _ (D e)).
    + split; [|exact NE].
      constructor; cbn [sys at_phase results].
      * exact A.
      * exact B.
      * unfold current in C; rewrite P in C; exact C.
      * intros e; unfold report; cbn [at_phase front app sys release proc upcalls set_proc existsb].
        rewrite app_nil_r; exact (sub_prefix _ _ _ (D e)).
  - destruct (at_phase w) as [| | |c u|c] eqn:P; try (injection H as <-; split; assumption).
    injection H as <-.
    split; [|unfold no_error; cbn; rewrite existsb_last; cbn; rewrite orb_false_r; exact NE].
    pose proof (cancel_clears n w c O P) as CL.
    destruct (cancel_shrinks n (sys w) (cancelled_endpoint c)) as (_ & HG & _).
    destruct O as [A B C D]; constructor; cbn [sys at_phase results].
    + intros e X; exfalso; destruct (CL e); destruct X; congruence.
    + discriminate.
    + intros c' [].
    + intros e; rewrite reported_last; cbn; rewrite app_nil_r.
      unfold got_by_host; cbn; rewrite HG.
      assert (Z : report (mk_world (fst (command_cancel n (sys w) (cancelled_endpoint c))) Idle
                    (results w ++ [(c, IsTimeout)])) e = [])
        by (unfold report; destruct (existsb _ _); reflexivity).
      rewrite Z, app_nil_r; exact (sub_prefix _ _ _ (D e)).
Qed.

(** *** A single endpoint *)

Lemma done_owner_one w e :
  own 1 w -> forall c p, mode (at_phase w) = Some c -> waiting (kern (sys w)) = true ->
  transmits c = true -> in_flight (ctrl (sys w)) e = Some p ->
  tx (sys w) e = None -> known 1 e = true -> gives c p e.
Proof.
  intros [A B C D] c p M W T I X K.
  destruct (C c) as [_ EX]; [rewrite (mode_current w c M); left; reflexivity|].
  assert (G : exists p' e', gives c p' e' /\ known 1 e' = true).
  { destruct c as [|p' e'|p' e']; [discriminate| |]; exists p', e';
      (split; [first [left; reflexivity | right; reflexivity] | apply known_range; exact EX]). }
  destruct G as (p' & e' & G & K').
  pose proof (known_one e e' K K'); subst e'.
  destruct (B c p' e M G W) as [Y|[_ Y]]; [congruence|].
  assert (p' = p) by congruence; subst p'; exact G.
Qed.

Lemma one_step w ev w' :
  inv 1 w -> own 1 w -> no_error w ->
  (forall c, ev = Begin c -> endpoint_exists 1 c) ->
  step 1 w ev = Some w' -> own 1 w' /\ no_error w'.
Proof.
  intros I O NE HB H.
  assert (ND : (exists e, ev = Done e) \/ (forall e, ev <> Done e)).
  { destruct ev; try (right; intros; discriminate); left; eauto. }
  destruct ND as [[e ->]|ND].
  - cbn [step] in H; unfold at_state in H.
    destruct (packet_transmitted 1 (sys w) e) as [s|] eqn:E; [|discriminate].
    injection H as <-; split; [|exact NE].
    destruct I as (acc & R & _).
    exact (own_done 1 w e s acc _ O R (done_owner_one w e O) E).
  - apply (own_step 1 w ev w'); auto.
    intros c E; split; [left; reflexivity | auto].
Qed.

Lemma one_run evs : forall w w',
  inv 1 w -> own 1 w -> no_error w ->
  calls_are (endpoint_exists 1) evs ->
  run 1 w evs = Some w' -> inv 1 w' /\ own 1 w' /\ no_error w'.
Proof.
  induction evs as [|ev evs IH]; intros w w' I O NE HC H; cbn in H.
  - injection H as <-; auto.
  - destruct (step 1 w ev) as [w1|] eqn:E; [|discriminate].
    destruct (one_step w ev w1 I O NE) as [O1 NE1]; [|exact E|].
    { intros c ->; apply HC; left; reflexivity. }
    apply (IH w1); auto.
    + exact (step_inv 1 w ev w1 ltac:(lia) I E NE1).
    + intros c Hc; apply HC; right; exact Hc.
Qed.

(** *** A host that takes packets at once *)

Record calm (n : nat) (w : world) : Prop := {
  c_flight : forall e, in_flight (ctrl (sys w)) e = None;
  c_out : can_receive_packet (kern (sys w)) = true -> pending_out (kern (sys w)) = true;
  c_buffer : forall c, receives c = true ->
    at_phase w = Prepared c \/ (mode (at_phase w) = Some c /\ live (at_phase w) = true) ->
    receive_buffer (proc (sys w)) <> None
}.

Lemma init_calm n : calm n init.
Proof.
  constructor; cbn; auto.
  - intros c _ [H|[H _]]; discriminate.
Qed.

Lemma loop_runs n : 0 < n -> forall is s,
  (can_receive_packet (kern s) = true ->
     pending_out (kern s) = true /\ receive_buffer (proc s) <> None) ->
  receive_loop n s is <> None.
Proof.
  intros Hn is; induction is as [|i is IH]; intros s Hs; cbn [receive_loop].
  - discriminate.
  - set (e := i mod n + 1).
    pose proof (loop_known n i Hn) as K; fold e in K.
    destruct (delayed_out (endpoints (kern s) e)); [|apply IH; exact Hs].
    match goal with |- context [send_packet_to_client n ?x e] => set (s0 := x) end.
    assert (O : exists s1 b, send_packet_to_client n s0 e = Some (s1, b)).
    { unfold send_packet_to_client; rewrite K; cbn; rewrite update_same; cbn.
      change (can_receive_packet (set_endpoint (kern s) e _))
        with (can_receive_packet (kern s)).
      destruct (can_receive_packet (kern s)) eqn:CR; [|eauto].
      destruct (Hs eq_refl) as [P B]; rewrite P.
      unfold app_packet_received, cancel_in_transaction; rewrite K.
      unfold can_receive_packet in *; cbn; rewrite CR.
      destruct (receive_buffer (proc s)); [eauto | congruence]. }
    destruct O as (s1 & b & O); rewrite O.
    apply IH.
    destruct (offered n s0 e s1 b O K) as (_ & [(-> & CR & PO & RB & ->)|(-> & CR & ->)]).
    + cbn; discriminate.
    + intros X. change (can_receive_packet (kern s) = true) in X.
      change (can_receive_packet (kern s) = false) in CR. congruence.
Qed.

Lemma command_runs n s c :
  0 < n ->
  waiting (kern s) = false -> app_side (kern s) = None -> pending_out (kern s) = false ->
  (receives c = true -> receive_buffer (proc s) <> None) ->
  command n s c <> None.
Proof.
  intros Hn W A PO HB.
  assert (RR : receives c = true -> forall k,
     k = set_app (kern s) (Some (side_of c)) true -> receive_packet n (set_kern s k) <> None).
  { intros RC k ->; unfold receive_packet; cbn; rewrite PO.
    apply loop_runs; [exact Hn|]; cbn; auto. }
  destruct c as [|p e|p e]; cbn [command receives side_of] in *.
  - unfold command_receive, set_side; rewrite A; cbn [waiting set_app]; rewrite W.
    specialize (RR eq_refl _ eq_refl).
    match goal with |- context [receive_packet n ?x] => destruct (receive_packet n x) eqn:E end;
      [discriminate | exfalso; apply RR; exact E].
  - unfold command_transmit, set_side; rewrite A; cbn [waiting set_app]; rewrite W.
    destruct (transmit_packet n _ p e) as [k r]; destruct r; discriminate.
  - unfold command_transmit_or_receive, set_side; rewrite A; cbn [waiting set_app]; rewrite W.
    specialize (RR eq_refl _ eq_refl).
    match goal with |- context [receive_packet n ?x] => destruct (receive_packet n x) eqn:E end;
      [|exfalso; apply RR; exact E].
    destruct (negb _); [discriminate|].
    destruct (transmit_packet n _ p e); discriminate.
Qed.

Lemma out_runs n w e q :
  inv n w -> calm n w -> (forall c, at_phase w <> Cancelling c) ->
  packet_out n (sys w) e q <> None.
Proof.
  intros (acc & R & _) [CF CO CB] NC; unfold packet_out.
  destruct (known n e && (length q =? 64) && negb (held (ctrl (sys w)) e)) eqn:G;
    [|discriminate].
  apply andb_prop in G; destruct G as [G Hh]; apply andb_prop in G; destruct G as [K _].
  apply negb_true_iff in Hh; rewrite (r_held _ _ _ _ _ _ _ _ R) in Hh.
  match goal with |- context [send_packet_to_client n ?x e] => set (s0 := x) end.
  assert (O : exists s1 b, send_packet_to_client n s0 e = Some (s1, b)).
  { unfold send_packet_to_client; rewrite K; cbn; rewrite update_same; cbn; rewrite Hh.
    change (can_receive_packet (set_endpoint (kern (sys w)) e _))
      with (can_receive_packet (kern (sys w))).
    destruct (can_receive_packet (kern (sys w))) eqn:CR; [|eauto].
    destruct (waits_for _ _ _ _ _ _ _ _ R CR) as (c & M & RC & _).
    assert (B : receive_buffer (proc (sys w)) <> None).
    { apply (CB c RC); right; split; [exact M|].
      destruct (at_phase w); cbn in M |- *; try discriminate; auto.
      exfalso; exact (NC _ eq_refl). }
    rewrite (CO eq_refl).
    unfold app_packet_received, cancel_in_transaction; rewrite K.
    unfold can_receive_packet in *; cbn; rewrite CR.
    destruct (receive_buffer (proc (sys w))); [eauto | congruence]. }
  destruct O as (s1 & [] & ->); discriminate.
Qed.

Lemma calm_step n w ev :
  0 < n -> inv n w -> own n w -> calm n w ->
  (forall e, ev <> Done e) -> (forall e, ev <> In_ e) ->
  (forall e q c, ev = Out e q -> at_phase w <> Cancelling c) ->
  exists w', step n w ev = Some w' /\ calm n w'.
Proof.
  intros Hn I O CM ND NI NQ.
  destruct ev; cbn [step]; unfold at_state.
  - exfalso; exact (NI e eq_refl).
  - exfalso; exact (ND e eq_refl).
  - pose proof (out_runs n w e q I CM (fun c => NQ e q c eq_refl)) as OR.
    destruct (packet_out n (sys w) e q) as [s|] eqn:E; [|congruence].
    eexists; split; [reflexivity|].
    destruct (out_served _ _ _ _ _ E) as (SV & IF & G).
    destruct CM as [CF CO CB].
    destruct SV as [(S1 & S2 & S3 & S4 & S5)|(e' & q' & K & CR & PO & S1 & S2 & S3 & S4 & S5 & S6 & S7)];
      constructor; cbn [sys at_phase].
    + intros i; rewrite IF; apply CF.
    + unfold can_receive_packet; rewrite S1, S2, S3; exact CO.
    + rewrite S4; exact CB.
    + intros i; rewrite IF; apply CF.
    + unfold can_receive_packet; rewrite S1; discriminate.
    + intros c RC _; rewrite S7; unfold schedule; cbn.
      destruct (on_receive (proc (sys w))); cbn; discriminate.
  - eexists; split; [reflexivity|].
    destruct CM as [CF CO CB].
    destruct (alarm (proc (sys w))) eqn:A; [|destruct w; constructor; auto].
    constructor; cbn [sys at_phase]; [exact CF | exact CO|].
    unfold schedule; rewrite A; exact CB.
  - destruct (at_phase w) eqn:P; eexists; (split; [reflexivity|]); try exact CM.
    destruct I as (acc & R & _); rewrite P in R; cbn in R.
    destruct (idle_waits _ _ _ _ _ _ _ R) as (W & _ & _).
    destruct CM as [CF CO CB]; constructor; cbn [sys at_phase].
    + exact CF.
    + exact CO.
    + intros c' RC [X|[X _]]; [|discriminate]. injection X as <-.
      cbn; rewrite RC; discriminate.
  - destruct (at_phase w) eqn:P; try (eexists; split; [reflexivity|]; exact CM).
    destruct I as (acc & R & _); rewrite P in R; cbn in R.
    destruct (idle_waits _ _ _ _ _ _ _ R) as (W & SA & PO).
    destruct CM as [CF CO CB].
    pose proof (command_runs n (sys w) c Hn W SA PO
      (fun RC => CB c RC (or_introl P))) as CR.
    destruct (command n (sys w) c) as [[s r]|] eqn:E; [|congruence].
    destruct O as [A B C D].
    assert (CL : forall e, pend (sys w) e = false /\ tx (sys w) e = None).
    { intros e; destruct (pend (sys w) e) eqn:X.
      - destruct (A e (or_introl X)) as (_ & Y & _); congruence.
      - destruct (tx (sys w) e) eqn:T; [|auto].
        destruct (A e) as (_ & Y & _); [right; congruence | congruence]. }
    assert (CC : In c (current w)) by (unfold current; rewrite P; left; reflexivity).
    destruct (clear_command n _ _ _ _ Hn W SA PO CL (proj2 (C c CC)) E)
      as (-> & X1 & X2 & X3 & X4 & X5 & X6 & X7).
    eexists; split; [reflexivity|]; constructor; cbn [sys at_phase].
    + intros e; rewrite X3; apply CF.
    + exact X6.
    + intros c' RC [X|[X _]]; [discriminate|]. cbn in X; injection X as <-.
      apply X7, (CB c RC); left; exact P.
  - destruct (at_phase w) eqn:P; try (eexists; split; [reflexivity|]; exact CM).
    destruct (upcalls (proc (sys w))) as [|u us] eqn:U;
      eexists; (split; [reflexivity|]); [exact CM|].
    destruct CM as [CF CO CB]; constructor; cbn [sys at_phase]; [exact CF | exact CO|].
    intros c' RC [X|[X _]]; [discriminate|]. cbn in X; injection X as <-.
    cbn; apply (CB c RC); right; rewrite P; auto.
  - destruct (at_phase w) as [| | |c []|] eqn:P; eexists; (split; [reflexivity|]);
      try exact CM; destruct CM as [CF CO CB]; constructor; cbn [sys at_phase];
      try exact CF; try exact CO; intros c' RC [X|[X Y]]; discriminate.
  - destruct (at_phase w) as [| | |c u|c] eqn:P; eexists; (split; [reflexivity|]); try exact CM.
    destruct I as (acc & R & _); rewrite P in R; cbn in R.
    destruct (cancel_reception n c _ _ _ _ Hn R) as (R1 & PR & W).
    destruct (cancel_shrinks n (sys w) (cancelled_endpoint c)) as (IF & _ & _).
    destruct CM as [CF CO CB]; constructor; cbn [sys at_phase].
    + intros e; rewrite IF; apply CF.
    + intros X; unfold can_receive_packet in X; rewrite W in X; discriminate.
    + intros c' RC [X|[X Y]]; discriminate.
Qed.

(** The host polls an endpoint. *)
Lemma poll n w e :
  0 < n -> inv n w -> own n w -> no_error w -> calm n w ->
  exists w', run n w [In_ e; Done e] = Some w'
             /\ inv n w' /\ own n w' /\ no_error w' /\ calm n w'.
Proof.
  intros Hn I O NE CM.
  pose proof (own_in n w e O) as O1.
  set (w1 := mk_world (packet_in n (sys w) e) (at_phase w) (results w)) in *.
  assert (I1 : inv n w1) by exact (step_inv n w (In_ e) w1 Hn I eq_refl NE).
  assert (NE1 : no_error w1) by exact NE.
  assert (CASES : (known n e = true
     /\ exists p, tx (sys w) e = Some p /\ tx (sys w1) e = None
                  /\ (forall i, in_flight (ctrl (sys w1)) i
                                = update (in_flight (ctrl (sys w))) e (Some p) i)
                  /\ waiting (kern (sys w1)) = waiting (kern (sys w))
                  /\ app_side (kern (sys w1)) = app_side (kern (sys w))
                  /\ proc (sys w1) = proc (sys w))
     \/ sys w1 = sys w).
  { unfold w1, packet_in; cbn [sys]; destruct (known n e) eqn:K; [|right; reflexivity].
    destruct (tx_packet (endpoints (kern (sys w)) e)) as [p|] eqn:T; [|right; reflexivity].
    left; split; [reflexivity|]; exists p; split; [exact T|].
    split; [unfold tx; cbn; rewrite update_same; reflexivity|].
    split; [reflexivity|auto]. }
  cbn [run step]; unfold at_state; fold w1.
  destruct CASES as [(K & p & T & T1 & IF & W1 & A1 & P1)|E].
  - assert (IFe : in_flight (ctrl (sys w1)) e = Some p) by (rewrite IF; apply update_same).
    destruct (o_pend _ _ O e) as (_ & W & c & p' & M & G); [right; congruence|].
    assert (p' = p).
    { destruct (o_line _ _ O c p' e M G W) as [X|[X _]]; congruence. }
    subst p'.
    assert (RN : exists s', packet_transmitted n (sys w1) e = Some s'
       /\ can_receive_packet (kern s') = false
       /\ (forall i, in_flight (ctrl s') i = None)
       /\ (receive_buffer (proc s') = receive_buffer (proc (sys w)))).
    { unfold packet_transmitted; rewrite IFe, K; cbn [kern set_ctrl].
      unfold tx in T1; rewrite T1.
      eexists; split; [reflexivity|].
      unfold cancel_out_transaction; rewrite K; cbn [fst].
      unfold client_packet_transmitted; cbn [kern set_kern set_endpoint set_pending_out
        waiting app_side].
      rewrite W1, A1, W.
      destruct I as (acc & R & _).
      pose proof (r_side _ _ _ _ _ _ _ _ R) as S; rewrite W in S.
      destruct S as (c' & M' & S); assert (c' = c) by congruence; subst c'.
      rewrite S, side_transmits, (gives_transmits _ _ _ G); cbn [andb].
      split; [reflexivity|]; split.
      - intros i; cbn.
        destruct (Nat.eq_dec i e) as [->|N]; [apply update_same|].
        rewrite update_other by exact N.
        change (in_flight (ctrl (sys w1)) i = None).
        rewrite IF, update_other by exact N; apply (c_flight _ _ CM).
      - change (receive_buffer (schedule (proc (sys w1)) Sent) = receive_buffer (proc (sys w))); rewrite P1; unfold schedule; destruct (on_transmit (proc (sys w))); reflexivity. }
    destruct RN as (s' & E & CR & F' & RB).
    rewrite E; cbn [sys at_phase results].
    eexists; split; [reflexivity|].
    assert (ST : step n w1 (Done e) = Some (mk_world s' (at_phase w1) (results w1)))
      by (cbn [step]; rewrite E; reflexivity).
    split; [exact (step_inv n w1 (Done e) _ Hn I1 ST NE1)|].
    split; [|split; [exact NE1|]].
    + destruct I1 as (acc & R & _).
      refine (own_done n w1 e s' acc _ O1 R _ E).
      intros c' q M' W' TR IF' TX' K'.
      assert (q = p) by congruence; subst q.
      assert (c' = c) by (cbn in M'; congruence); subst c'; exact G.
    + constructor; cbn [sys at_phase].
      * exact F'.
      * rewrite CR; discriminate.
      * rewrite RB; exact (c_buffer _ _ CM).
  - assert (IFe : in_flight (ctrl (sys w1)) e = None) by (rewrite E; apply (c_flight _ _ CM)).
    unfold packet_transmitted; rewrite IFe.
    eexists; split; [reflexivity|].
    rewrite E; destruct w as [s ph rs]; cbn in *; auto.
Qed.

Lemma prompt_run n : 0 < n -> forall m evs w pre,
  length evs <= m ->
  run n init pre = Some w ->
  inv n w -> own n w -> no_error w -> calm n w ->
  prompt evs -> quiet n (pre ++ evs) ->
  calls_are (fun c => one_way n c /\ endpoint_exists n c) evs ->
  exists w', run n w evs = Some w' /\ inv n w' /\ own n w' /\ no_error w' /\ calm n w'.
Proof.
  intros Hn m; induction m as [|m IH]; intros evs w pre L RP I O NE CM PR Q HC.
  - destruct evs; [|cbn in L; lia].
    exists w; cbn; auto.
  - destruct evs as [|ev evs]; [exists w; cbn; auto|].
    assert (NORMAL : (forall e, ev <> Done e) -> (forall e, ev <> In_ e) -> prompt evs ->
      exists w', run n w (ev :: evs) = Some w' /\ inv n w' /\ own n w' /\ no_error w'
                 /\ calm n w').
    { intros ND NI PR'.
      destruct (calm_step n w ev Hn I O CM ND NI) as (w1 & E & CM1).
      { intros e q c ->. exact (Q pre e q evs w c eq_refl RP). }
      destruct (own_step n w ev w1 Hn I O NE ND) as [O1 NE1]; [|exact E|].
      { intros c ->; apply HC; left; reflexivity. }
      pose proof (step_inv n w ev w1 Hn I E NE1) as I1.
      cbn [run]; rewrite E.
      apply (IH evs w1 (pre ++ [ev])); auto.
      - cbn in L; lia.
      - rewrite run_app, RP; cbn; rewrite E; reflexivity.
      - rewrite <- app_assoc; exact Q.
      - intros c Hc; apply HC; right; exact Hc. }
    destruct ev; try (apply NORMAL; [intros; discriminate | intros; discriminate | exact PR]).
    + destruct evs as [|[] evs]; try contradiction PR.
      destruct PR as [-> PR].
      destruct (poll n w e Hn I O NE CM) as (w1 & E & I1 & O1 & NE1 & CM1).
      assert (E' : forall l, run n w (In_ e :: Done e :: l) = run n w1 l).
      { intros l; change (In_ e :: Done e :: l) with ([In_ e; Done e] ++ l).
        rewrite run_app, E; reflexivity. }
      rewrite E'.
      apply (IH evs w1 (pre ++ [In_ e; Done e])); auto.
      * cbn in L; lia.
      * rewrite run_app, RP; exact E.
      * rewrite <- app_assoc; exact Q.
      * intros c Hc; apply HC; right; right; exact Hc.
    + contradiction PR.
Qed.
