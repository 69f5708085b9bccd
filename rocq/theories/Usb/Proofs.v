(** Proofs about the reception of packets. *)
From Coq Require Import List Arith Bool Lia.
Import ListNotations.
From Verif Require Import Base.
From Verif.Usb Require Import Model Spec.
Local Open Scope nat_scope.

(** ** Lists *)

Lemma sub_refl {A} (l : list A) : subsequence l l.
Proof. induction l; [apply sub_nil | apply sub_keep; auto]. Qed.

Lemma sub_empty {A} (l : list A) : subsequence [] l.
Proof. induction l; constructor; auto. Qed.

Lemma sub_app {A} (l m l' m' : list A) :
  subsequence l m -> subsequence l' m' -> subsequence (l ++ l') (m ++ m').
Proof.
  induction 1; cbn; intros K; [exact K | apply sub_skip; auto | apply sub_keep; auto].
Qed.

Lemma sub_trans {A} (l m k : list A) :
  subsequence l m -> subsequence m k -> subsequence l k.
Proof.
  intros H1 H2; revert l H1; induction H2; intros l' H1.
  - exact H1.
  - apply sub_skip; auto.
  - inversion H1; subst; [apply sub_skip; auto | apply sub_keep; auto].
Qed.

Lemma sub_right {A} (l m k : list A) : subsequence l m -> subsequence l (m ++ k).
Proof.
  intros H; rewrite <- (app_nil_r l); apply sub_app; [exact H | apply sub_empty].
Qed.

Lemma of_endpoint_app e l m : of_endpoint e (l ++ m) = of_endpoint e l ++ of_endpoint e m.
Proof. unfold of_endpoint; rewrite filter_app, map_app; reflexivity. Qed.

Lemma of_endpoint_one e i q : of_endpoint i [(e, q)] = if e =? i then [q] else [].
Proof. unfold of_endpoint; cbn; destruct (e =? i); reflexivity. Qed.

Arguments of_endpoint : simpl never.
Arguments received : simpl never.

Lemma update_same {A} (f : nat -> A) e v : update f e v e = v.
Proof. unfold update; rewrite Nat.eqb_refl; reflexivity. Qed.

Lemma update_other {A} (f : nat -> A) e v i : i <> e -> update f e v i = f i.
Proof. intros H; unfold update; apply Nat.eqb_neq in H; rewrite H; reflexivity. Qed.

Lemma update_cases {A} (f : nat -> A) e v i :
  (i = e /\ update f e v i = v) \/ (i <> e /\ update f e v i = f i).
Proof.
  destruct (Nat.eq_dec i e) as [->|H]; [left | right]; split; auto.
  - apply update_same.
  - apply update_other; auto.
Qed.

(** ** The endpoints the loop of receive_packet goes through *)

Lemma known_range n e : known n e = true <-> 1 <= e <= n.
Proof.
  unfold known; rewrite andb_true_iff, Nat.leb_le, Nat.leb_le; tauto.
Qed.

Lemma loop_covers n k e :
  known n e = true -> exists i, In i (seq k n) /\ i mod n + 1 = e.
Proof.
  intros H; apply known_range in H.
  exists (k + (e - 1 + (n - k mod n)) mod n).
  assert (Hn : n <> 0) by lia.
  pose proof (Nat.mod_upper_bound k n Hn) as Hk.
  pose proof (Nat.mod_upper_bound (e - 1 + (n - k mod n)) n Hn) as Hi.
  split.
  - apply in_seq; lia.
  - rewrite Nat.add_mod_idemp_r by exact Hn.
    rewrite <- Nat.add_mod_idemp_l by exact Hn.
    replace (k mod n + (e - 1 + (n - k mod n))) with (e - 1 + 1 * n) by lia.
    rewrite Nat.mod_add by exact Hn.
    rewrite Nat.mod_small by lia; lia.
Qed.

Lemma loop_known n i : 0 < n -> known n (i mod n + 1) = true.
Proof.
  intros H; apply known_range.
  pose proof (Nat.mod_upper_bound i n ltac:(lia)); lia.
Qed.

(** ** The invariant of reception *)

Definition side_of (c : call) : side :=
  match c with
  | Recv => Receive | Send _ _ => Transmit | SendOrRecv _ _ => TransmitOrReceive
  end.

Lemma side_receives c : can_receive (side_of c) = receives c.
Proof. destruct c; reflexivity. Qed.
Lemma side_transmits c : can_transmit (side_of c) = transmits c.
Proof. destruct c; reflexivity. Qed.

(** Packets were all returned, or some may have been left out. *)
Definition rel (strict : Prop) (l m : list packet) : Prop :=
  subsequence l m /\ (strict -> l = m).

Definition is_event (s : status) : bool :=
  match s with Timeout => false | _ => true end.

(** [m] is the call whose command was issued, [live] whether its subscriptions are
    still there, [front] the status it already has, [rc] what was returned so far
    and [acc] what the driver accepted so far. *)
Record reception (n : nat) (m : option call) (live : bool) (front : list status)
  (strict : Prop) (rc acc : nat -> list packet) (s : state) : Prop := {
  r_sent : forall e,
    of_endpoint e (host_sent (ctrl s))
    = acc e ++ (if held (ctrl s) e then [out_buffer (endpoints (kern s) e)] else []);
  r_held : forall e, held (ctrl s) e = delayed_out (endpoints (kern s) e);
  r_known : forall e, delayed_out (endpoints (kern s) e) = true -> known n e = true;
  r_side : if waiting (kern s)
           then exists c, m = Some c /\ app_side (kern s) = Some (side_of c)
           else app_side (kern s) = None;
  r_out : pending_out (kern s) = true -> can_receive_packet (kern s) = true;
  r_pend :
    match filter is_event (front ++ upcalls (proc s)) with
    | [] => (live = true -> m <> None -> waiting (kern s) = true)
            /\ forall e, rel strict (rc e) (acc e)
    | [Sent] => waiting (kern s) = false /\ forall e, rel strict (rc e) (acc e)
    | [Received e0] =>
        waiting (kern s) = false
        /\ (exists l q, receive_buffer (proc s) = Some q /\ acc e0 = l ++ [q]
                        /\ rel strict (rc e0) l)
        /\ forall e, e <> e0 -> rel strict (rc e) (acc e)
    | _ => False
    end;
  r_live : forall c, m = Some c ->
    if live
    then on_transmit (proc s) = transmits c /\ on_receive (proc s) = receives c
    else proc s = mk_process None false false false []
}.

Definition free (s : state) : Prop :=
  can_receive_packet (kern s) = true -> forall e, delayed_out (endpoints (kern s) e) = false.

Lemma waits_for n m live front strict rc acc s :
  reception n m live front strict rc acc s ->
  can_receive_packet (kern s) = true ->
  exists c, m = Some c /\ receives c = true /\ waiting (kern s) = true
            /\ filter is_event (front ++ upcalls (proc s)) = []
            /\ forall e, rel strict (rc e) (acc e).
Proof.
  intros R H; unfold can_receive_packet in H; apply andb_prop in H; destruct H as [W H].
  pose proof (r_side _ _ _ _ _ _ _ _ R) as S; rewrite W in S; destruct S as (c & -> & S).
  rewrite S, side_receives in H.
  exists c; split; [reflexivity|]; split; [exact H|]; split; [exact W|].
  pose proof (r_pend _ _ _ _ _ _ _ _ R) as P; rewrite W in P.
  destruct (filter is_event (front ++ upcalls (proc s))) as [|[|e0|] [|]];
    try contradiction; try (destruct P; discriminate).
  split; [reflexivity | apply P].
Qed.

(** The driver accepts packet [q] of endpoint [e]. *)
Lemma accepted n c front strict rc acc s s' e q :
  reception n (Some c) true front strict rc acc s ->
  can_receive_packet (kern s) = true ->
  of_endpoint e (host_sent (ctrl s')) = acc e ++ [q] ->
  held (ctrl s') e = false ->
  delayed_out (endpoints (kern s') e) = false ->
  (forall i, i <> e ->
     of_endpoint i (host_sent (ctrl s')) = of_endpoint i (host_sent (ctrl s))
     /\ held (ctrl s') i = held (ctrl s) i
     /\ delayed_out (endpoints (kern s') i) = delayed_out (endpoints (kern s) i)
     /\ out_buffer (endpoints (kern s') i) = out_buffer (endpoints (kern s) i)) ->
  waiting (kern s') = false -> app_side (kern s') = None ->
  pending_out (kern s') = false ->
  proc s' = mk_process (Some q) (on_transmit (proc s)) (on_receive (proc s))
                       (alarm (proc s)) (upcalls (proc s) ++ [Received e]) ->
  reception n (Some c) true front strict rc (update acc e (acc e ++ [q])) s'.
Proof.
  intros R CR Hs Hh Hd Ho HW HA HP Hp.
  destruct (waits_for _ _ _ _ _ _ _ _ R CR) as (c' & E & RC & W & F & Hrel).
  injection E as <-.
  constructor.
  - intros i; destruct (Nat.eq_dec i e) as [->|N].
    + rewrite update_same, Hh, app_nil_r; exact Hs.
    + rewrite update_other by exact N; destruct (Ho i N) as (A & B & _ & D).
      rewrite A, B, D; apply (r_sent _ _ _ _ _ _ _ _ R).
  - intros i; destruct (Nat.eq_dec i e) as [->|N].
    + rewrite Hh, Hd; reflexivity.
    + destruct (Ho i N) as (_ & B & D & _); rewrite B, D; apply (r_held _ _ _ _ _ _ _ _ R).
  - intros i; destruct (Nat.eq_dec i e) as [->|N].
    + rewrite Hd; discriminate.
    + destruct (Ho i N) as (_ & _ & D & _); rewrite D; apply (r_known _ _ _ _ _ _ _ _ R).
  - rewrite HW; exact HA.
  - rewrite HP; discriminate.
  - rewrite Hp; cbn [upcalls receive_buffer].
    rewrite app_assoc, filter_app, F; cbn [filter is_event app].
    split; [exact HW|]; split.
    + exists (acc e), q; split; [reflexivity|]; split; [apply update_same | apply Hrel].
    + intros i N; rewrite update_other by exact N; apply Hrel.
  - intros c' E; injection E as <-; rewrite Hp; cbn.
    exact (r_live _ _ _ _ _ _ _ _ R c eq_refl).
Qed.

(** Only what the invariant looks at matters. *)
Lemma same n m live front strict rc acc s s' :
  reception n m live front strict rc acc s ->
  host_sent (ctrl s') = host_sent (ctrl s) ->
  (forall i, held (ctrl s') i = held (ctrl s) i) ->
  (forall i, delayed_out (endpoints (kern s') i) = delayed_out (endpoints (kern s) i)
             /\ out_buffer (endpoints (kern s') i) = out_buffer (endpoints (kern s) i)) ->
  app_side (kern s') = app_side (kern s) -> waiting (kern s') = waiting (kern s) ->
  (pending_out (kern s') = true -> pending_out (kern s) = true) ->
  proc s' = proc s ->
  reception n m live front strict rc acc s'.
Proof.
  intros R Hs Hh He Ha Hw Hp Hr.
  constructor.
  - intros i; destruct (He i) as [_ B]; rewrite Hs, Hh, B; apply (r_sent _ _ _ _ _ _ _ _ R).
  - intros i; destruct (He i) as [A _]; rewrite Hh, A; apply (r_held _ _ _ _ _ _ _ _ R).
  - intros i; destruct (He i) as [A _]; rewrite A; apply (r_known _ _ _ _ _ _ _ _ R).
  - rewrite Ha, Hw; apply (r_side _ _ _ _ _ _ _ _ R).
  - intros H; unfold can_receive_packet; rewrite Ha, Hw.
    apply (r_out _ _ _ _ _ _ _ _ R); auto.
  - rewrite Hr, Hw; apply (r_pend _ _ _ _ _ _ _ _ R).
  - rewrite Hr; apply (r_live _ _ _ _ _ _ _ _ R).
Qed.

Lemma same_free s s' :
  free s ->
  (forall i, delayed_out (endpoints (kern s') i) = delayed_out (endpoints (kern s) i)) ->
  app_side (kern s') = app_side (kern s) -> waiting (kern s') = waiting (kern s) ->
  free s'.
Proof.
  intros F He Ha Hw H i; rewrite He; apply F.
  unfold can_receive_packet in *; rewrite Ha, Hw in H; exact H.
Qed.

(** A packet that is offered to the process is accepted or held. *)
Lemma offered n s e s' b :
  send_packet_to_client n s e = Some (s', b) ->
  known n e = true ->
  delayed_out (endpoints (kern s) e) = false
  /\ ((b = true /\ can_receive_packet (kern s) = true /\ pending_out (kern s) = true
       /\ receive_buffer (proc s) <> None
       /\ s' = mk_state
           (mk_kernel
              (update (endpoints (kern s)) e
                 (mk_endpoint None false (delayed_out (endpoints (kern s) e))
                              (out_buffer (endpoints (kern s) e))))
              false (e mod n) None false)
           (schedule (mk_process (Some (out_buffer (endpoints (kern s) e)))
                        (on_transmit (proc s)) (on_receive (proc s)) (alarm (proc s))
                        (upcalls (proc s))) (Received e))
           (ctrl s))
      \/ (b = false /\ can_receive_packet (kern s) = false
          /\ s' = set_kern s (set_endpoint (kern s) e
                    (mk_endpoint (tx_packet (endpoints (kern s) e))
                       (pending_in (endpoints (kern s) e)) true
                       (out_buffer (endpoints (kern s) e)))))).
Proof.
  intros H K; unfold send_packet_to_client in H; rewrite K in H.
  destruct (delayed_out (endpoints (kern s) e)) eqn:D; [discriminate|].
  split; [reflexivity|].
  destruct (can_receive_packet (kern s)) eqn:CR.
  - left. destruct (pending_out (kern s)); [|discriminate].
    unfold app_packet_received, cancel_in_transaction in H; rewrite K in H.
    unfold can_receive_packet in *; cbn in H; rewrite CR in H.
    destruct (receive_buffer (proc s)); [|discriminate].
    rewrite D in H; injection H as <- <-.
    split; [reflexivity|]; split; [reflexivity|]; split; [reflexivity|]; split; [intros X; discriminate X | reflexivity].
  - right. injection H as <- <-; auto.
Qed.

Lemma schedule_on p s :
  match s with Sent => on_transmit p | Received _ => on_receive p | Timeout => alarm p end
    = true ->
  schedule p s = mk_process (receive_buffer p) (on_transmit p) (on_receive p) (alarm p)
                            (upcalls p ++ [s]).
Proof. intros H; unfold schedule; rewrite H; reflexivity. Qed.

(** The state the loop of receive_packet leaves. *)
Lemma loop_reception n c front strict rc : 0 < n -> forall is s s' acc,
  reception n (Some c) true front strict rc acc s ->
  (can_receive_packet (kern s) = true -> forall e,
     delayed_out (endpoints (kern s) e) = true -> exists i, In i is /\ i mod n + 1 = e) ->
  receive_loop n s is = Some s' ->
  exists acc', reception n (Some c) true front strict rc acc' s' /\ free s'.
Proof.
  intros Hn is; induction is as [|i is IH]; intros s s' acc R Hd H.
  - cbn in H; injection H as <-.
    exists acc; split; [exact R|].
    intros CR e; destruct (delayed_out (endpoints (kern s) e)) eqn:D; [|reflexivity].
    destruct (Hd CR e D) as (j & [] & _).
  - cbn [receive_loop] in H.
    set (e := i mod n + 1) in *.
    pose proof (loop_known n i Hn) as K; fold e in K.
    destruct (delayed_out (endpoints (kern s) e)) eqn:D.
    + match type of H with context [send_packet_to_client n ?x e] => set (s0 := x) in * end.
      destruct (send_packet_to_client n s0 e) as [[s1 b]|] eqn:O; [|discriminate].
      destruct (offered n s0 e s1 b O K) as (_ & [(-> & CR & PO & RB & ->)|(-> & CR & ->)]).
      * assert (CR' : can_receive_packet (kern s) = true) by exact CR.
        destruct (waits_for _ _ _ _ _ _ _ _ R CR') as (c' & E & RC & W & F & Hrel).
        injection E as <-.
        refine (IH _ _ (update acc e (acc e ++ [out_buffer (endpoints (kern s) e)])) _ _ H).
        -- apply (accepted n c front strict rc acc s); auto.
           ++ cbn.
              pose proof (r_sent _ _ _ _ _ _ _ _ R e) as S.
              rewrite (r_held _ _ _ _ _ _ _ _ R e), D in S; exact S.
           ++ cbn; apply update_same.
           ++ cbn; rewrite update_same; cbn; rewrite update_same; reflexivity.
           ++ intros j N; cbn.
              rewrite !(update_other _ _ _ j) by exact N; auto.
           ++ cbn [proc resume_out set_ctrl].
              rewrite schedule_on.
              ** cbn; rewrite update_same; reflexivity.
              ** cbn. pose proof (r_live _ _ _ _ _ _ _ _ R c eq_refl) as [_ L].
                 rewrite L; exact RC.
        -- cbn; intros; discriminate.
      * refine (IH _ _ acc _ _ H).
        -- apply (same n _ _ _ _ _ _ s); auto.
           intros j; cbn. destruct (update_cases (endpoints (kern s)) e
             (mk_endpoint (tx_packet (endpoints (kern s) e)) (pending_in (endpoints (kern s) e))
                          false (out_buffer (endpoints (kern s) e))) j) as [[-> U]|[N U]].
           ++ rewrite !update_same; cbn; rewrite !D; auto.
           ++ rewrite (update_other _ _ _ j) by exact N; rewrite U; auto.
        -- change (can_receive_packet (kern s) = false) in CR.
           intros X. change (can_receive_packet (kern s) = true) in X. congruence.
    + apply (IH _ _ acc R); [|exact H].
      intros CR j Dj; destruct (Hd CR j Dj) as (i' & [<-|I] & E).
      * unfold e in D; rewrite E in D; congruence.
      * exists i'; auto.
Qed.

(** ** The invariant of the machine *)

Definition mode (p : phase) : option call :=
  match p with Waiting c | Woken c _ | Cancelling c => Some c | _ => None end.
Definition live (p : phase) : bool :=
  match p with Waiting _ | Woken _ _ => true | _ => false end.
Definition front (p : phase) : list status :=
  match p with Woken _ s => [s] | _ => [] end.

Definition strict (w : world) : Prop :=
  no_timeout w
  /\ match at_phase w with Cancelling _ | Woken _ Timeout => False | _ => True end.

Definition inv (n : nat) (w : world) : Prop :=
  exists acc,
    reception n (mode (at_phase w)) (live (at_phase w)) (front (at_phase w))
              (strict w) (received w) acc (sys w)
    /\ free (sys w)
    /\ (mode (at_phase w) = None -> filter is_event (upcalls (proc (sys w))) = [])
    /\ (forall c, at_phase w = Prepared c ->
          on_transmit (proc (sys w)) = transmits c /\ on_receive (proc (sys w)) = receives c).

Lemma idle_waits n lv fr st rc acc s :
  reception n None lv fr st rc acc s -> waiting (kern s) = false /\ app_side (kern s) = None
                                        /\ pending_out (kern s) = false.
Proof.
  intros R; pose proof (r_side _ _ _ _ _ _ _ _ R) as S.
  pose proof (r_out _ _ _ _ _ _ _ _ R) as O.
  destruct (waiting (kern s)) eqn:W.
  - destruct S as (c & E & _); discriminate.
  - repeat split; auto.
    destruct (pending_out (kern s)); [|reflexivity].
    specialize (O eq_refl); unfold can_receive_packet in O; rewrite W in O; discriminate.
Qed.

Lemma init_inv n : inv n init.
Proof.
  exists (fun _ => []); split; [constructor|split; [|split]]; cbn; auto; try discriminate.
  - split; [intros _ C; congruence|].
    intros e; split; [apply sub_nil | auto].
Qed.

(** *** The transactions of the controller *)

Lemma in_reception n m lv fr st rc acc s e :
  reception n m lv fr st rc acc s -> free s ->
  reception n m lv fr st rc acc (packet_in n s e) /\ free (packet_in n s e).
Proof.
  intros R F; unfold packet_in.
  destruct (known n e); [|auto].
  destruct (tx_packet (endpoints (kern s) e)) as [p|]; [|auto].
  split.
  - apply (same n _ _ _ _ _ _ s); auto.
    intros i; cbn.
    destruct (update_cases (endpoints (kern s)) e
      (mk_endpoint None (pending_in (endpoints (kern s) e)) (delayed_out (endpoints (kern s) e))
                   (out_buffer (endpoints (kern s) e))) i) as [[-> ->]|[N ->]]; auto.
  - apply (same_free s); auto.
    intros i; cbn.
    destruct (update_cases (endpoints (kern s)) e
      (mk_endpoint None (pending_in (endpoints (kern s) e)) (delayed_out (endpoints (kern s) e))
                   (out_buffer (endpoints (kern s) e))) i) as [[-> ->]|[N ->]]; auto.
Qed.

Lemma done_reception n m lv fr st rc acc s e s' :
  reception n m lv fr st rc acc s -> free s ->
  (lv = false -> fr = []) ->
  packet_transmitted n s e = Some s' ->
  reception n m lv fr st rc acc s' /\ free s'
  /\ (m = None -> upcalls (proc s') = upcalls (proc s)).
Proof.
  intros R F Hfr H; unfold packet_transmitted in H.
  destruct (in_flight (ctrl s) e) as [p|]; [|injection H as <-; auto].
  destruct (known n e) eqn:K.
  2:{ injection H as <-; split; [|split; auto].
      apply (same n _ _ _ _ _ _ s); auto. }
  cbn [kern set_ctrl] in H.
  destruct (tx_packet (endpoints (kern s) e)); [discriminate|].
  unfold cancel_out_transaction in H; rewrite K in H; cbn [fst] in H.
  injection H as <-.
  set (x := mk_endpoint None false _ _).
  assert (HX : forall i, delayed_out (update (endpoints (kern s)) e x i)
                         = delayed_out (endpoints (kern s) i)
                         /\ out_buffer (update (endpoints (kern s)) e x i)
                            = out_buffer (endpoints (kern s) i)).
  { intros i; destruct (update_cases (endpoints (kern s)) e x i) as [[-> ->]|[N ->]];
      cbn; auto. }
  unfold client_packet_transmitted; cbn.
  destruct (waiting (kern s)) eqn:W; cbn [andb].
  2:{ split; [|split; auto].
      - apply (same n _ _ _ _ _ _ s); auto; discriminate.
      - apply (same_free s); auto; intros i; cbn; apply HX. }
  pose proof (r_side _ _ _ _ _ _ _ _ R) as S; rewrite W in S; destruct S as (c & -> & S).
  rewrite S, side_transmits.
  destruct (transmits c) eqn:T.
  2:{ split; [|split; [|discriminate]].
      - apply (same n _ _ _ _ _ _ s); auto; discriminate.
      - apply (same_free s); auto; intros i; cbn; apply HX. }
  split; [|split; [intros X; cbn in X; discriminate X | discriminate]].
  pose proof (r_live _ _ _ _ _ _ _ _ R c eq_refl) as L.
  pose proof (r_pend _ _ _ _ _ _ _ _ R) as P.
  rewrite W in P.
  constructor; cbn.
  - intros i; destruct (HX i) as [_ ->]; apply (r_sent _ _ _ _ _ _ _ _ R).
  - intros i; destruct (HX i) as [-> _]; apply (r_held _ _ _ _ _ _ _ _ R).
  - intros i; destruct (HX i) as [-> _]; apply (r_known _ _ _ _ _ _ _ _ R).
  - reflexivity.
  - discriminate.
  - destruct lv.
    + destruct L as [L _].
      rewrite schedule_on by (rewrite L; exact T).
      cbn [upcalls receive_buffer].
      rewrite app_assoc, filter_app.
      destruct (filter is_event (fr ++ upcalls (proc s))) as [|[|e0|] [|]];
        try contradiction; try (destruct P; discriminate).
      cbn; split; [reflexivity | apply P].
    + rewrite (Hfr eq_refl) in *. rewrite L in *; cbn in *.
      split; [discriminate | apply P].
  - intros c' E; injection E as <-.
    destruct lv.
    + unfold schedule; destruct L as [L1 L2]; rewrite L1, T; cbn; auto.
    + rewrite L; reflexivity.
Qed.

Lemma out_reception n m lv fr st rc acc s e q s' :
  reception n m lv fr st rc acc s -> free s ->
  packet_out n s e q = Some s' ->
  exists acc', reception n m lv fr st rc acc' s' /\ free s'
               /\ (m = None -> upcalls (proc s') = upcalls (proc s)).
Proof.
  intros R F H; unfold packet_out in H.
  destruct (known n e && (length q =? 64) && negb (held (ctrl s) e)) eqn:G;
    [|injection H as <-; exists acc; auto].
  apply andb_prop in G; destruct G as [G Hh]; apply andb_prop in G; destruct G as [K _].
  apply negb_true_iff in Hh.
  pose proof Hh as Hd; rewrite (r_held _ _ _ _ _ _ _ _ R) in Hd.
  set (x := mk_endpoint _ _ _ q) in H.
  match type of H with context [send_packet_to_client n ?y e] => set (s0 := y) in * end.
  destruct (send_packet_to_client n s0 e) as [[s1 b]|] eqn:O; [|discriminate].
  assert (HX : endpoints (kern s0) e = x) by (cbn; apply update_same).
  destruct (offered n s0 e s1 b O K) as (_ & [(-> & CR & PO & RB & ->)|(-> & CR & ->)]).
  - injection H as <-.
    assert (CR' : can_receive_packet (kern s) = true) by exact CR.
    destruct (waits_for _ _ _ _ _ _ _ _ R CR') as (c & -> & RC & W & Fi & Hrel).
    destruct lv.
    2:{ exfalso. pose proof (r_live _ _ _ _ _ _ _ _ R c eq_refl) as L.
        apply RB; cbn; rewrite L; reflexivity. }
    exists (update acc e (acc e ++ [q])); split; [|split].
    + apply (accepted n c fr st rc acc s); auto.
      * cbn; rewrite of_endpoint_app, of_endpoint_one, Nat.eqb_refl.
        rewrite (r_sent _ _ _ _ _ _ _ _ R), Hh, app_nil_r; reflexivity.
      * cbn; rewrite !update_same; exact Hd.
      * intros i N; cbn; rewrite of_endpoint_app, of_endpoint_one.
        assert (N' : (e =? i) = false) by (apply Nat.eqb_neq; congruence).
        rewrite N', app_nil_r, !(update_other _ _ _ i) by exact N; auto.
      * cbn [proc].
        rewrite schedule_on; [cbn; rewrite ?update_same; reflexivity|].
        cbn. pose proof (r_live _ _ _ _ _ _ _ _ R c eq_refl) as [_ L]; rewrite L; exact RC.
    + intros X; cbn in X; discriminate X.
    + discriminate.
  - injection H as <-; exists acc.
    change (can_receive_packet (kern s) = false) in CR.
    split; [|split; [|auto]].
    + constructor; cbn.
      * intros i; rewrite of_endpoint_app, of_endpoint_one.
        rewrite (r_sent _ _ _ _ _ _ _ _ R).
        destruct (Nat.eq_dec i e) as [->|N].
        -- rewrite Nat.eqb_refl, !update_same, Hh, app_nil_r; reflexivity.
        -- assert (N' : (e =? i) = false) by (apply Nat.eqb_neq; congruence).
           rewrite N', app_nil_r, !(update_other _ _ _ i) by exact N; reflexivity.
      * intros i; destruct (Nat.eq_dec i e) as [->|N].
        -- rewrite !update_same; reflexivity.
        -- rewrite !(update_other _ _ _ i) by exact N; apply (r_held _ _ _ _ _ _ _ _ R).
      * intros i; destruct (Nat.eq_dec i e) as [->|N]; [auto|].
        rewrite !(update_other _ _ _ i) by exact N; apply (r_known _ _ _ _ _ _ _ _ R).
      * apply (r_side _ _ _ _ _ _ _ _ R).
      * intros X. exact (r_out _ _ _ _ _ _ _ _ R X).
      * apply (r_pend _ _ _ _ _ _ _ _ R).
      * apply (r_live _ _ _ _ _ _ _ _ R).
    + intros X. change (can_receive_packet (kern s) = true) in X. congruence.
Qed.

(** *** The commands *)

Lemma keep_reception n m lv fr st rc acc s k :
  reception n m lv fr st rc acc s -> free s ->
  (forall i, delayed_out (endpoints k i) = delayed_out (endpoints (kern s) i)
             /\ out_buffer (endpoints k i) = out_buffer (endpoints (kern s) i)) ->
  app_side k = app_side (kern s) -> waiting k = waiting (kern s) ->
  (pending_out k = true -> pending_out (kern s) = true) ->
  reception n m lv fr st rc acc (set_kern s k) /\ free (set_kern s k).
Proof.
  intros R F He Ha Hw Hp; split.
  - apply (same n _ _ _ _ _ _ s); auto.
  - apply (same_free s); auto; intros i; apply He.
Qed.

Lemma transmit_keeps n k p e k' r :
  transmit_packet n k p e = (k', r) ->
  (forall i, delayed_out (endpoints k' i) = delayed_out (endpoints k i)
             /\ out_buffer (endpoints k' i) = out_buffer (endpoints k i))
  /\ app_side k' = app_side k /\ waiting k' = waiting k /\ pending_out k' = pending_out k.
Proof.
  intros H; unfold transmit_packet in H.
  destruct (known n e); [|injection H as <- <-; auto].
  destruct (pending_in (endpoints k e)); injection H as <- <-; [auto|].
  cbn; repeat split.
  - destruct (update_cases (endpoints k) e
      (mk_endpoint (Some p) true (delayed_out (endpoints k e)) (out_buffer (endpoints k e))) i)
      as [[-> ->]|[N ->]]; auto.
  - destruct (update_cases (endpoints k) e
      (mk_endpoint (Some p) true (delayed_out (endpoints k e)) (out_buffer (endpoints k e))) i)
      as [[-> ->]|[N ->]]; auto.
Qed.

(** The process starts to wait. *)
Lemma start_reception n c st rc acc s :
  reception n None false [] st rc acc s ->
  filter is_event (upcalls (proc s)) = [] ->
  on_transmit (proc s) = transmits c -> on_receive (proc s) = receives c ->
  reception n (Some c) true [] st rc acc
    (set_kern s (set_app (kern s) (Some (side_of c)) true)).
Proof.
  intros R Hf Ht Hr.
  destruct (idle_waits _ _ _ _ _ _ _ R) as (W & A & P).
  pose proof (r_pend _ _ _ _ _ _ _ _ R) as Q; cbn [app] in Q; rewrite Hf in Q.
  constructor; cbn.
  - apply (r_sent _ _ _ _ _ _ _ _ R).
  - apply (r_held _ _ _ _ _ _ _ _ R).
  - apply (r_known _ _ _ _ _ _ _ _ R).
  - exists c; auto.
  - rewrite P; discriminate.
  - rewrite Hf; split; [auto | apply Q].
  - intros c' E; injection E as <-; auto.
Qed.

Lemma receive_reception n c st rc acc s s' :
  0 < n ->
  reception n (Some c) true [] st rc acc s ->
  can_receive_packet (kern s) = true -> pending_out (kern s) = false ->
  receive_packet n s = Some s' ->
  exists acc', reception n (Some c) true [] st rc acc' s' /\ free s'.
Proof.
  intros Hn R CR PO H; unfold receive_packet in H; rewrite PO in H.
  refine (loop_reception n c [] st rc Hn _ _ _ acc _ _ H).
  - destruct R; constructor; auto.
  - intros _ e D; apply loop_covers.
    apply (r_known _ _ _ _ _ _ _ _ R); exact D.
Qed.

Lemma command_reception n c st rc acc s s' :
  0 < n ->
  reception n None false [] st rc acc s -> free s ->
  filter is_event (upcalls (proc s)) = [] ->
  on_transmit (proc s) = transmits c -> on_receive (proc s) = receives c ->
  command n s c = Some (s', Success) ->
  exists acc', reception n (Some c) true [] st rc acc' s' /\ free s'.
Proof.
  intros Hn R F Hf Ht Hr H.
  destruct (idle_waits _ _ _ _ _ _ _ R) as (W & A & P).
  pose proof (start_reception n c st rc acc s R Hf Ht Hr) as R1.
  destruct c as [|p e|p e]; cbn [command] in H.
  - unfold command_receive, set_side in H; rewrite A in H; cbn [waiting set_app] in H.
    rewrite W in H.
    destruct (receive_packet n _) as [s1|] eqn:E; [|discriminate].
    injection H as <-.
    exact (receive_reception n Recv st rc acc _ _ Hn R1 eq_refl P E).
  - unfold command_transmit, set_side in H; rewrite A in H; cbn [waiting set_app] in H.
    rewrite W in H.
    destruct (transmit_packet n _ p e) as [k r] eqn:E.
    destruct r; try discriminate; [].
    injection H as <-.
    destruct (transmit_keeps _ _ _ _ _ _ E) as (K1 & K2 & K3 & K4).
    exists acc.
    split.
    + apply (same n _ _ _ _ _ _ _ _ R1); cbn; auto.
      rewrite K4; auto.
    + intros X; unfold can_receive_packet in X; cbn in X; rewrite K2 in X; cbn in X.
      discriminate X.
  - unfold command_transmit_or_receive, set_side in H; rewrite A in H.
    cbn [waiting set_app] in H; rewrite W in H.
    destruct (receive_packet n _) as [s1|] eqn:E; [|discriminate].
    destruct (receive_reception n (SendOrRecv p e) st rc acc _ _ Hn R1 eq_refl P E)
      as (acc' & R2 & F2).
    exists acc'.
    destruct (negb (waiting (kern s1))).
    + injection H as <-; auto.
    + destruct (transmit_packet n (kern s1) p e) as [k r] eqn:E2.
      injection H as <- ->.
      destruct (transmit_keeps _ _ _ _ _ _ E2) as (K1 & K2 & K3 & K4).
      apply keep_reception; auto.
      rewrite K4; auto.
Qed.

Lemma cancel_in_keeps n k e :
  let k' := fst (cancel_in_transaction n k e) in
  (forall i, delayed_out (endpoints k' i) = delayed_out (endpoints k i)
             /\ out_buffer (endpoints k' i) = out_buffer (endpoints k i))
  /\ app_side k' = app_side k /\ waiting k' = waiting k /\ pending_out k' = pending_out k.
Proof.
  cbn zeta; unfold cancel_in_transaction; destruct (known n e); cbn; auto.
  repeat split.
  - destruct (update_cases (endpoints k) e
      (mk_endpoint None false (delayed_out (endpoints k e)) (out_buffer (endpoints k e))) i)
      as [[-> ->]|[N ->]]; auto.
  - destruct (update_cases (endpoints k) e
      (mk_endpoint None false (delayed_out (endpoints k e)) (out_buffer (endpoints k e))) i)
      as [[-> ->]|[N ->]]; auto.
Qed.

Lemma cancel_all_keeps n es : forall k,
  let k' := fst (cancel_all n k es) in
  (forall i, delayed_out (endpoints k' i) = delayed_out (endpoints k i)
             /\ out_buffer (endpoints k' i) = out_buffer (endpoints k i))
  /\ app_side k' = app_side k /\ waiting k' = waiting k
  /\ (pending_out k' = true -> pending_out k = true)
  /\ (forall e, In e es -> known n e = true -> pending_out k' = false).
Proof.
  induction es as [|e es IH]; intros k; cbn zeta.
  - cbn; repeat split; auto; contradiction.
  - cbn [cancel_all].
    pose proof (cancel_in_keeps n k e) as K1; cbn zeta in K1.
    destruct (cancel_in_transaction n k e) as [k1 a]; cbn [fst] in K1.
    destruct (cancel_out_transaction n k1 e) as [k2 b] eqn:E2.
    specialize (IH k2); cbn zeta in IH.
    destruct (cancel_all n k2 es) as [k3 r]; cbn [fst] in *.
    destruct K1 as (A1 & A2 & A3 & A4), IH as (B1 & B2 & B3 & B4 & B5).
    unfold cancel_out_transaction in E2.
    destruct (known n e) eqn:K; injection E2 as <- <-; cbn in *.
    + split; [|split; [congruence|split; [congruence|split]]].
      * intros i; destruct (A1 i), (B1 i); split; congruence.
      * intros H; specialize (B4 H); discriminate.
      * intros i Hi Ki. destruct (pending_out k3); [|reflexivity].
        specialize (B4 eq_refl); discriminate.
    + split; [|split; [congruence|split; [congruence|split]]].
      * intros i; destruct (A1 i), (B1 i); split; congruence.
      * intros H; rewrite <- A4; auto.
      * intros i [->|Hi] Ki; [congruence|]. exact (B5 i Hi Ki).
Qed.

Lemma cancel_reception n c st rc acc s :
  0 < n ->
  reception n (Some c) false [] st rc acc s ->
  reception n None false [] st rc acc (fst (command_cancel n s (cancelled_endpoint c)))
  /\ proc (fst (command_cancel n s (cancelled_endpoint c))) = proc s
  /\ waiting (kern (fst (command_cancel n s (cancelled_endpoint c)))) = false.
Proof.
  intros Hn R.
  pose proof (r_live _ _ _ _ _ _ _ _ R c eq_refl) as L.
  pose proof (r_pend _ _ _ _ _ _ _ _ R) as Q.
  pose proof (r_side _ _ _ _ _ _ _ _ R) as S.
  pose proof (r_out _ _ _ _ _ _ _ _ R) as O.
  assert (Q' : forall e, rel st (rc e) (acc e)).
  { rewrite L in Q; cbn in Q; apply Q. }
  unfold command_cancel.
  destruct (waiting (kern s)) eqn:W.
  - assert (G : exists k b, cancel_transaction n (stop_waiting (kern s)) (cancelled_endpoint c)
                            = (k, b)
            /\ (forall i, delayed_out (endpoints k i) = delayed_out (endpoints (kern s) i)
                  /\ out_buffer (endpoints k i) = out_buffer (endpoints (kern s) i))
            /\ app_side k = None /\ waiting k = false /\ pending_out k = false).
    { destruct S as (c' & E & S); injection E as <-.
      unfold cancel_transaction.
      destruct (0 <? cancelled_endpoint c) eqn:Z.
      - destruct c as [|p e|p e]; try discriminate; []; cbn [cancelled_endpoint] in *.
        pose proof (cancel_in_keeps n (stop_waiting (kern s)) e) as K; cbn zeta in K.
        destruct (cancel_in_transaction n (stop_waiting (kern s)) e) as [k1 a].
        cbn [fst] in K; destruct K as (K1 & K2 & K3 & K4).
        assert (PO : pending_out (kern s) = false).
        { destruct (pending_out (kern s)); [|reflexivity].
          specialize (O eq_refl); unfold can_receive_packet in O.
          rewrite S, W in O; discriminate. }
        unfold cancel_out_transaction.
        destruct (known n e); do 2 eexists; (split; [reflexivity|]); cbn in *;
          repeat split; auto; try apply K1; congruence.
      - pose proof (cancel_all_keeps n (seq 1 n) (stop_waiting (kern s))) as K; cbn zeta in K.
        destruct (cancel_all n (stop_waiting (kern s)) (seq 1 n)) as [k1 a].
        cbn [fst] in K; destruct K as (K1 & K2 & K3 & K4 & K5).
        do 2 eexists; split; [reflexivity|].
        cbn in *; repeat split; auto; try apply K1.
        apply (K5 1); [apply in_seq; lia | apply known_range; lia]. }
    destruct G as (k & b & -> & K1 & K2 & K3 & K4); cbn [fst].
    split; [|auto].
    constructor; cbn.
    + intros i; destruct (K1 i) as [_ ->]; apply (r_sent _ _ _ _ _ _ _ _ R).
    + intros i; destruct (K1 i) as [-> _]; apply (r_held _ _ _ _ _ _ _ _ R).
    + intros i; destruct (K1 i) as [-> _]; apply (r_known _ _ _ _ _ _ _ _ R).
    + rewrite K3; exact K2.
    + rewrite K4; discriminate.
    + rewrite L; cbn; split; [discriminate | exact Q'].
    + discriminate.
  - split; [|auto].
    cbn [fst]; constructor.
    + apply (r_sent _ _ _ _ _ _ _ _ R).
    + apply (r_held _ _ _ _ _ _ _ _ R).
    + apply (r_known _ _ _ _ _ _ _ _ R).
    + rewrite W; exact S.
    + exact O.
    + rewrite L; cbn; split; [discriminate | exact Q'].
    + discriminate.
Qed.

(** *** Steps *)

Lemma rel_weaken (a b : Prop) l m : (b -> a) -> rel a l m -> rel b l m.
Proof. intros H [S E]; split; auto. Qed.

Lemma weaken n m lv fr (a b : Prop) rc acc s :
  (b -> a) -> reception n m lv fr a rc acc s -> reception n m lv fr b rc acc s.
Proof.
  intros H R; destruct R as [A B C D E F G]; constructor; auto.
  destruct (filter is_event (fr ++ upcalls (proc s))) as [|[|e0|] [|]]; auto.
  - destruct F as [F1 F2]; split; [exact F1|].
    intros e; apply (rel_weaken a); auto.
  - destruct F as [F1 F2]; split; [exact F1|].
    intros e; apply (rel_weaken a); auto.
  - destruct F as (F1 & (l & q & F2 & F3 & F4) & F5); split; [exact F1|]; split.
    + exists l, q; split; [exact F2|]; split; [exact F3|]; apply (rel_weaken a); auto.
    + intros e N; apply (rel_weaken a); auto.
Qed.

(** The process takes back what it shared, with no status that counts. *)
Lemma release_reception n m lv fr st rc rc' acc s m' :
  reception n m lv fr st rc acc s ->
  (m' = m \/ waiting (kern s) = false) ->
  (forall e, rel st (rc' e) (acc e)) ->
  reception n m' false [] st rc' acc (release s).
Proof.
  intros R Hm Hrel; constructor; cbn.
  - apply (r_sent _ _ _ _ _ _ _ _ R).
  - apply (r_held _ _ _ _ _ _ _ _ R).
  - apply (r_known _ _ _ _ _ _ _ _ R).
  - pose proof (r_side _ _ _ _ _ _ _ _ R) as S.
    destruct (waiting (kern s)); [|exact S].
    destruct Hm as [->|X]; [exact S | discriminate].
  - apply (r_out _ _ _ _ _ _ _ _ R).
  - split; [discriminate | exact Hrel].
  - intros c _; reflexivity.
Qed.

Lemma received_last s p l r e :
  received (mk_world s p (l ++ [r])) e
  = flat_map (received_in e) l ++ received_in e r.
Proof. unfold received; cbn; rewrite flat_map_app; cbn; rewrite app_nil_r; reflexivity. Qed.

Lemma existsb_last {A} (f : A -> bool) l x :
  existsb f (l ++ [x]) = existsb f l || f x.
Proof. rewrite existsb_app; cbn; rewrite orb_false_r; reflexivity. Qed.

Lemma step_no_error n w ev w' : step n w ev = Some w' -> no_error w' -> no_error w.
Proof.
  unfold no_error; intros H E.
  assert (G : exists l, results w' = results w ++ l).
  { destruct ev; cbn in H; unfold at_state in H.
    - injection H as <-; exists []; cbn; rewrite app_nil_r; reflexivity.
    - destruct (packet_transmitted n (sys w) e); [|discriminate].
      injection H as <-; exists []; cbn; rewrite app_nil_r; reflexivity.
    - destruct (packet_out n (sys w) e q); [|discriminate].
      injection H as <-; exists []; cbn; rewrite app_nil_r; reflexivity.
    - injection H as <-; exists []; cbn; rewrite app_nil_r; reflexivity.
    - destruct (at_phase w); injection H as <-; exists []; cbn; rewrite app_nil_r; reflexivity.
    - destruct (at_phase w); try (injection H as <-; exists []; rewrite app_nil_r; reflexivity).
      destruct (command n (sys w) c) as [[s []]|]; try discriminate; injection H as <-; cbn;
        eauto; exists []; rewrite app_nil_r; reflexivity.
    - destruct (at_phase w); try (injection H as <-; exists []; rewrite app_nil_r; reflexivity).
      destruct (upcalls (proc (sys w))); injection H as <-; exists []; cbn;
        rewrite app_nil_r; reflexivity.
    - destruct (at_phase w) as [| | |c []|]; injection H as <-; cbn; eauto;
        exists []; rewrite app_nil_r; reflexivity.
    - destruct (at_phase w); injection H as <-; cbn; eauto;
        exists []; rewrite app_nil_r; reflexivity. }
  destruct G as [l G]; rewrite G, existsb_app in E.
  apply orb_false_elim in E; apply E.
Qed.

Lemma front_dead p : live p = false -> front p = [].
Proof. destruct p; cbn; auto; discriminate. Qed.

Lemma step_inv n w ev w' :
  0 < n -> inv n w -> step n w ev = Some w' -> no_error w' -> inv n w'.
Proof.
  intros Hn (acc & R & F & Hi & Hp) H NE.
  destruct ev; cbn [step] in H; unfold at_state in H.
  - (* In_ *)
    injection H as <-.
    destruct (in_reception _ _ _ _ _ _ _ _ e R F) as [R1 F1].
    assert (P : proc (packet_in n (sys w) e) = proc (sys w)).
    { unfold packet_in; destruct (known n e); [|reflexivity].
      destruct (tx_packet _); reflexivity. }
    exists acc; cbn [sys at_phase]; rewrite P; split; [exact R1|]; auto.
  - (* Done *)
    destruct (packet_transmitted n (sys w) e) as [s|] eqn:E; [|discriminate].
    injection H as <-.
    destruct (done_reception _ _ _ _ _ _ _ _ e s R F (front_dead _) E) as (R1 & F1 & U).
    exists acc; cbn [sys at_phase]; split; [exact R1|]; split; [exact F1|]; split.
    + intros M; rewrite (U M); auto.
    + intros c P; destruct (Hp c P) as [A B].
      assert (PR : proc s = proc (sys w)).
      { rewrite P in R. destruct (idle_waits _ _ _ _ _ _ _ R) as (W & _).
        unfold packet_transmitted in E.
        destruct (in_flight (ctrl (sys w)) e); [|injection E as <-; reflexivity].
        destruct (known n e) eqn:K; [|injection E as <-; reflexivity].
        cbn in E. destruct (tx_packet _); [discriminate|].
        injection E as <-. unfold cancel_out_transaction, client_packet_transmitted; rewrite K; cbn.
        rewrite W; reflexivity. }
      rewrite PR; auto.
  - (* Out *)
    destruct (packet_out n (sys w) e q) as [s|] eqn:E; [|discriminate].
    injection H as <-.
    destruct (out_reception _ _ _ _ _ _ _ _ e q s R F E) as (acc' & R1 & F1 & U).
    exists acc'; cbn [sys at_phase]; split; [exact R1|]; split; [exact F1|]; split.
    + intros M; rewrite (U M); auto.
    + intros c P; destruct (Hp c P) as [A B].
      assert (PR : proc s = proc (sys w)).
      { rewrite P in R. destruct (idle_waits _ _ _ _ _ _ _ R) as (W & _).
        unfold packet_out in E.
        destruct (known n e && (length q =? 64) && negb (held (ctrl (sys w)) e)) eqn:G;
          [|injection E as <-; reflexivity].
        apply andb_prop in G; destruct G as [G _]; apply andb_prop in G; destruct G as [K _].
        match type of E with context [send_packet_to_client n ?y e] => set (s0 := y) in * end.
        destruct (send_packet_to_client n s0 e) as [[s1 b]|] eqn:O; [|discriminate].
        destruct (offered n s0 e s1 b O K) as (_ & [(-> & CR & _)|(-> & CR & ->)]).
        - unfold can_receive_packet in CR; cbn in CR; rewrite W in CR; discriminate.
        - injection E as <-; reflexivity. }
      rewrite PR; auto.
  - (* Ring *)
    injection H as <-.
    exists acc; cbn [sys at_phase].
    destruct (alarm (proc (sys w))) eqn:A; [|auto].
    unfold schedule; rewrite A; cbn [upcalls receive_buffer on_transmit on_receive].
    split; [|split; [exact F|split; [|exact Hp]]].
    + destruct R as [A1 A2 A3 A4 A5 A6 A7].
      constructor; auto.
      * cbn [proc set_proc upcalls receive_buffer].
        rewrite app_assoc, filter_app; cbn [filter is_event]; rewrite app_nil_r; exact A6.
      * intros c M; specialize (A7 c M).
        cbn [at_phase] in *.
        destruct (live (at_phase w)); [exact A7|].
        rewrite A7 in A; discriminate.
    + intros M; cbn; rewrite filter_app, (Hi M); reflexivity.
  - (* Begin *)
    destruct (at_phase w) eqn:P; injection H as <-;
      try (exists acc; rewrite P; auto; fail).
    cbn in R. destruct (idle_waits _ _ _ _ _ _ _ R) as (W & SA & PO).
    specialize (Hi eq_refl).
    exists acc; cbn [sys at_phase]; split; [|split; [exact F|split]].
    + apply (weaken n _ _ _ (strict w)).
      { unfold strict; rewrite P; cbn; intros [X _]; split; auto. }
      destruct R as [A1 A2 A3 A4 A5 A6 A7]; constructor; auto.
      * cbn in *. rewrite Hi in A6; split; [discriminate | apply A6].
      * discriminate.
    + reflexivity.
    + intros c' E; injection E as <-; auto.
  - (* Command *)
    destruct (at_phase w) eqn:P; try (injection H as <-; exists acc; rewrite P; auto; fail).
    cbn in R.
    destruct (command n (sys w) c) as [[s r]|] eqn:E; [|discriminate].
    destruct (Hp c eq_refl) as [H1 H2].
    destruct r.
    2,3,4: (injection H as <-; unfold no_error in NE; cbn in NE;
            rewrite existsb_last in NE; cbn in NE; rewrite orb_true_r in NE; discriminate).
    injection H as <-.
    destruct (command_reception n c _ _ _ _ _ Hn R F (Hi eq_refl) H1 H2 E) as (acc' & R1 & F1).
    exists acc'; cbn [sys at_phase]; split; [|split; [exact F1|split; discriminate]].
    apply (weaken n _ _ _ (strict w)); [|exact R1].
    unfold strict; rewrite P; cbn; auto.
  - (* Yield *)
    destruct (at_phase w) eqn:P; try (injection H as <-; exists acc; rewrite P; auto; fail).
    destruct (upcalls (proc (sys w))) as [|u us] eqn:U;
      [injection H as <-; exists acc; rewrite P, ?U; auto; fail|].
    injection H as <-.
    exists acc; cbn [sys at_phase]; split; [|split; [exact F|split; discriminate]].
    cbn in R.
    apply (weaken n _ _ _ (strict w)).
    { unfold strict; rewrite P; cbn; intros [X _]; split; auto. }
    destruct R as [A1 A2 A3 A4 A5 A6 A7]; constructor; auto.
    cbn in *; rewrite U in A6; exact A6.
  - (* Leave *)
    destruct (at_phase w) as [| | |c u|] eqn:P;
      try (injection H as <-; exists acc; rewrite P; auto; fail).
    cbn in R.
    pose proof (r_pend _ _ _ _ _ _ _ _ R) as Q.
    destruct u as [|e0|]; injection H as <-; exists acc; cbn [sys at_phase];
      (split; [|split; [exact F|split; [reflexivity|discriminate]]]).
    + (* Sent *)
      cbn in Q. destruct (filter is_event (upcalls (proc (sys w)))) as [|]; [|contradiction].
      destruct Q as [W Q].
      apply (weaken n _ _ _ (strict w)).
      { unfold strict, no_timeout; rewrite P; cbn; rewrite existsb_last; cbn.
        rewrite orb_false_r; auto. }
      refine (release_reception _ _ _ _ _ _ _ _ _ _ R (or_intror W) _).
      intros e; rewrite received_last; cbn; rewrite app_nil_r; apply Q.
    + (* Received *)
      cbn in Q. destruct (filter is_event (upcalls (proc (sys w)))) as [|]; [|contradiction].
      destruct Q as (W & (l & q & Q1 & Q2 & Q3) & Q4).
      apply (weaken n _ _ _ (strict w)).
      { unfold strict, no_timeout; rewrite P; cbn; rewrite existsb_last; cbn.
        rewrite orb_false_r; auto. }
      refine (release_reception _ _ _ _ _ _ _ _ _ _ R (or_intror W) _).
      rewrite Q1.
      intros e; rewrite received_last; cbn.
      destruct (e0 =? e) eqn:E.
      * apply Nat.eqb_eq in E; subst e; rewrite Q2.
        destruct Q3 as [Q3 Q3'].
        split; [apply sub_app; [exact Q3 | apply sub_refl]|].
        intros S; fold (received w e0); rewrite (Q3' S); reflexivity.
      * apply Nat.eqb_neq in E; rewrite app_nil_r; apply Q4; congruence.
    + (* Timeout *)
      apply (weaken n _ _ _ False).
      { unfold strict; cbn; tauto. }
      assert (R' := weaken n _ _ _ (strict w) False _ _ _ (False_ind _) R).
      refine (release_reception _ _ _ _ _ _ _ _ _ _ R' (or_introl eq_refl) _).
      intros e; cbn in Q; split; [|contradiction].
      change (received _ e) with (received w e).
      destruct (filter is_event (upcalls (proc (sys w)))) as [|[|e1|] [|]]; try contradiction.
      * apply Q.
      * apply Q.
      * destruct Q as (_ & (l & q & _ & Q2 & Q3) & Q4).
        destruct (Nat.eq_dec e e1) as [->|N]; [|apply Q4; exact N].
        rewrite Q2; apply sub_right; apply Q3.
  - (* Cancel *)
    destruct (at_phase w) as [| | |c u|c] eqn:P;
      try (injection H as <-; exists acc; rewrite P; auto; fail).
    injection H as <-; cbn in R.
    destruct (cancel_reception n c _ _ _ _ Hn R) as (R1 & PR & W).
    exists acc; cbn [sys at_phase]; split; [|split; [|split; [|discriminate]]].
    + apply (weaken n _ _ _ (strict w)).
      { unfold strict, no_timeout; cbn; rewrite existsb_last; cbn.
        rewrite orb_true_r; intros [X _]; discriminate. }
      pose proof (r_live _ _ _ _ _ _ _ _ R c eq_refl) as L; cbn in L.
      destruct R1 as [A1 A2 A3 A4 A5 A6 A7]; constructor; auto.
      rewrite PR, L in *; cbn in A6; cbn.
      split; [discriminate|].
      intros e; rewrite received_last; cbn; rewrite app_nil_r; apply A6.
    + intros X; unfold can_receive_packet in X; rewrite W in X; discriminate.
    + intros _; rewrite PR. pose proof (r_live _ _ _ _ _ _ _ _ R c eq_refl) as L.
      cbn in L; rewrite L; reflexivity.
Qed.

Lemma run_app n a : forall w b,
  run n w (a ++ b) = match run n w a with Some w => run n w b | None => None end.
Proof.
  induction a as [|x a IH]; intros w b; cbn; [reflexivity|].
  destruct (step n w x); auto.
Qed.

Lemma run_no_error n evs : forall w w', run n w evs = Some w' -> no_error w' -> no_error w.
Proof.
  induction evs as [|ev evs IH]; intros w w' H NE; cbn in H.
  - injection H as <-; exact NE.
  - destruct (step n w ev) as [w1|] eqn:E; [|discriminate].
    exact (step_no_error n w ev w1 E (IH w1 w' H NE)).
Qed.

Lemma run_inv n : 0 < n -> forall evs w w',
  inv n w -> run n w evs = Some w' -> no_error w' -> inv n w'.
Proof.
  intros Hn evs; induction evs as [|ev evs IH]; intros w w' I H NE; cbn in H.
  - injection H as <-; exact I.
  - destruct (step n w ev) as [w1|] eqn:E; [|discriminate].
    exact (IH w1 w' (step_inv n w ev w1 Hn I E (run_no_error n evs w1 w' H NE)) H NE).
Qed.
