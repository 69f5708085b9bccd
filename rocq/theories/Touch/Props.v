(** C72: the touch of the user on the hardware. *)
From Verif Require Import Base.
From Verif Require Import Touch.Model Touch.Spec Touch.Proofs Touch.Ends.
Local Open Scope nat_scope.

(** The user is taken to be present only if a button was pressed during this very call, while the kernel was reporting buttons to it. *)
Theorem C72_confirmed : forall c k ms l, idle k -> ms <> 0 -> ends (run c (wait_with_timeout ms k) l) Confirmed ->
  exists a n b, pressed_after c (wait_with_timeout ms k) l a n b.
Proof.
  intros c k ms l I M E. destruct (call_inv c k ms l I M) as (_ & _ & _ & _ & H). unfold here in H. unfold ends in E. rewrite E in H. apply H.
Qed.
Print Assumptions C72_confirmed.

(** A call times out only if the alarm goes off, not before the time asked for has passed, and if no button was pressed before that. *)
Theorem C72_timeout : forall c k ms l, idle k -> ms <> 0 -> ends (run c (wait_with_timeout ms k) l) TimedOut ->
  exists a b, expires_after c (wait_with_timeout ms k) l a b /\ now k + ticks c <= now (fst (run c (wait_with_timeout ms k) a)) /\
    forall x n y, ~ pressed_after c (wait_with_timeout ms k) a x n y.
Proof.
  intros c k ms l I M E. destruct (call_inv c k ms l I M) as (_ & _ & _ & _ & H). unfold here in H. unfold ends in E. rewrite E in H.
  destruct H as ((a & b & X & Y & Z) & _). exists a, b. unfold wait_with_timeout at 1 in Y. cbn [fst] in Y. auto.
Qed.
Print Assumptions C72_timeout.

(** With a timeout of 0 the call returns at once, without a system call. *)
Theorem C72_zero : forall c k l, ends (run c (wait_with_timeout 0 k) l) TimedOut.
Proof.
  intros c k l. unfold ends. induction l as [|i l IH] using rev_ind; [reflexivity|]. rewrite run_snoc. destruct (run c (wait_with_timeout 0 k) l) as [k' p'].
  cbn in IH. destruct i as [e|ok]; cbn; [exact IH|]. rewrite IH. exact IH.
Qed.
Print Assumptions C72_zero.

Lemma two_splits (a : list item) p b x e y : p <> e -> a ++ p :: b = x ++ e :: y ->
  (exists z, x = a ++ p :: z /\ b = z ++ e :: y) \/ (exists z, a = x ++ e :: z).
Proof.
  intros N. revert x. induction a as [|i a IH]; intros [|j x] H; cbn in H.
  - injection H as H _. destruct (N H).
  - injection H as -> ->. left. exists x. auto.
  - injection H as -> _. right. exists a. reflexivity.
  - injection H as -> H. destruct (IH x H) as [(z & -> & ->)|(z & ->)]; [left|right]; exists z; auto.
Qed.

(** A touch that is reported before the alarm goes off is never answered with a timeout, whatever happens later. *)
Theorem C72_not_ignored : forall c k ms l a n b, idle k -> ms <> 0 -> pressed_after c (wait_with_timeout ms k) l a n b ->
  (forall x y, ~ expires_after c (wait_with_timeout ms k) a x y) -> ~ ends (run c (wait_with_timeout ms k) l) TimedOut.
Proof.
  intros c k ms l a n b I M (-> & L) N E. destruct (C72_timeout c k ms _ I M E) as (x & y & (S & D) & _ & Q).
  apply two_splits in S; [|discriminate]. destruct S as [(z & -> & _)|(z & ->)].
  - exact (Q a n z (conj eq_refl L)).
  - exact (N x z (conj eq_refl D)).
Qed.
Print Assumptions C72_not_ignored.

Lemma no_failure_app a b : no_failure (a ++ b) -> no_failure a /\ no_failure b.
Proof. intros H. split; intros X; apply H, in_app_iff; auto. Qed.

(** A call ends soon after a reported touch, or after the alarm: there is no wait without an end. *)
Theorem C72_ends : forall c k ms l a b n, idle k -> ms <> 0 -> no_failure l ->
  pressed_after c (wait_with_timeout ms k) l a n b \/ expires_after c (wait_with_timeout ms k) l a b ->
  events l + 2 * buttons c + 11 <= steps b -> over (run c (wait_with_timeout ms k) l).
Proof.
  intros c k ms l a b n I M NF H S. set (s0 := wait_with_timeout ms k) in *.
  destruct (call_inv c k ms a I M) as (_ & _ & _ & _ & V). fold s0 in V. unfold here in V.
  assert (Q0 : queue (fst s0) = []) by apply I.
  assert (X : exists e, l = a ++ Ev e :: b /\ awake (step c (run c s0 a) (Ev e))).
  { destruct H as [(E & L)|(E & D)].
    - exists (Press n). split; [exact E|]. destruct (run c s0 a) as [k1 p1]. cbn [fst snd] in *. destruct L as (L1 & L2).
      unfold awake. cbn [step fst snd happen]. unfold button_event. rewrite L1, L2. cbn [andb queue set_queue].
      assert (T : touch_in (queue k1 ++ [UButton n true])) by (exists n; apply in_app_iff; cbn; auto).
      destruct (place_of p1) as [|m| | | | | | |m| | |o]; auto; destruct V as (V & _); congruence.
    - exists Expire. split; [exact E|]. destruct (run c s0 a) as [k1 p1]. cbn [fst snd] in *. destruct D as (t & D1 & D2).
      unfold awake. cbn [step fst snd happen]. rewrite D1. apply Nat.leb_le in D2. rewrite D2.
      destruct (place_of p1) as [|m| | | | | | |m| | |o]; auto; try (destruct V as (_ & _ & V & _); congruence).
      destruct V as (_ & V & _). rewrite V. right. right. right. apply in_app_iff. cbn. auto. }
  destruct X as (e & -> & A). rewrite run_app. cbn [run fold_left]. fold (run c (step c (run c s0 a) (Ev e)) b).
  apply no_failure_app in NF. destruct NF as (_ & NF). apply progress; [exact A|intros Y; apply NF; right; exact Y|].
  pose proof (left_bound c s0 (a ++ [Ev e]) Q0) as B. rewrite run_snoc in B. unfold events in *. rewrite filter_app, app_length in *. cbn [filter length] in *. lia.
Qed.
Print Assumptions C72_ends.

(** A touch counts: if a button is pressed while the call listens, if the alarm does not go off and no system call fails, then the
    call soon returns that the user is present. *)
Theorem C72_touch : forall c k ms l a n b, idle k -> ms <> 0 -> no_failure l -> pressed_after c (wait_with_timeout ms k) l a n b ->
  (forall x y, ~ expires_after c (wait_with_timeout ms k) l x y) -> events l + 2 * buttons c + 11 <= steps b ->
  ends (run c (wait_with_timeout ms k) l) Confirmed.
Proof.
  intros c k ms l a n b I M NF P NE S. destruct (C72_ends c k ms l a b n I M NF (or_introl P) S) as (o & E).
  destruct (call_inv c k ms l I M) as (_ & _ & _ & _ & H). unfold here in H. unfold ends. rewrite E in *.
  destruct o; [reflexivity|exfalso..].
  - destruct H as ((x & y & X & _) & _). exact (NE x y X).
  - destruct H as (H & _). exact (NF H).
  - destruct H as [H|(x & m & y & z & -> & _ & D)]; [exact (NF H)|]. apply (NE (x ++ Ev (Press m) :: y) z). split; [|exact D].
    rewrite <- app_assoc. reflexivity.
Qed.
Print Assumptions C72_touch.

(** Whenever the call waits, every button of the device is reported to it and the alarm is set. *)
Theorem C72_listens : forall c k ms l, idle k -> ms <> 0 -> let s := run c (wait_with_timeout ms k) l in
  (buttons_sub (fst s) = true -> forall n, n < buttons c -> listens (fst s) n) /\
  (~ over s -> step c s (Run true) = s -> buttons_sub (fst s) = true /\ alarm_sub (fst s) = true /\ alarm (fst s) <> None).
Proof.
  intros c k ms l I M s.
  assert (R : reports c s).
  { apply reports_run. unfold wait_with_timeout, reports. cbn. destruct (ms =? 0) eqn:E; [apply Nat.eqb_eq in E; contradiction|].
    split; [trivial|]. destruct I as (-> & _). discriminate. }
  destruct (call_inv c k ms l I M) as (_ & _ & _ & _ & V). fold s in V. clearbody s. unfold here in V.
  split; [intros B n L; split; [exact B|apply R; auto]|]. intros NO E. destruct s as [k' [pl tc ex]]. cbn [fst snd place_of touched expired] in *.
  destruct pl as [|m| | | | | | |m| | |o]; cbn [step proceed place_of touched expired] in E.
  1,3,4,5,6,8,10: discriminate E.
  - destruct (m <? buttons c); [|discriminate E]. injection E as _ E. exfalso. lia.
  - destruct (tc || ex) eqn:TE; [discriminate E|]. destruct (queue k') as [|u q] eqn:Q.
    + destruct V as (V1 & V2 & _ & _ & V5 & _). apply orb_false_iff in TE. split; [exact V1|]. split; [exact V2|]. intros X. destruct (V5 X (proj2 TE)).
    + apply (f_equal (fun s => length (queue (fst s)))) in E. cbn in E. rewrite Q in E. cbn in E. exfalso. lia.
  - destruct (m <? buttons c); [|discriminate E]. injection E as _ E. exfalso. lia.
  - destruct (alarm k'); [discriminate E|]. destruct ex; discriminate E.
  - destruct NO. exists o. reflexivity.
Qed.
Print Assumptions C72_listens.

(** After the call nothing is subscribed or left to deliver, so that nothing of it reaches a later call.  Unless a system call failed
    the alarm is stopped and the interrupts of the buttons are disabled, too. *)
Theorem C72_clean : forall c k ms l o, idle k -> ms <> 0 -> ends (run c (wait_with_timeout ms k) l) o -> o <> Panicked ->
  let k' := fst (run c (wait_with_timeout ms k) l) in
  buttons_sub k' = false /\ alarm_sub k' = false /\ queue k' = [] /\
  (o <> Failed -> idle k' /\ forall n, n < buttons c -> enabled k' n = false) /\ (o = Failed -> In (Run false) l).
Proof.
  intros c k ms l o I M E NP k'. destruct (call_inv c k ms l I M) as (_ & _ & _ & _ & H). unfold here in H. unfold ends in E. rewrite E in H.
  fold k' in H. clearbody k'. unfold idle in *. destruct o; [| | |destruct (NP eq_refl)].
  - destruct H as (_ & (A & B & C & D) & F). repeat split; auto. discriminate.
  - destruct H as (_ & (A & B & C & D) & F). repeat split; auto. discriminate.
  - destruct H as (F & A & B & C). split; [auto|]. split; [auto|]. split; [auto|]. split; [intros X; destruct (X eq_refl)|auto].
Qed.
Print Assumptions C72_clean.

(** The call panics only if a system call fails, or if the alarm goes off after a reported touch and before the call has ended. *)
Theorem C72_panic_partial : forall c k ms l, idle k -> ms <> 0 -> ends (run c (wait_with_timeout ms k) l) Panicked -> no_failure l ->
  exists a n b d, l = a ++ Ev (Press n) :: b ++ Ev Expire :: d /\ listens (fst (run c (wait_with_timeout ms k) a)) n /\
    due (fst (run c (wait_with_timeout ms k) (a ++ Ev (Press n) :: b))).
Proof.
  intros c k ms l I M E NF. destruct (call_inv c k ms l I M) as (_ & _ & _ & _ & H). unfold here in H. unfold ends in E. rewrite E in H.
  destruct H as [H|H]; [destruct (NF H)|exact H].
Qed.
Print Assumptions C72_panic_partial.

(** One button, an alarm after ten ticks, a kernel at rest. *)
Definition device : config := mkConfig 1 10.
Definition rest : kernel := mkKernel 0 (fun _ => false) false false None [].
Definition go (n : nat) : list item := repeat (Run true) n.

Lemma rest_idle : idle rest. Proof. repeat split. Qed.

(** But it can panic although no system call fails: the user touches the button, and the alarm goes off before it is stopped.  Its upcall is then
    dropped, the kernel says that the alarm is not set any more, and the assertion fails (finding F27). *)
Theorem C72_panic_refuted : exists l, no_failure l /\ ends (run device (wait_with_timeout 100 rest) l) Panicked.
Proof.
  exists (go 7 ++ [Ev (Press 0)] ++ go 2 ++ [Ev (Time 10); Ev Expire] ++ go 6). split; [|reflexivity].
  intros H. cbn in H. repeat (destruct H as [H|H]; [discriminate|]). exact H.
Qed.
Print Assumptions C72_panic_refuted.

(** A touch between two calls, while keepalive packets are sent, is lost: both calls time out (finding F28). *)
Theorem C72_between_refuted : exists l1 l2, let s1 := run device (wait_with_timeout 100 rest) l1 in
  let s2 := run device (wait_with_timeout 100 (happen (Press 0) (fst s1))) l2 in ends s1 TimedOut /\ ends s2 TimedOut /\ no_failure l1 /\ no_failure l2.
Proof.
  exists (go 7 ++ [Ev (Time 10); Ev Expire] ++ go 10), (go 7 ++ [Ev (Time 10); Ev Expire] ++ go 10). cbv zeta.
  split; [reflexivity|]. split; [reflexivity|]. split; intros H; cbn in H; repeat (destruct H as [H|H]; [discriminate|]); exact H.
Qed.
Print Assumptions C72_between_refuted.

(** A call that fails leaves its alarm set; it can end the next call, before any time has passed (finding F29). *)
Theorem C72_early_refuted : exists l1 d l2, let s1 := run device (wait_with_timeout 100 rest) l1 in
  let k := happen (Time d) (fst s1) in let s2 := run device (wait_with_timeout 100 k) l2 in
  ends s1 Failed /\ ends s2 TimedOut /\ now (fst s2) = now k /\ no_failure l2.
Proof.
  exists (go 7 ++ [Ev (Press 0)] ++ go 3 ++ [Run false]), 10, (go 6 ++ [Ev Expire] ++ go 10). cbv zeta.
  split; [reflexivity|]. split; [reflexivity|]. split; [reflexivity|].
  intros H; cbn in H; repeat (destruct H as [H|H]; [discriminate|]); exact H.
Qed.
Print Assumptions C72_early_refuted.

Definition touch_course : list item := go 7 ++ [Ev (Time 3); Ev (Press 0)] ++ go 40.
Example C72_touch_nonvacuous : idle rest /\ no_failure touch_course /\
  pressed_after device (wait_with_timeout 100 rest) touch_course (go 7 ++ [Ev (Time 3)]) 0 (go 40) /\
  (forall x y, ~ expires_after device (wait_with_timeout 100 rest) touch_course x y) /\ events touch_course + 2 * buttons device + 11 <= steps (go 40) /\
  ends (run device (wait_with_timeout 100 rest) touch_course) Confirmed.
Proof.
  split; [repeat split|]. split; [intros H; cbn in H; repeat (destruct H as [H|H]; [discriminate|]); exact H|].
  split; [repeat split|]. split; [|split; [vm_compute; lia|reflexivity]].
  intros x y (E & _). assert (H : In (Ev Expire) touch_course) by (rewrite E; apply in_app_iff; right; left; reflexivity).
  cbn in H. repeat (destruct H as [H|H]; [discriminate|]). exact H.
Qed.

Definition timeout_course : list item := [Ev (Press 0)] ++ go 7 ++ [Ev (Release 0); Ev (Time 10); Ev Expire] ++ go 40.
Example C72_timeout_nonvacuous : ends (run device (wait_with_timeout 100 rest) timeout_course) TimedOut /\ no_failure timeout_course /\
  expires_after device (wait_with_timeout 100 rest) timeout_course ([Ev (Press 0)] ++ go 7 ++ [Ev (Release 0); Ev (Time 10)]) (go 40) /\
  events timeout_course + 2 * buttons device + 11 <= steps (go 40).
Proof.
  split; [reflexivity|]. split; [intros H; cbn in H; repeat (destruct H as [H|H]; [discriminate|]); exact H|]. split; [|vm_compute; lia].
  split; [reflexivity|]. exists 10. split; [reflexivity|]. vm_compute. lia.
Qed.
