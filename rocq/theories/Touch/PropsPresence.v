(** C72, C63: the whole wait for the user, on the hardware. *)
From Verif Require Import Base.
From Verif Require Hid.Model Ctap.Machine Device.Wait Device.WaitSpec Device.PropsWait.
From Verif Require Import Touch.Model Touch.Spec Touch.Proofs Touch.Props.
Local Open Scope nat_scope.

(** How check_user_presence sees the end of a call (src/env/tock/mod.rs 272-355); a panic is not seen. *)
Definition seen (o : outcome) : option Ctap.Machine.up_result :=
  match o with
  | Confirmed => Some Ctap.Machine.UpConfirmed
  | TimedOut => Some Ctap.Machine.UpTimeout
  | Failed => Some Ctap.Machine.UpFail
  | Panicked => None
  end.

(** The calls of one wait for the user on one device: the kernel at the start of the k-th call, what happens during it, and the
    events between it and the next call. *)
Record wait_course := mkCourse { begins : nat -> kernel; during : nat -> list item; between : nat -> list event }.
Definition call_at (w : wait_course) (k : nat) : state := wait_with_timeout (N.to_nat (Device.WaitSpec.delay k)) (begins w k).
Definition end_of (c : config) (w : wait_course) (k : nat) : state := run c (call_at w k) (during w k).

(** The surroundings are those of the device: the first call starts from a kernel at rest, every call that is made gives what the hardware
    gives, and the kernel passes from one call to the next. *)
Definition on_hardware (c : config) (w : wait_course) (s : Device.Wait.surroundings) (ch : Ctap.Machine.channel) : Prop :=
  idle (begins w 0) /\
  forall k, k <= 300 -> Device.WaitSpec.open s ch k ->
    (exists o, ends (end_of c w k) o /\ seen o = Some (fst (Device.Wait.s_wait s k))) /\
    begins w (S k) = fold_left (fun k e => happen e k) (between w k) (fst (end_of c w k)).

Lemma idle_happen e k : idle k -> idle (happen e k).
Proof.
  intros (A & B & C & D). destruct e as [n|n|d|]; cbn [happen]; unfold button_event; rewrite ?A, ?C; cbn [andb]; unfold idle; cbn; auto.
Qed.
Lemma idle_between es : forall k, idle k -> idle (fold_left (fun k e => happen e k) es k).
Proof. induction es as [|e es IH]; intros k I; [exact I|]. cbn [fold_left]. apply IH, idle_happen, I. Qed.

Lemma zero_run c k l : idle k -> idle (fst (run c (wait_with_timeout 0 k) l)).
Proof.
  intros I. induction l as [|i l IH] using rev_ind; [exact I|]. rewrite run_snoc. pose proof (C72_zero c k l) as Z. unfold ends in Z.
  destruct (run c (wait_with_timeout 0 k) l) as [k' p']. cbn [fst snd] in *. destruct i as [e|ok]; cbn [step fst snd]; [apply idle_happen, IH|].
  cbn [proceed]. rewrite Z. exact IH.
Qed.

Lemma delay_pos k : N.to_nat (Device.WaitSpec.delay (S k)) <> 0. Proof. discriminate. Qed.

Lemma open_less s ch k j : Device.WaitSpec.open s ch k -> j <= k -> Device.WaitSpec.open s ch j.
Proof. intros O L i Hi. apply O. lia. Qed.

(** Every call of the wait starts from a kernel at rest. *)
Lemma starts_idle c w s ch : on_hardware c w s ch -> forall k, k <= 301 -> Device.WaitSpec.open s ch k -> idle (begins w k).
Proof.
  intros (I & H). induction k as [|k IH]; intros B O; [exact I|]. specialize (IH ltac:(lia) (open_less _ _ _ k O ltac:(lia))).
  destruct (H k ltac:(lia) (open_less _ _ _ k O ltac:(lia))) as ((o & E & S) & ->). apply idle_between. unfold end_of, call_at in *.
  destruct (O k ltac:(lia)) as (T & _). rewrite T in S. destruct o; try discriminate S. clear S T.
  destruct k as [|k]; [exact (zero_run c _ _ IH)|]. exact (proj1 (proj1 (proj2 (proj2 (proj2 (C72_clean c _ _ _ _ IH (delay_pos k) E ltac:(discriminate))))) ltac:(discriminate))).
Qed.

(** The authenticator takes the user to be present only if, during one of its waits for this request and not before, a button was pressed while the kernel was
    reporting buttons; no CANCEL of the client came before. *)
Theorem C72_presence : forall c w s ch, length (Device.Wait.cid_of ch) = 4 -> Device.WaitSpec.packets_ok s -> on_hardware c w s ch ->
  snd (Device.Wait.check_user_presence s ch) = Some Ctap.Machine.UpConfirmed ->
  exists k a n b, 1 <= k <= 300 /\ Device.WaitSpec.open s ch k /\ pressed_after c (call_at w k) (during w k) a n b.
Proof.
  intros c w s ch L P H E. apply (Device.PropsWait.C63_confirmed s ch L P) in E. destruct E as (k & B & O & F).
  pose proof (starts_idle c w s ch H k ltac:(lia) O) as I. destruct H as (_ & H). destruct (H k B O) as ((o & X & R) & _). rewrite F in R.
  destruct o; try discriminate R. unfold end_of, call_at in *. destruct k as [|k].
  - pose proof (C72_zero c (begins w 0) (during w 0)) as Z. unfold ends in *. cbn [Device.WaitSpec.delay N.to_nat] in X. rewrite Z in X. discriminate X.
  - destruct (C72_confirmed c _ _ _ I (delay_pos k) X) as (a & n & b & Q). exists (S k), a, n, b. split; [lia|]. split; [exact O|exact Q].
Qed.
Print Assumptions C72_presence.

(** The clock never goes back. *)
Lemma clock_happen e k : now k <= now (happen e k).
Proof.
  destruct e as [n|n|d|]; cbn [happen]; unfold button_event; [destruct (_ && _); cbn; lia|destruct (_ && _); cbn; lia|cbn; lia|].
  destruct (alarm k) as [t|]; [|lia]. destruct (t <=? now k); [|lia]. destruct (alarm_sub k); cbn; lia.
Qed.
Lemma clock_between es : forall k, now k <= now (fold_left (fun k e => happen e k) es k).
Proof. induction es as [|e es IH]; intros k; cbn [fold_left]; [lia|]. etransitivity; [apply clock_happen|apply IH]. Qed.
Lemma clock_proceed c ok s : now (fst (proceed c ok s)) = now (fst s).
Proof.
  destruct s as [k p]. unfold proceed. destruct (place_of p) as [|n| | | | | | |n| | |o]; cbn [fst];
    repeat match goal with |- context [if ?b then _ else _] => destruct b | |- context [match queue ?k with _ => _ end] => destruct (queue k)
                         | |- context [match alarm ?k with _ => _ end] => destruct (alarm k) end; reflexivity.
Qed.
Lemma clock_run c l : forall s, now (fst s) <= now (fst (run c s l)).
Proof.
  induction l as [|i l IH]; intros s; [cbn; lia|]. change (run c s (i :: l)) with (run c (step c s i) l). etransitivity; [|apply IH].
  destruct i as [e|ok]; cbn [step fst]; [apply clock_happen|rewrite clock_proceed; lia].
Qed.

Lemma pressed_split c s l a n b z : pressed_after c s l a n b -> pressed_after c s (l ++ z) a n (b ++ z).
Proof. intros (-> & L). split; [rewrite <- app_assoc; reflexivity|exact L]. Qed.

(** The request times out only after 300 waits, each of which lasted the time asked for and got no touch before its alarm. *)
Theorem C72_whole : forall c w s ch, length (Device.Wait.cid_of ch) = 4 -> Device.WaitSpec.packets_ok s -> on_hardware c w s ch ->
  snd (Device.Wait.check_user_presence s ch) = Some Ctap.Machine.UpTimeout ->
  now (begins w 0) + 300 * ticks c <= now (fst (end_of c w 300)) /\
  forall k, 1 <= k <= 300 -> exists a b, expires_after c (call_at w k) (during w k) a b /\
    now (begins w k) + ticks c <= now (fst (run c (call_at w k) a)) /\ forall x n y, ~ pressed_after c (call_at w k) a x n y.
Proof.
  intros c w s ch L P H E. destruct (Device.PropsWait.C63_outcomes s ch L P) as (m & O & X). rewrite E in X.
  destruct X as [(_ & N & _ & R)|[(_ & _ & _ & _ & R)|[(_ & _ & _ & _ & R)|(-> & _ & _)]]]; try discriminate R.
  { injection R as R. destruct (N (eq_sym R)). }
  assert (T : forall k, 1 <= k <= 300 -> exists a b, expires_after c (call_at w k) (during w k) a b /\
    now (begins w k) + ticks c <= now (fst (run c (call_at w k) a)) /\ forall x n y, ~ pressed_after c (call_at w k) a x n y).
  { intros k B. pose proof (starts_idle c w s ch H k ltac:(lia) (open_less _ _ _ k O ltac:(lia))) as I. destruct H as (_ & H).
    destruct (H k ltac:(lia) (open_less _ _ _ k O ltac:(lia))) as ((o & X & R) & _). destruct (O k ltac:(lia)) as (F & _). rewrite F in R.
    destruct o; try discriminate R. destruct k as [|k]; [lia|]. exact (C72_timeout c _ _ _ I (delay_pos k) X). }
  split; [|exact T].
  assert (G : forall k, k <= 300 -> now (begins w 0) + k * ticks c <= now (fst (end_of c w k))).
  { induction k as [|k IH]; intros B.
    - cbn [Nat.mul]. rewrite Nat.add_0_r. exact (clock_run c (during w 0) (call_at w 0)).
    - specialize (IH ltac:(lia)). destruct (T (S k) ltac:(lia)) as (a & b & (D & _) & Q & _). destruct H as (_ & H).
      destruct (H k ltac:(lia) (open_less _ _ _ k O ltac:(lia))) as (_ & Z). pose proof (clock_between (between w k) (fst (end_of c w k))) as C1. rewrite <- Z in C1.
      assert (C2 : now (fst (run c (call_at w (S k)) a)) <= now (fst (end_of c w (S k)))).
      { unfold end_of. rewrite D, run_app. apply clock_run. }
      cbn [Nat.mul]. lia. }
  exact (G 300 (le_n 300)).
Qed.
Print Assumptions C72_whole.

(** The user touches the button in the third call: the first two time out. *)
Definition quiet_call : list item := go 7 ++ [Ev (Time 10); Ev Expire] ++ go 10.
Definition ex_course : wait_course :=
  mkCourse (fun k => match k with 0 | 1 => rest | 2 => fst (run device (wait_with_timeout 100 rest) quiet_call) | _ => fst (run device (wait_with_timeout 100 (fst (run device (wait_with_timeout 100 rest) quiet_call))) touch_course) end)
    (fun k => match k with 0 => [] | 1 => quiet_call | _ => touch_course end) (fun _ => []).
Definition ex_around : Device.Wait.surroundings :=
  Device.Wait.mkSur (fun k => (match k with 0 | 1 => Ctap.Machine.UpTimeout | _ => Ctap.Machine.UpConfirmed end, 0%N)) (fun _ => (Device.Wait.LSent, 0%N)).
Example C72_presence_nonvacuous : let ch := Ctap.Machine.MainHid [0; 0; 0; 1]%N in
  on_hardware device ex_course ex_around ch /\ Device.WaitSpec.packets_ok ex_around /\
  snd (Device.Wait.check_user_presence ex_around ch) = Some Ctap.Machine.UpConfirmed.
Proof.
  intros ch. split; [|split].
  - split; [exact rest_idle|]. intros k B O. destruct k as [|[|[|k]]].
    + split; [exists TimedOut; split; vm_compute; reflexivity|vm_compute; reflexivity].
    + split; [exists TimedOut; split; vm_compute; reflexivity|vm_compute; reflexivity].
    + split; [exists Confirmed; split; vm_compute; reflexivity|vm_compute; reflexivity].
    + destruct (O 2 ltac:(lia)) as (X & _). discriminate X.
  - intros n t p d X. discriminate X.
  - vm_compute. reflexivity.
Qed.
