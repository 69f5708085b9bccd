(** The touch: every call ends. *)
From Verif Require Import Base.
From Verif Require Import Touch.Model Touch.Spec Touch.Proofs.
Local Open Scope nat_scope.

(** How many steps are left at most, apart from the upcalls to deliver. *)
Definition rank (c : config) (l : place) : nat :=
  match l with
  | Count => 2 * buttons c + 11
  | Enable n => (buttons c - n) + buttons c + 10
  | Register => buttons c + 9
  | Init => buttons c + 8
  | Subscribe => buttons c + 7
  | SetAlarm => buttons c + 6
  | Wait => buttons c + 5
  | Unregister => buttons c + 4
  | Disable n => (buttons c - n) + 3
  | Unsubscribe => 2
  | Stop => 1
  | Over _ => 0
  end.
Definition left_steps (c : config) (s : state) : nat :=
  match place_of (snd s) with Over _ => 0 | l => rank c l + length (queue (fst s)) end.

(** Something is there to end the wait. *)
Definition awake (s : state) : Prop :=
  match place_of (snd s) with
  | Count | Enable _ | Register => False
  | Init | Subscribe | SetAlarm => touch_in (queue (fst s))
  | Wait => touched (snd s) = true \/ expired (snd s) = true \/ touch_in (queue (fst s)) \/ In UAlarm (queue (fst s))
  | _ => True
  end.

Lemma filter_le {A} (f : A -> bool) l : length (filter f l) <= length l.
Proof. induction l as [|x l IH]; cbn; [lia|]. destruct (f x); cbn; lia. Qed.

Lemma happen_queue e k : exists q, queue (happen e k) = queue k ++ q /\ length q <= 1.
Proof.
  destruct e as [n|n|d|]; cbn.
  1,2: unfold button_event; destruct (buttons_sub k && enabled k n); cbn; [eexists; split; [reflexivity|cbn; lia]|exists []; split; [rewrite app_nil_r; reflexivity|cbn; lia]].
  - exists []. split; [rewrite app_nil_r; reflexivity|cbn; lia].
  - destruct (alarm k) as [t|]; [destruct (t <=? now k); [destruct (alarm_sub k)|]|]; cbn;
      try (exists []; split; [rewrite app_nil_r; reflexivity|cbn; lia]). eexists; split; [reflexivity|cbn; lia].
Qed.

Lemma awake_event c s e : awake s -> awake (step c s (Ev e)) /\ left_steps c (step c s (Ev e)) <= S (left_steps c s).
Proof.
  destruct s as [k p]. unfold awake, left_steps. cbn [step fst snd]. destruct (happen_queue e k) as (q & -> & L). rewrite app_length.
  intros A. split.
  - destruct (place_of p) as [|m| | | | | | |m| | |[]]; auto using touch_in_app. destruct A as [A|[A|[A|A]]]; auto using touch_in_app.
    right. right. right. apply in_app_iff. auto.
  - destruct (place_of p) as [|m| | | | | | |m| | |[]]; lia.
Qed.

Lemma awake_run c s : awake s -> awake (step c s (Run true)) /\ (left_steps c (step c s (Run true)) <= pred (left_steps c s)).
Proof.
  destruct s as [k [l tc ex]]. intros A. unfold awake, left_steps, step in *. cbn [proceed place_of fst snd touched expired] in *.
  destruct l as [|m| | | | | | |m| | |o]; cbn [place_of fst snd touched expired] in *; try (destruct A; fail).
  - cbn. split; [exact A|lia].
  - cbn. split; [apply touch_filter, A|]. pose proof (filter_le is_button (queue k)). lia.
  - cbn. split; [auto|lia].
  - destruct (tc || ex) eqn:TE; [cbn; split; [auto|lia]|]. apply orb_false_iff in TE. destruct TE as (-> & ->).
    destruct (queue k) as [|u q]; [destruct A as [A|[A|[(n & [])|[]]]]; discriminate|].
    destruct u as [n [|]|]; cbn.
    + split; [auto|lia].
    + split; [|lia]. destruct A as [A|[A|[(m & [A|A])|[A|A]]]]; try discriminate; auto. right. right. left. exists m. exact A.
    + split; [auto|lia].
  - cbn. split; [auto|]. pose proof (filter_le (fun u => negb (is_button u)) (queue k)). cbn in *. lia.
  - destruct (m <? buttons c) eqn:LT; cbn; (split; [auto|]); [apply Nat.ltb_lt in LT|]; lia.
  - cbn. split; [auto|]. pose proof (filter_le is_button (queue k)). lia.
  - destruct (alarm k); [|destruct ex]; cbn; (split; [auto|lia]).
  - cbn. split; [exact A|lia].
Qed.

Lemma over_stays c s i : over s -> over (step c s i).
Proof. destruct s as [k p]. intros (o & H). cbn in H. exists o. destruct i as [e|ok]; cbn; [exact H|]. rewrite H. exact H. Qed.
Lemma over_run c b : forall s, over s -> over (run c s b).
Proof. induction b as [|i b IH]; intros s H; [exact H|]. apply (IH (step c s i)), over_stays, H. Qed.

Lemma progress c b : forall s, awake s -> no_failure b -> left_steps c s + events b <= steps b -> over (run c s b).
Proof.
  induction b as [|i b IH]; intros s A N L.
  - cbn in *. unfold left_steps in L. unfold over. cbn. destruct (place_of (snd s)) as [|m| | | | | | |m| | |o]; cbn [rank] in L; try lia. exists o. reflexivity.
  - assert (N' : no_failure b) by (intros X; apply N; right; exact X).
    change (run c s (i :: b)) with (run c (step c s i) b). destruct i as [e|[|]].
    + destruct (awake_event c s e A) as (A' & L'). apply IH; auto. unfold events, steps in *. cbn in L. lia.
    + destruct (awake_run c s A) as (A' & L'). destruct (left_steps c s) as [|m] eqn:Z.
      * apply over_run, over_stays. unfold left_steps in Z. destruct (place_of (snd s)) as [|j| | | | | | |j| | |o] eqn:PL; cbn [rank] in Z; try lia.
        exists o. exact PL.
      * apply IH; auto. unfold events, steps in *. cbn [filter length] in L. cbn [pred] in L'. lia.
    + destruct N. left. reflexivity.
Qed.

Lemma queue_proceed c ok s : length (queue (fst (proceed c ok s))) <= length (queue (fst s)).
Proof.
  destruct s as [k [l tc ex]]. pose proof (filter_le is_button (queue k)). pose proof (filter_le (fun u => negb (is_button u)) (queue k)).
  pose proof (filter_le is_button (filter (fun u => negb (is_button u)) (queue k))).
  cbn [proceed place_of touched expired]. destruct l as [|m| | | | | | |m| | |o]; cbn [fst].
  all: repeat match goal with |- context [if ?b then _ else _] => destruct b end.
  all: try (cbn; lia).
  all: destruct (queue k) as [|u q] eqn:QK; cbn in *; rewrite ?QK; cbn in *; try lia.
Qed.

Lemma queue_events c s a : length (queue (fst (run c s a))) <= length (queue (fst s)) + events a.
Proof.
  induction a as [|i a IH] using rev_ind; [cbn; lia|]. rewrite run_snoc. unfold events in *. rewrite filter_app, app_length.
  destruct i as [e|ok]; cbn [filter length].
  - cbn [step fst]. destruct (happen_queue e (fst (run c s a))) as (q & -> & L). rewrite app_length. lia.
  - cbn [step]. pose proof (queue_proceed c ok (run c s a)). lia.
Qed.

Lemma left_bound c s a : queue (fst s) = [] ->
  left_steps c (run c s a) <= 2 * buttons c + 11 + events a.
Proof.
  intros Q. pose proof (queue_events c s a) as L. rewrite Q in L. cbn in L. unfold left_steps.
  destruct (place_of (snd (run c s a))) as [|m| | | | | | |m| | |o] eqn:PL; cbn [rank]; lia.
Qed.

(** Which buttons are reported. *)
Definition reports (c : config) (s : state) : Prop :=
  match place_of (snd s) with
  | Enable m => forall j, j < m -> enabled (fst s) j = true
  | Register | Init | Subscribe | SetAlarm | Wait | Unregister => forall j, j < buttons c -> enabled (fst s) j = true
  | Disable _ | Unsubscribe | Stop => buttons_sub (fst s) = false
  | _ => True
  end /\ (buttons_sub (fst s) = true -> forall j, j < buttons c -> enabled (fst s) j = true).

Lemma happen_same e k : enabled (happen e k) = enabled k /\ buttons_sub (happen e k) = buttons_sub k.
Proof.
  destruct e as [n|n|d|]; cbn; auto.
  1,2: unfold button_event; destruct (buttons_sub k && enabled k n); auto.
  destruct (alarm k) as [t|]; [destruct (t <=? now k); [destruct (alarm_sub k)|]|]; auto.
Qed.

Lemma reports_step c s i : reports c s -> reports c (step c s i).
Proof.
  destruct s as [k [l tc ex]]. unfold reports. destruct i as [e|ok]; cbn [step fst snd].
  - destruct (happen_same e k) as (-> & ->). auto.
  - cbn [proceed place_of touched expired]. intros (A & B).
    destruct l as [|m| | | | | | |m| | |o]; cbn [place_of fst snd touched expired] in *.
    + destruct ok; cbn; (split; [try (intros; lia); auto|exact B]).
    + destruct (m <? buttons c) eqn:LT; [destruct ok|]; cbn; (split; [|]); auto.
      * intros j H. destruct (j =? m) eqn:EQ; [reflexivity|]. apply Nat.eqb_neq in EQ. apply A. lia.
      * intros H j L. destruct (j =? m); auto.
      * apply Nat.ltb_ge in LT. intros j H. apply A. lia.
    + destruct ok; cbn; auto.
    + destruct ok; cbn; auto.
    + destruct ok; cbn; auto; (split; [auto|discriminate]).
    + destruct ok; cbn; auto.
    + destruct (tc || ex); [cbn; auto|]. destruct (queue k) as [|u q]; [cbn; auto|]. destruct u as [n [|]|]; cbn; auto.
    + cbn. split; [auto|discriminate].
    + destruct (m <? buttons c); [destruct ok|]; cbn; auto; (split; [auto|congruence]).
    + cbn. auto.
    + destruct ok; cbn; auto. destruct (alarm k); [|destruct ex]; cbn; auto; (split; [auto|discriminate]).
    + cbn. auto.
Qed.

Lemma reports_run c l : forall s, reports c s -> reports c (run c s l).
Proof. induction l as [|i l IH]; intros s H; [exact H|]. apply (IH (step c s i)), reports_step, H. Qed.
