(** Property theorems of the U2F front end. *)
From Verif Require Import Base Facts.
From Verif.Hid Require Import Model.
From Verif.U2f Require Import Model Spec Proofs.

(** C41: every ISO command APDU except case 2E is parsed to its header, data and Ne. *)
Theorem C41_iso_accepted : forall f h d ne,
  iso_apdu f h d ne -> ~ is_case_2E f ->
  exists ty, apdu_parse f = Ok (mkApdu h (Nlen d) d ne ty).
Proof. exact parse_iso. Qed.

(** C41: whatever is accepted is either ISO with that meaning, or one of the four lenient
    forms of [lenient_apdu]; the length field always equals the data length. *)
Theorem C41_accepted_only : forall f a,
  bytes_ok f = true -> apdu_parse f = Ok a ->
  a_lc a = Nlen (a_data a) /\
  (iso_apdu f (a_header a) (a_data a) (a_le a) \/
   lenient_apdu f (a_header a) (a_data a) (a_le a)).
Proof. exact parse_sound. Qed.

(** C41: no input panics, neither in the APDU parser nor in the U2F request parser. *)
Theorem C41_no_panic : forall f,
  bytes_ok f = true -> apdu_parse f <> Err SW_PANIC /\ u2f_parse f <> Err SW_PANIC.
Proof. intros f H. split; [apply parse_no_panic|apply u2f_no_panic]; exact H. Qed.

(** C41 is false as stated for case 2E: a well-formed APDU with an extended Le and no data is
    rejected whenever Le is not zero, and when it is zero the expected length is lost. *)
Theorem C41_case_2E_refuted :
  (forall h le, (1 <= le <= 65535)%N ->
     apdu_parse (header_bytes h ++ [0%N] ++ be_bytes 2 le) = Err SW_WRONG_LENGTH) /\
  (exists f h d ne a, iso_apdu f h d ne /\ apdu_parse f = Ok a /\ a_le a <> ne).
Proof.
  split; [exact parse_2E|].
  exists (header_bytes (mkHeader 0 3 0 0) ++ [0%N] ++ be_bytes 2 0), (mkHeader 0 3 0 0), [], 65536%N.
  eexists. split; [exact (iso_2E (mkHeader 0 3 0 0) 0 ltac:(lia))|].
  split; [vm_compute; reflexivity|]. cbn. discriminate.
Qed.

(** C41, U2F level: a message is understood as a U2F command exactly when its APDU header and
    data have the U2F raw message format of that command. *)
Theorem C41_u2f_exact : forall m c,
  bytes_ok m = true ->
  (u2f_parse m = Ok c <->
   exists a, apdu_parse m = Ok a /\ u2f_message (a_header a) (a_data a) c).
Proof.
  intros m c Hok. split; [apply u2f_parse_sound; assumption|].
  intros (a & Ea & Hm). eapply u2f_parse_complete; eassumption.
Qed.

Example C41_nonvacuous :
  let d := repeat 7%N 300 in
  iso_apdu (header_bytes (mkHeader 0 1 2 3) ++ [0%N] ++ be_bytes 2 (Nlen d) ++ d ++ be_bytes 2 0)
           (mkHeader 0 1 2 3) d 65536 /\
  is_ok (apdu_parse (header_bytes (mkHeader 0 1 2 3) ++ [0%N] ++ be_bytes 2 (Nlen d) ++ d ++ be_bytes 2 0)) = true.
Proof. split; [apply (iso_4E (mkHeader 0 1 2 3) (repeat 7%N 300) 0); vm_compute; intuition discriminate|vm_compute; reflexivity]. Qed.

(** C42: a request is let through only because of a touch less than 30 s ago that no other
    request has used since, and that touch was made less than 10 s after a refused request,
    with no other touch in between. *)
Theorem C42_touch : forall h t,
  times_ok (h ++ [(t, Request)]) ->
  request_granted h t = true ->
  exists a tr b tt c,
    h = a ++ (tr, Request) :: b ++ (tt, Touch) :: c /\
    request_granted a tr = false /\ no_touch b /\
    (tr <= tt < tr + 10000)%N /\ (tt <= t < tt + 30000)%N /\
    none_granted (a ++ (tr, Request) :: b ++ [(tt, Touch)]) c.
Proof.
  intros h t Ht Hg. destruct (touch_provenance h t Hg) as (a & tr & b & tt & c & Eh & Hr & Hb & H1 & H2 & Hc).
  unfold U2F_UP_PROMPT_TIMEOUT_MS, TOUCH_TIMEOUT_MS in *.
  exists a, tr, b, tt, c. split; [exact Eh|]. split; [exact Hr|].
  apply times_ok_app in Ht as (Hh & _ & Hl).
  rewrite Eh in Hh. apply times_ok_app in Hh as (_ & [Hr1 Hr2] & _).
  apply times_ok_app in Hr2 as (_ & [Htt _] & Hbt).
  assert (H3 : (tr <= tt)%N) by (apply (Hr1 (tt, Touch)), in_or_app; right; left; reflexivity).
  assert (H4 : (tt <= t)%N).
  { apply (Hl (tt, Touch) (t, Request)); [|left; reflexivity].
    rewrite Eh. apply in_or_app. right. right. apply in_or_app. right. left. reflexivity. }
  split.
  { intros t' Hin. specialize (Hb t' Hin). specialize (Hbt (t', Touch) (tt, Touch) Hin (or_introl eq_refl)).
    cbn [fst] in Hbt. lia. }
  split; [lia|]. split; [lia|]. exact Hc.
Qed.

(** C42, other direction: the prompt, touch, request sequence within the limits does succeed. *)
Theorem C42_works : forall h tr tt t,
  request_granted h tr = false ->
  (tr <= tt < tr + 10000)%N -> (tt <= t < tt + 30000)%N ->
  request_granted (h ++ [(tr, Request); (tt, Touch)]) t = true.
Proof.
  intros h tr tt t Hr H1 H2. unfold request_granted in *. rewrite up_run_app.
  set (s := fst (up_run up_init h)) in *. cbn [up_run up_step fst snd].
  unfold consume_up in Hr |- *. unfold is_elapsed in *.
  destruct (N.leb_spec (has_up s) tr); cbn [negb fst] in Hr; [|discriminate]. cbn [negb fst].
  unfold grant_up, is_elapsed, make_timer, U2F_UP_PROMPT_TIMEOUT_MS, TOUCH_TIMEOUT_MS. cbn [needs_up has_up].
  destruct (N.leb_spec (tr + 10000) tt); [lia|]. cbn [negb has_up].
  destruct (N.leb_spec (tt + 30000) t); [lia|]. reflexivity.
Qed.

Example C42_nonvacuous :
  request_granted [(5, Request); (100, Touch)]%N 200 = true /\
  request_granted [(5, Request); (100, Touch); (200, Request)]%N 300 = false.
Proof. split; vm_compute; reflexivity. Qed.

Print Assumptions C41_iso_accepted.
Print Assumptions C41_accepted_only.
Print Assumptions C41_no_panic.
Print Assumptions C41_case_2E_refuted.
Print Assumptions C41_u2f_exact.
Print Assumptions C42_touch.
Print Assumptions C42_works.
