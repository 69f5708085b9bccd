(** Property theorems C22-C24 and C26 about the PIN. *)
From Verif Require Import Base Facts Hid.Model U2f.Model Cbor.Model Ctap.Crypto Ctap.Types Ctap.Machine
  Ctap.Commands Ctap.Parse Ctap.System Ctap.Logic Ctap.History Ctap.PinSpec Ctap.Pin Ctap.Track
  Ctap.PinChange Ctap.MinPin Ctap.Events Ctap.Toy.
From Coq Require Import String List Lia.
Import ListNotations.
Open Scope list_scope.

(** ** C22 *)

(** In every history of the device - any messages on any interface, failures of the store, power
    loss at any point, restarts - every stretch of its trace without a successful PIN entry and
    without a change of the stored PIN contains at most [c_max_retries] comparisons of a candidate
    with the stored PIN. *)
Theorem C22_guesses_bounded : forall e h t1 t2 t3,
  trace e h = t1 ++ t2 ++ t3 -> pin_quiet (p_pin (stored t1)) t2 ->
  (N.of_nat (compares t2) <= c_max_retries (e_cfg e))%N.
Proof. exact guesses_bounded. Qed.
Print Assumptions C22_guesses_bounded.

(** At zero retries no operation compares anything. *)
Theorem C22_zero_retries : forall e o w,
  retries_of e (w_p w) = 0%N ->
  compares (w_log (snd (run_op e o w))) = compares (w_log w).
Proof. intros e o w H. apply only_compares. now apply zero_retries_no_compare. Qed.
Print Assumptions C22_zero_retries.

Definition wrong_msg : bytes := get_token_msg (str "4321").
(** The PIN is set; then two wrong guesses, the second interrupted by power loss right after the
    comparison, and six more in three power cycles: the bound is reached. *)
Definition guess_history : list (op * option nat) :=
  [on (set_pin_msg toy_pin); on wrong_msg; (OpMessage wrong_msg ch0, Some 0%nat)] ++
  [on wrong_msg; on wrong_msg; on wrong_msg; (OpTick 1, Some 0%nat)] ++
  [on wrong_msg; on wrong_msg; on wrong_msg; on wrong_msg].
Example C22_guesses_bounded_nonvacuous :
  exists t1 t2 t3, trace toy guess_history = t1 ++ t2 ++ t3 /\
    pin_quiet (p_pin (stored t1)) t2 /\ p_pin (stored t1) <> None /\ compares t2 = 8%nat /\
    In (LEv EvBoot) t2.
Proof.
  exists (firstn 4 (trace toy guess_history)), (skipn 4 (trace toy guess_history)), [].
  split; [now rewrite app_nil_r, firstn_skipn | ].
  split; [vm_compute; repeat (constructor; [reflexivity || exact Logic.I | ]); constructor | ].
  split; [vm_compute; discriminate | ].
  split; [vm_compute; reflexivity | vm_compute; tauto].
Qed.
Example C22_zero_retries_nonvacuous :
  retries_of toy (w_p (run toy guess_history)) = 0%N /\
  fst (run_op toy (OpMessage (get_token_msg toy_pin) ch0) (run toy guess_history))
    = OutCtap (Err PIN_BLOCKED).
Proof. vm_compute. split; reflexivity. Qed.

(** ** C23 *)

(** Within one power cycle, if no operation of the persistent store fails, at most three wrong
    candidates are compared in a row.  Missing from the full property: the claim with a failing store
    and the claim about retries, which the two refutations below show to be false of the code. *)
Theorem C23_mismatches_per_cycle_partial : forall e h t1 t2 t3,
  nofault e -> trace e h = t1 ++ t2 ++ t3 -> one_cycle t2 ->
  pin_quiet (p_pin (stored t1)) t2 -> (compares t2 <= 3)%nat.
Proof. exact mismatches_bounded. Qed.
Print Assumptions C23_mismatches_per_cycle_partial.

Definition three_wrong : list (op * option nat) :=
  [on (set_pin_msg toy_pin); on wrong_msg; on wrong_msg; on wrong_msg; on (get_token_msg toy_pin)].
Example C23_mismatches_per_cycle_partial_nonvacuous :
  nofault toy /\ exists t1 t2, trace toy three_wrong = t1 ++ t2 ++ [] /\ one_cycle t2 /\
    pin_quiet (p_pin (stored t1)) t2 /\ p_pin (stored t1) <> None /\ compares t2 = 3%nat /\
    fst (run_op toy (OpMessage (get_token_msg toy_pin) ch0) (run toy three_wrong))
      = OutCtap (Err PIN_AUTH_BLOCKED).
Proof.
  split; [intro; reflexivity | ].
  exists (firstn 4 (trace toy three_wrong)), (skipn 4 (trace toy three_wrong)).
  split; [now rewrite app_nil_r, firstn_skipn | ].
  split; [vm_compute; intuition discriminate | ].
  split; [vm_compute; repeat (constructor; [reflexivity || exact Logic.I | ]); constructor | ].
  split; [vm_compute; discriminate | ].
  split; vm_compute; reflexivity.
Qed.

(** Finding: requests with a pinHashEnc that does not decrypt cost a retry but are not counted as
    mismatches, so one power cycle can consume all retries and block the PIN for good. *)
Theorem C23_retries_per_cycle_refuted :
  exists e h, cfg_ok (e_cfg e) /\ prims_ok (e_prims e) /\ nofault e /\
    one_cycle (tl (trace e h)) /\ p_pin (w_p (run e h)) <> None /\
    retries_of e (w_p (run e h)) = 0%N.
Proof.
  exists toy, (on (set_pin_msg toy_pin) :: repeat (on malformed_token_msg) 8).
  split; [exact toy_cfg_ok | ]. split; [exact toy_prims_ok | ].
  split; [intro; reflexivity | ].
  split; [vm_compute; intuition discriminate | ].
  split; [vm_compute; discriminate | vm_compute; reflexivity].
Qed.
Print Assumptions C23_retries_per_cycle_refuted.

(** Finding: if the store fails to answer right after a wrong guess was compared, the guess is not
    counted as a mismatch; the bound of three needs a working store. *)
Definition five_wrong : list (op * option nat) := on (set_pin_msg toy_pin) :: repeat (on wrong_msg) 5.
Definition read_faults : env :=
  toy_faulty (fun i => if existsb (Nat.eqb i) [8; 13; 18; 23; 28]%nat then Some (FStorageError, false) else None).
Theorem C23_store_faults_refuted :
  exists e h t1 t2, cfg_ok (e_cfg e) /\ prims_ok (e_prims e) /\ trace e h = t1 ++ t2 /\ one_cycle t2 /\
    pin_quiet (p_pin (stored t1)) t2 /\ compares t2 = 5%nat.
Proof.
  exists read_faults, five_wrong, (firstn 4 (trace read_faults five_wrong)),
    (skipn 4 (trace read_faults five_wrong)).
  split; [exact toy_cfg_ok | ]. split; [exact toy_prims_ok | ].
  split; [now rewrite firstn_skipn | ].
  split; [vm_compute; intuition discriminate | ].
  split; [vm_compute; repeat (constructor; [reflexivity || exact Logic.I | ]); constructor | ].
  vm_compute; reflexivity.
Qed.
Print Assumptions C23_store_faults_refuted.

(** ** C24 *)

(** Every write of an operation, at whatever point power may be lost after it, that leaves a PIN
    other than the one before the operation, belongs to a CTAP2 message on the main interface that
    is a reset with user presence and leaves no PIN; or that sets a first PIN; or that changes the
    PIN after a candidate matched it.  The new PIN is long enough and at most 63 bytes long. *)
Theorem C24_pin_changes : forall e o w l1 p l2,
  w_log (snd (run_op e o w)) = l1 ++ LWrite p :: l2 ++ w_log w -> p_pin p <> p_pin (w_p w) ->
  exists b cid, o = OpMessage b (MainHid cid) /\
    ((parse_command (e_cfg e) b = Ok CReset /\ p_pin p = None /\ In (LEv EvPresence) l2) \/
     exists q pin, parse_command (e_cfg e) b = Ok (CClientPin q) /\
       p_pin p = Some (firstn 16 (sha256 (e_prims e) pin), code_points pin) /\
       (minlen_of e (w_p w) <= code_points pin)%N /\ (length pin <= 63)%nat /\
       (pi_sub q = PsSetPin /\ p_pin (w_p w) = None \/
        pi_sub q = PsChangePin /\ In (LEv (EvCompare true)) l2)).
Proof. exact pin_changes. Qed.
Print Assumptions C24_pin_changes.

(** Setting and changing the PIN both occur. *)
Example C24_pin_changes_nonvacuous :
  p_pin (w_p (run toy [on (set_pin_msg toy_pin)])) = Some (pin_hash16 toy_pin, 4%N) /\
  p_pin (w_p (run toy [on (set_pin_msg toy_pin); on (change_pin_msg toy_pin (str "567890"))]))
    = Some (pin_hash16 (str "567890"), 6%N).
Proof. vm_compute. split; reflexivity. Qed.

(** ** C26 *)

(** No write of an operation lowers the minimum PIN length, unless the operation is a reset. *)
Theorem C26_minimum_grows : forall e o w l1 p l2,
  w_log (snd (run_op e o w)) = l1 ++ LWrite p :: l2 ++ w_log w ->
  (minlen_of e (w_p w) <= minlen_of e p)%N \/
  exists b cid, o = OpMessage b cid /\ parse_command (e_cfg e) b = Ok CReset.
Proof. exact min_pin_monotone. Qed.
Print Assumptions C26_minimum_grows.

(** After any history, if the stored PIN is shorter than the minimum in force, no operation issues
    a token. *)
Theorem C26_short_pin_no_token : forall e h hash n o l,
  p_pin (w_p (run e h)) = Some (hash, n) -> (n < minlen_of e (w_p (run e h)))%N ->
  w_log (snd (run_op e o (run e h))) = l ++ w_log (run e h) ->
  forall t tok1 tok2, ~ In (LEv (EvIssue t tok1 tok2)) l.
Proof.
  intros e h hash n o l Hp Hn E. eapply forced_no_issue; [ | exact E].
  eapply (short_pin_marked e h); eassumption.
Qed.
Print Assumptions C26_short_pin_no_token.

(** Raising the minimum to 6 with a token of permission authenticatorConfiguration, by a client
    that decrypts the token it received. *)
Definition min_pin_msg (n : N) (token : bytes) : bytes :=
  let d := mkMinPin (Some n) None None in
  let m := repeat 255%N 32 ++ [0x0D%N; 3%N] ++ or_nil (cbor_write (minpin_to_cbor d)) in
  message 13 [(1, VUnsigned 3); (2, minpin_to_cbor d); (3, VUnsigned 1);
              (4, VBytes (authenticate toy_prims V1 token m))]%N.
Definition toy_token (h : list (op * option nat)) : bytes := pp_token (v_proto1 (w_v (run toy h))).
Definition before_raise : list (op * option nat) :=
  [on (set_pin_msg toy_pin); on (token_perms_msg toy_pin 32%N None)].
Definition raise_history : list (op * option nat) :=
  before_raise ++ [on (min_pin_msg 6 (toy_token before_raise))].
Example C26_nonvacuous :
  minlen_of toy (w_p (run toy raise_history)) = 6%N /\
  p_pin (w_p (run toy raise_history)) = Some (pin_hash16 toy_pin, 4%N) /\
  fst (run_op toy (OpMessage (get_token_msg toy_pin) ch0) (run toy raise_history))
    = OutCtap (Err PIN_INVALID) /\
  compares (w_log (snd (run_op toy (OpMessage (get_token_msg toy_pin) ch0) (run toy raise_history))))
    = S (compares (w_log (run toy raise_history))).
Proof. vm_compute. repeat split; reflexivity. Qed.
