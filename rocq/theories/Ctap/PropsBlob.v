(** Property theorems C40: the large blob array. *)
From Verif Require Import Base Facts Hid.Model U2f.Model Cbor.Model Ctap.Crypto Ctap.Types Ctap.Machine
  Ctap.Commands Ctap.Parse Ctap.System Ctap.Logic Ctap.History Ctap.Track Ctap.Pin Ctap.PinChange
  Ctap.TokenSpec Ctap.Token Ctap.Success Ctap.Auth Ctap.Gate Ctap.Answers Ctap.TokenUse Ctap.Reset Ctap.Keys
  Ctap.Protect Ctap.Blob Ctap.Toy Ctap.ToyMore Ctap.PropsToken.
From Coq Require Import String List Lia.
Import ListNotations.
Open Scope list_scope.

(** What can be read: any slice of the array, which reading does not change. *)
Theorem C40_read : forall e h b ch p n r w',
  parse_command (e_cfg e) b = Ok (CLargeBlobs p) -> lb_get p = Some n ->
  run_op e (OpMessage b ch) (run e h) = (OutCtap (Ok r), w') ->
  r = RLargeBlobs (Some (firstn (N.to_nat n) (skipn (N.to_nat (lb_offset p)) (blob_of (w_p (run e h)))))) /\
  w_p w' = w_p (run e h).
Proof.
  intros e h b ch p n r w' Hx Hg H.
  destruct (fido_of _ _ _ _ _ _ H _ Hx ltac:(discriminate)) as (cid & w1 & -> & Hp & Hf).
  destruct (preamble_p _ _ _ _ Hp) as (P1 & _). cbn [process_fido_command] in Hf. unfold process_large_blobs in Hf.
  rewrite Hg in Hf. apply bind_ok in Hf as (? & w2 & H1 & Hf). apply guard_ok in H1 as [_ ->].
  apply bind_ok in Hf as (sl & w3 & H1 & Hf). apply load_ok in H1 as (-> & P3 & _). apply ret_ok in Hf as [-> ->].
  rewrite P1 in *. auto.
Qed.
Print Assumptions C40_read.

(** Whatever happens, with power loss at any point: the array changes only by a reset, to the initial
    array, or as a fragment arrives that completes it: all bytes of the new array were received in
    order, as many as announced and no more than fit, its trailing hash is right, and the fragments
    were authorised if there is a PIN or user verification is always required. *)
Theorem C40_written : forall e h o k,
  let w := run e h in let w' := run e (h ++ [(o, k)]) in
  blob_of (w_p w') <> blob_of (w_p w) ->
  (is_reset e o /\ blob_of (w_p w') = EMPTY_LARGE_BLOB) \/
  exists p s n, fragment e o p s /\ fragment_allowed e w p s /\ completes e false h p s n (blob_of (w_p w')) /\
    (n <= c_max_blob (e_cfg e))%N /\ hash_valid (e_prims e) (blob_of (w_p w')).
Proof. intros e h o k. cbv zeta. rewrite run_app. apply array_changes. Qed.
Print Assumptions C40_written.

(** So at any time it is the initial array or one with a valid hash. *)
Theorem C40_valid : forall e h,
  blob_of (w_p (run e h)) = EMPTY_LARGE_BLOB \/ hash_valid (e_prims e) (blob_of (w_p (run e h))).
Proof. exact array_valid. Qed.
Print Assumptions C40_valid.

(** A fragment that is refused leaves the array as it was, unless the persistent store failed. *)
Theorem C40_refused : forall e h o p s x w',
  (forall i, e_fault e i = None) -> fragment e o p s ->
  run_op e o (run e h) = (OutCtap (Err x), w') -> w_p w' = w_p (run e h).
Proof. exact array_kept. Qed.
Print Assumptions C40_refused.

(** When the last fragment of an undisturbed transfer is accepted, the new array is stored. *)
Theorem C40_completed : forall e h o p s n new r w',
  fragment e o p s -> completes e true h p s n new ->
  run_op e o (run e h) = (OutCtap (Ok r), w') ->
  blob_of (w_p w') = new /\ hash_valid (e_prims e) new.
Proof. exact array_completed. Qed.
Print Assumptions C40_completed.

(** The amount received in an undisturbed transfer is at most what was announced, which is at most
    the maximum. *)
Theorem C40_buffered_partial : forall e h buf n,
  received e true h buf n -> (Nlen buf <= n <= c_max_blob (e_cfg e))%N.
Proof.
  intros e h buf n R. split; [exact (received_fits _ _ _ _ R) | exact (received_bound _ _ _ _ _ R)].
Qed.
Print Assumptions C40_buffered_partial.

(** ** Examples *)

Definition lb_msg (off : N) (len : option N) (s : bytes) (token : option bytes) : bytes :=
  message 12 ([(2, VBytes s); (3, VUnsigned off)] ++ match len with Some n => [(4, VUnsigned n)] | None => [] end ++
    with_auth 5 6 token (repeat 255 32 ++ [0x0C; 0] ++ rev (be_bytes 4 off) ++ sha256 toy_prims s))%N.
Definition lb_get_msg (off n : N) : bytes := message 12 [(1, VUnsigned n); (3, VUnsigned off)]%N.
Definition toy_content : bytes := repeat 9%N 20.
Definition toy_array : bytes := toy_content ++ firstn 16 (sha256 toy_prims toy_content).
Definition part1 : bytes := firstn 30 toy_array.
Definition part2 : bytes := skipn 30 toy_array.
Definition h_lbw : history := token_history 16 None.
Definition lb_token : option bytes := Some (client_token h_lbw).
Definition lb_first : op := OpMessage (lb_msg 0 (Some 36%N) part1 lb_token) ch0.
Definition lb_second : op := OpMessage (lb_msg 30 None part2 lb_token) ch0.
Definition h_part : history := h_lbw ++ [(lb_first, None)].
Definition readable (h : history) : outcome := answer h (lb_get_msg 0 100).

(** Two fragments with a token; then the array can be read.  Between them the old array stays.
    A wrong MAC, a wrong offset, a wrong hash and power loss are refused or change nothing. *)
Example C40_nonvacuous :
  readable h_part = OutCtap (Ok (RLargeBlobs (Some EMPTY_LARGE_BLOB))) /\
  readable (h_part ++ [(lb_second, None)]) = OutCtap (Ok (RLargeBlobs (Some toy_array))) /\
  readable (h_part ++ [(lb_second, Some 0%nat)]) = OutCtap (Ok (RLargeBlobs (Some toy_array))) /\
  readable (h_part ++ [(lb_second, Some 1%nat)]) = OutCtap (Ok (RLargeBlobs (Some EMPTY_LARGE_BLOB))) /\
  answer h_part (lb_msg 30 None part2 None) = OutCtap (Err PUAT_REQUIRED) /\
  answer h_part (lb_msg 30 None part2 (Some (repeat 0%N 32))) = OutCtap (Err PIN_AUTH_INVALID) /\
  answer h_part (lb_msg 29 None part2 lb_token) = OutCtap (Err INVALID_SEQ) /\
  answer h_part (lb_msg 30 None (repeat 0%N 6) lb_token) = OutCtap (Err INTEGRITY_FAILURE) /\
  answer h_part (lb_msg 30 None (part2 ++ [0%N]) lb_token) = OutCtap (Err INVALID_PARAMETER).
Proof. vm_compute. repeat (split; [reflexivity | ]). reflexivity. Qed.

Lemma toy_fragment off len s token p :
  parse_command toy_cfg (lb_msg off len s token) = Ok (CLargeBlobs p) -> lb_get p = None -> lb_set p = Some s ->
  fragment toy (OpMessage (lb_msg off len s token) ch0) p s.
Proof. intros. exists (lb_msg off len s token), [1; 2; 3; 4]%N. auto. Qed.
Lemma toy_accepted h m : is_ok (answer h m) = true -> accepted toy (run toy h) (OpMessage m ch0).
Proof.
  unfold accepted, answer. destruct (run_op toy (OpMessage m ch0) (run toy h)) as [o w']. cbn [fst].
  destruct o as [[r | s] | | ]; try discriminate. eauto.
Qed.

Lemma write_allowed e h b ch p s :
  parse_command (e_cfg e) b = Ok (CLargeBlobs p) -> lb_get p = None -> lb_set p = Some s ->
  accepted e (run e h) (OpMessage b ch) -> fragment_allowed e (run e h) p s.
Proof. intros Hx Hg Hs (r & w' & H). exact (C25_large_blob_write e h b ch r w' p s Hx Hg Hs H). Qed.

(** The hypotheses of [C40_completed]: the first fragment was received. *)
Definition part1_sig : bytes :=
  authenticate toy_prims V1 (or_nil lb_token)
    (repeat 255 32 ++ [0x0C; 0] ++ rev (be_bytes 4 0) ++ sha256 toy_prims part1)%N.
Definition part1_params : lb_params := mkLb None (Some part1) 0 (Some 36%N) (Some part1_sig) (Some V1).
Example C40_received_nonvacuous : received toy true h_part part1 36.
Proof.
  apply (received_first toy true h_lbw lb_first part1_params part1 36).
  - apply toy_fragment; vm_compute; reflexivity.
  - reflexivity.
  - reflexivity.
  - apply toy_accepted. vm_compute. reflexivity.
  - assert (A : is_ok (answer h_lbw (lb_msg 0 (Some 36%N) part1 lb_token)) = true) by (vm_compute; reflexivity).
    apply toy_accepted in A. apply (write_allowed _ _ _ _ _ _) with (4 := A).
    + vm_compute. reflexivity.
    + reflexivity.
    + reflexivity.
Qed.

(** The amount that the device has accepted and holds can exceed the announced length and the maximum:
    a refused message to offset 0 with a length that is too large leaves that length behind, and the
    transfer then goes on up to it.  On a device without PIN nobody needs a token for this. *)
Definition big1 : op := OpMessage (lb_msg 0 (Some 1024%N) (repeat 0%N 960) None) ch0.
Definition big2 : op := OpMessage (lb_msg 0 (Some 2000%N) [] None) ch0.
Definition big3 : op := OpMessage (lb_msg 960 None (repeat 0%N 960) None) ch0.
Theorem C40_buffered_refuted : exists e h buf n,
  cfg_ok (e_cfg e) /\ (forall i, e_fault e i = None) /\ received e false h buf n /\
  Nlen buf = 1920%N /\ n = 1024%N /\ c_max_blob (e_cfg e) = 1024%N.
Proof.
  exists toy, [(big1, None); (big2, None); (big3, None)], (repeat 0%N 960 ++ repeat 0%N 960), 1024%N.
  split; [exact toy_cfg_ok | ]. split; [reflexivity | ].
  split; [ | split; [reflexivity | split; reflexivity]].
  apply (received_next toy false [(big1, None); (big2, None)] big3 (mkLb None (Some (repeat 0%N 960)) 960 None None None)).
  - apply (received_other toy false [(big1, None)] big2).
    + apply (received_first toy false [] big1 (mkLb None (Some (repeat 0%N 960)) 0 (Some 1024%N) None None)).
      * apply toy_fragment; vm_compute; reflexivity.
      * reflexivity.
      * reflexivity.
      * apply toy_accepted. vm_compute. reflexivity.
      * left. split; vm_compute; reflexivity.
    + intros (p & s & _ & [(r & w' & H) | [H _]]); [ | discriminate]. apply (f_equal fst) in H. cbn [fst] in H.
      assert (X : fst (run_op toy big2 (run toy [(big1, None)])) = OutCtap (Err LARGE_BLOB_STORAGE_FULL)) by (vm_compute; reflexivity).
      rewrite X in H. discriminate.
  - apply toy_fragment; vm_compute; reflexivity.
  - reflexivity.
  - discriminate.
  - apply toy_accepted. vm_compute. reflexivity.
  - left. split; vm_compute; reflexivity.
Qed.
Print Assumptions C40_buffered_refuted.
