(** Property theorem C80: a credential on the device can be deleted. *)
From Verif Require Import Base Facts Hid.Model U2f.Model Cbor.Model Ctap.Crypto Ctap.Types Ctap.Machine
  Ctap.Commands Ctap.Parse Ctap.System Ctap.Logic Ctap.History Ctap.Track Ctap.Pin Ctap.PinChange Ctap.Success
  Ctap.Answers Ctap.Creds Ctap.Enumerate Ctap.Toy Ctap.ToyMore Ctap.PropsEnum Ctap.PropsToken Ctap.PropsCreds
  Ctap.Owner Ctap.Works Ctap.PropsWorks Ctap.DeleteWorks.
From Coq Require Import String List Lia.
Import ListNotations.
Open Scope list_scope.

(** After any history, a deletion of the one stored credential with an ID is answered if it carries
    the MAC of the subcommand and its parameters under a token in force with the permission for
    credential management, for the RP of the credential or for none. Then this credential is gone
    and every other one stays. *)
Theorem C80_delete : forall e h b cid p d x body mac k c,
  let w := run e h in
  nofault e -> prims_ok (e_prims e) ->
  parse_command (e_cfg e) b = Ok (CCredMgmt p) -> cm_sub_ p = CmDelete ->
  cm_data_ p = Some d -> cd_cred d = Some x -> cbor_write (cm_data_to_cbor d) = Some body ->
  filter (fun y => bytes_eqb (cr_id (snd y)) (de_id x)) (creds w) = [(k, c)] ->
  cm_auth p = Some mac -> permitted e w 4 (6%N :: body) (Some mac) (cm_proto p) (cr_rp c) false ->
  exists w', run_op e (OpMessage b (MainHid cid)) w = (OutCtap (Ok (RCredMgmt None)), w') /\
    creds w' = filter (fun y => negb (bytes_eqb (cr_id (snd y)) (de_id x))) (creds w).
Proof.
  intros e h b cid p d x body mac k c w NF K Hx Sb D X Wr F Au Pm.
  apply permitted_acts in Pm as [Ma El].
  destruct (preamble_allows e (CCredMgmt p) cid w _ _ _ _ _ _ Ma El) as (w1 & E1 & P1 & _ & Ma1).
  destruct (x_delete e NF K p (MainHid cid) d x body k c w1 Sb D X Wr ltac:(now rewrite P1) mac Au Ma1) as (r & w2 & E2 & ->).
  assert (H : run_op e (OpMessage b (MainHid cid)) w = (OutCtap (Ok (RCredMgmt None)), w2)).
  { cbn [run_op]. unfold process_command. unfold bind at 1, lift at 1. rewrite Hx, split_message. unfold bind at 1.
    rewrite E1. cbn [process_fido_command]. now rewrite E2. }
  exists w2. split; [exact H | ].
  destruct (C28_delete e h b cid p _ w2 Hx Sb H) as (id & k' & c' & N & _ & R).
  unfold named_credential in N. rewrite D, X in N. injection N as <-. exact R.
Qed.
Print Assumptions C80_delete.

Definition cm_of (b : bytes) : option cm_params :=
  match parse_command toy_cfg b with Ok (CCredMgmt p) => Some p | _ => None end.
(** Two credentials are stored; the first is deleted. *)
Example C80_delete_nonvacuous :
  let h := h_two ++ [on (token_perms_msg toy_pin 4 None)] in
  let id := match creds (run toy h) with x :: _ => cr_id (snd x) | [] => [] end in
  exists p d x body mac k c, cm_of (cm_msg 6 (Some (delete_data id)) (Some (client_token h))) = Some p /\ cm_sub_ p = CmDelete /\
    cm_data_ p = Some d /\ cd_cred d = Some x /\ cbor_write (cm_data_to_cbor d) = Some body /\
    filter (fun y => bytes_eqb (cr_id (snd y)) (de_id x)) (creds (run toy h)) = [(k, c)] /\
    List.length (creds (run toy h)) = 2%nat /\
    cm_auth p = Some mac /\ permitted toy (run toy h) 4 (6%N :: body) (Some mac) (cm_proto p) (cr_rp c) false.
Proof.
  cbv zeta. eexists _, _, _, _, _, _, _. split; [vm_compute; reflexivity | ].
  do 3 (split; [reflexivity | ]). split; [vm_compute; reflexivity | ]. split; [vm_compute; reflexivity | ].
  split; [vm_compute; reflexivity | ]. split; [reflexivity | ].
  exists V1. split; [reflexivity | ]. split; [vm_compute; discriminate | ]. split; [vm_compute; reflexivity | ].
  do 3 (split; [vm_compute; reflexivity | ]). split; [vm_compute; discriminate | ]. left. vm_compute. reflexivity.
Qed.
