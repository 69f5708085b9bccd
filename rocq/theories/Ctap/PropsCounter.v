(** Property theorems C32: the signature counter. *)
From Verif Require Import Base Facts Hid.Model U2f.Model Cbor.Model Cbor.Spec Ctap.Crypto Ctap.Types Ctap.Machine
  Ctap.Commands Ctap.Parse Ctap.System Ctap.Logic Ctap.History Ctap.Track Ctap.Pin Ctap.PinChange
  Ctap.MinPin Ctap.TokenSpec Ctap.Token Ctap.Success Ctap.Auth Ctap.Gate Ctap.Answers Ctap.TokenUse
  Ctap.Creds Ctap.Enum Ctap.NoPanic Ctap.Enumerate Ctap.Reset Ctap.Keys Ctap.Counter
  Ctap.Toy Ctap.ToyMore Ctap.PropsToken Ctap.PropsEnum Ctap.PropsCreds Ctap.PropsEnumerate.
From Coq Require Import String List Lia.
Import ListNotations.
Open Scope list_scope.

(** The signature counter in an answer: bytes 33 to 36 of authenticator data (WebAuthn 6.1), bytes 1
    to 4 of a U2F authentication response. *)
Definition data_counter (ad : bytes) : N := of_be (firstn 4 (skipn 33 ad)).
Inductive carries : op -> outcome -> N -> Prop :=
| carries_registration b ch r :
    carries (OpMessage b ch) (OutCtap (Ok (RMakeCredential r))) (data_counter (mr_auth_data r))
| carries_assertion b ch g :
    carries (OpMessage b ch) (OutCtap (Ok (RGetAssertion g))) (data_counter (gr_auth_data g))
| carries_u2f b c a kh fl r :
    u2f_parse b = Ok (U2fAuthenticate c a kh fl) ->
    carries (OpU2f b) (OutU2f (Ok r)) (of_be (firstn 4 (skipn 1 r))).
Definition is_assertion (y : outcome) : Prop :=
  match y with OutCtap (Ok (RGetAssertion _)) | OutU2f _ => True | _ => False end.

Lemma counter_bytes n rest : (n < 2 ^ 32)%N -> of_be (firstn 4 (be_bytes 4 n ++ rest)) = n.
Proof.
  intro B. change (firstn 4 (be_bytes 4 n ++ rest)) with (be_bytes 4 n). rewrite of_be_be_bytes. apply N.mod_small, B.
Qed.
Lemma data_counter_at e h f n rest :
  prims_ok (e_prims e) -> (n < 2 ^ 32)%N -> data_counter (sha256 (e_prims e) h ++ [f] ++ be_bytes 4 n ++ rest) = n.
Proof.
  intros K B. pose proof (ok_sha_len _ K h) as L. unfold data_counter.
  assert (E : skipn 33 (sha256 (e_prims e) h ++ [f] ++ be_bytes 4 n ++ rest) = be_bytes 4 n ++ rest).
  { rewrite skipn_app, L, skipn_all2 by lia. reflexivity. }
  rewrite E. apply counter_bytes, B.
Qed.

(** What an answer carries is the counter that the device stores then. *)
Lemma carries_now e h o y n w' :
  prims_ok (e_prims e) -> run_op e o (run e h) = (y, w') -> carries o y n ->
  n = counter_of (w_p w') /\ (counter_of (w_p w') < 2 ^ 32)%N /\
  (is_assertion y -> counted e (counter_of (w_p (run e h))) (counter_of (w_p w'))) /\
  (~ is_assertion y -> counter_of (w_p w') = counter_of (w_p (run e h))).
Proof.
  intros K H C. assert (B : (counter_of (w_p w') < 2 ^ 32)%N).
  { pose proof (counter_32 e (h ++ [(o, None)])) as Q. rewrite run_app in Q. unfold step in Q. cbn [fst snd] in Q. now rewrite H in Q. }
  destruct C as [b ch r | b ch g | b c a kh fl r Hx]; cbn [is_assertion].
  - destruct (mc_answer _ _ _ _ _ _ H) as (p & w1 & _ & Hp & D). destruct (preamble_p _ _ _ _ Hp) as (P1 & _).
    destruct (mcd_data _ _ _ _ _ D) as (f & rest & -> & _). pose proof (mcd_counter _ _ _ _ _ D) as Q. rewrite <- Q.
    split; [apply data_counter_at; auto | ]. split; [exact B | ]. split; [tauto | ].
    intros _. now rewrite Q, P1.
  - destruct (ga_answer _ _ _ _ _ _ H) as (p & w1 & _ & Hp & D). destruct (preamble_p _ _ _ _ Hp) as (P1 & _).
    destruct (gad_data _ _ _ _ _ D) as (f & rest & -> & _). pose proof (gad_counter _ _ _ _ _ D) as Q.
    split; [apply data_counter_at; auto | ]. split; [exact B | ]. split; [ | tauto].
    intros _. now rewrite <- P1.
  - cbn [run_op] in H. destruct (u2f_process e b (run e h)) as [r0 w0] eqn:E. injection H as -> ->.
    unfold u2f_process in E.
    apply bind_ok in E as (al & w5 & E5 & E). apply map_status_ok in E5. apply reads_ok in E5; [ | reads_walk].
    apply bind_ok in E as (? & w6 & E6 & E). apply guard_ok in E6 as [_ ->].
    apply bind_ok in E as (x' & w6 & E6 & E). apply lift_ok in E6 as [E6 ->]. rewrite Hx in E6. injection E6 as <-.
    apply bind_ok in E as (? & w7 & E7 & E).
    assert (P7 : counter_of (w_p w7) = counter_of (w_p w5)).
    { assert (Q : rel Pcnt (match fl with EnforceUpAndSign => let* ok := consume in guard ok SW_COND_USE_NOT_SATISFIED | _ => ret tt end : M sw unit)).
      { destruct fl; rel_walk; try (intro v; cbn; auto). }
      specialize (Q w5). rewrite E7 in Q. exact (fr_p _ _ _ Q). }
    destruct E5 as (P5 & _). destruct (u2f_auth_counter e c a kh fl w7 r w' E) as (Q & sg & ->).
    split; [ | split; [exact B | split; [ | tauto]]].
    + apply (counter_bytes (counter_of (w_p w')) sg), B.
    + intros _. now rewrite <- P5, <- P7.
Qed.

(** Along any history without reset, with power losses anywhere and store failures, an assertion
    carries a greater counter than every registration or assertion before it, and a registration one
    that is not smaller, as long as the operations between them cannot use up the 32 bits. *)
Theorem C32_increases_partial : forall e h1 o1 y1 n1 w1 h2 o2 y2 n2 w2,
  prims_ok (e_prims e) ->
  run_op e o1 (run e h1) = (y1, w1) -> carries o1 y1 n1 ->
  no_reset e h2 ->
  run_op e o2 (run e (h1 ++ (o1, None) :: h2)) = (y2, w2) -> carries o2 y2 n2 ->
  (n1 + 8 * N.of_nat (length h2) + 8 < 2 ^ 32)%N ->
  (n1 <= n2)%N /\ (is_assertion y2 -> c_counter (e_cfg e) = true -> n1 < n2 <= n1 + 8 * N.of_nat (length h2) + 8)%N.
Proof.
  intros e h1 o1 y1 n1 w1 h2 o2 y2 n2 w2 K H1 C1 N H2 C2 B.
  destruct (carries_now e h1 o1 y1 n1 w1 K H1 C1) as (E1 & B1 & _).
  destruct (carries_now e _ o2 y2 n2 w2 K H2 C2) as (E2 & B2 & A2 & R2).
  rewrite run_split in A2, R2. assert (S : step e (run e h1) (o1, None) = w1) by (unfold step; cbn [fst snd]; now rewrite H1).
  rewrite S in A2, R2.
  assert (W : wf w1).
  { rewrite <- S. pose proof (run_wf e (h1 ++ [(o1, None)])) as W. now rewrite run_app in W. }
  pose proof (history_moves e h2 w1 W N ltac:(cbv beta zeta; rewrite <- E1; lia)) as M. cbv beta zeta in M. rewrite <- E1 in M.
  assert (D : is_assertion y2 \/ ~ is_assertion y2) by (destruct C2; cbn; auto).
  destruct D as [D | D].
  - specialize (A2 D). unfold counted in A2. rewrite E2. destruct (c_counter (e_cfg e)).
    + destruct A2 as (i & Hi & ->). rewrite N.mod_small by lia. split; [lia | intros _ _; lia].
    + rewrite A2. split; [lia | intros _ X; discriminate].
  - rewrite E2, (R2 D). split; [lia | intro; contradiction].
Qed.
Print Assumptions C32_increases_partial.

(** An assertion that was interrupted by power loss, or failed, after the counter moved may have
    used up values; none is used again, since the counter never moves back. *)
Theorem C32_monotone : forall e h1 h2,
  no_reset e h2 -> (counter_of (w_p (run e h1)) + 8 * N.of_nat (length h2) < 2 ^ 32)%N ->
  (counter_of (w_p (run e h1)) <= counter_of (w_p (run e (h1 ++ h2))))%N.
Proof.
  intros e h1 h2 N B. unfold run at 2. rewrite fold_left_app. fold (run e h1).
  exact (proj1 (history_moves e h2 (run e h1) (run_wf e h1) N B)).
Qed.
Print Assumptions C32_monotone.

(** Finding: the full claim is false.  A registration does not move the counter, so a registration
    carries the value of the assertion before it. *)
Theorem C32_registration_refuted : exists e h1 o1 y1 n w1 h2 o2 y2 w2,
  cfg_ok (e_cfg e) /\ prims_ok (e_prims e) /\ c_counter (e_cfg e) = true /\
  run_op e o1 (run e h1) = (y1, w1) /\ carries o1 y1 n /\ is_assertion y1 /\ no_reset e h2 /\
  run_op e o2 (run e (h1 ++ (o1, None) :: h2)) = (y2, w2) /\ carries o2 y2 n.
Proof.
  exists toy, h_made, (OpMessage (ga_msg toy_rp true None) ch0).
  destruct (run_op toy (OpMessage (ga_msg toy_rp true None) ch0) (run toy h_made)) as [y1 w1] eqn:E1.
  assert (Q1 : exists g, y1 = OutCtap (Ok (RGetAssertion g)) /\ data_counter (gr_auth_data g) = 2%N).
  { pose proof (f_equal fst E1) as Q. cbn [fst] in Q. rewrite <- Q. vm_compute. eauto. }
  destruct Q1 as (g & -> & G).
  exists (OutCtap (Ok (RGetAssertion g))), 2%N, w1, [], (OpMessage (mc_msg toy_rp [7; 7]%N false None) ch0).
  destruct (run_op toy (OpMessage (mc_msg toy_rp [7; 7]%N false None) ch0)
    (run toy (h_made ++ (OpMessage (ga_msg toy_rp true None) ch0, None) :: []))) as [y2 w2] eqn:E2.
  assert (Q2 : exists r, y2 = OutCtap (Ok (RMakeCredential r)) /\ data_counter (mr_auth_data r) = 2%N).
  { pose proof (f_equal fst E2) as Q. cbn [fst] in Q. rewrite <- Q. vm_compute. eauto. }
  destruct Q2 as (r & -> & R). exists (OutCtap (Ok (RMakeCredential r))), w2.
  split; [exact toy_cfg_ok | ]. split; [exact toy_prims_ok | ]. split; [reflexivity | ]. split; [reflexivity | ].
  split; [rewrite <- G; constructor | ]. split; [exact I | ]. split; [constructor | ]. split; [reflexivity | ].
  rewrite <- R. constructor.
Qed.
Print Assumptions C32_registration_refuted.
(** Finding: the assertions of one enumeration all carry the same value. *)
Theorem C32_next_refuted : exists e h b g1 g2,
  cfg_ok (e_cfg e) /\ prims_ok (e_prims e) /\ c_counter (e_cfg e) = true /\
  fst (run_op e (OpMessage b ch0) (run e h)) = OutCtap (Ok (RGetAssertion g1)) /\
  fst (run_op e (OpMessage next_msg ch0) (run e (h ++ [(OpMessage b ch0, None)]))) = OutCtap (Ok (RGetNextAssertion g2)) /\
  data_counter (gr_auth_data g1) = data_counter (gr_auth_data g2).
Proof.
  exists toy, h_two, ask_msg. 
  assert (Q1 : exists g, fst (run_op toy (OpMessage ask_msg ch0) (run toy h_two)) = OutCtap (Ok (RGetAssertion g)) /\ data_counter (gr_auth_data g) = 2%N).
  { vm_compute. eauto. }
  assert (Q2 : exists g, fst (run_op toy (OpMessage next_msg ch0) (run toy (h_two ++ [(OpMessage ask_msg ch0, None)]))) = OutCtap (Ok (RGetNextAssertion g)) /\ data_counter (gr_auth_data g) = 2%N).
  { vm_compute. eauto. }
  destruct Q1 as (g1 & G1 & G2), Q2 as (g2 & G3 & G4). exists g1, g2.
  split; [exact toy_cfg_ok | ]. split; [exact toy_prims_ok | ]. split; [reflexivity | ].
  split; [exact G1 | ]. split; [exact G3 | congruence].
Qed.
Print Assumptions C32_next_refuted.

(** Two assertions with a power loss in a third one between them. *)
Example C32_nonvacuous :
  let ga := OpMessage (ga_msg toy_rp true None) ch0 in
  match fst (run_op toy ga (run toy h_made)),
        fst (run_op toy ga (run toy (h_made ++ [(ga, None); (ga, Some 1%nat)]))),
        fst (run_op toy ga (run toy (h_made ++ [(ga, None); (ga, Some 0%nat)]))) with
  | OutCtap (Ok (RGetAssertion a)), OutCtap (Ok (RGetAssertion b)), OutCtap (Ok (RGetAssertion c)) =>
      data_counter (gr_auth_data a) = 2%N /\ (2 < data_counter (gr_auth_data b) < data_counter (gr_auth_data c))%N
  | _, _, _ => False
  end.
Proof. vm_compute. repeat split. Qed.
