(** What the device stores is well formed: everything it stores as a credential it can read back. *)
From Verif Require Import Base Facts Hid.Model U2f.Model Cbor.Model Cbor.Spec Cbor.Proofs Cbor.Proofs2
  Cbor.Proofs3 Cbor.Proofs4 Cbor.Props Ctap.Crypto Ctap.Types Ctap.Machine
  Ctap.Commands Ctap.Parse Ctap.System Ctap.Logic Ctap.History Ctap.Track Ctap.Pin Ctap.Answers Ctap.Creds Ctap.Seal.
From Coq Require Import String Lia List.
Import ListNotations.
Open Scope list_scope.

(** The random number generator returns as many bytes as it is asked for. *)
Definition rnd_ok (e : env) : Prop :=
  forall i n, length (e_rnd e i n) = n /\ bytes_ok (e_rnd e i n) = true.
(** Messages consist of bytes. *)
Definition byte_ops (h : list (op * option nat)) : Prop :=
  Forall (fun y => match fst y with OpMessage b _ => bytes_ok b = true | _ => True end) h.

Lemma rbind_ok {E A B} (r : res E A) (k : A -> res E B) b :
  rbind r k = Ok b -> exists a, r = Ok a /\ k a = Ok b.
Proof. destruct r as [a | x]; cbn; intro H; [eauto | discriminate]. Qed.

(** ** Cutting a string at a character boundary *)
Lemma utf8_cut : forall n l i, (length l <= n)%nat ->
  utf8_valid l = true -> cont (nth i l 0%N) = false -> utf8_valid (firstn i l) = true.
Proof.
  induction n as [ | n IH]; intros l i Hn V C.
  { destruct l; [now destruct i | cbn in Hn; lia]. }
  destruct l as [ | b r]; [now destruct i | ]. destruct i as [ | i]; [reflexivity | ].
  cbn [nth firstn length] in *. cbn [utf8_valid] in V |- *.
  destruct (b <? 128)%N; [apply IH; auto; lia | ].
  destruct (inr 194 223 b).
  { destruct r as [ | c1 r]; [discriminate | ]. apply andb_true_iff in V as [V1 V2].
    destruct i as [ | i]; cbn [nth firstn] in *; [congruence | ]. rewrite V1. apply IH; auto. cbn in Hn. lia. }
  destruct (inr 224 239 b).
  { destruct r as [ | c1 [ | c2 r]]; try discriminate. apply andb_true_iff in V as [V V3].
    apply andb_true_iff in V as [V1 V2].
    assert (C1 : cont c1 = true).
    { revert V1. unfold inr, cont. destruct (b =? 224)%N; [ | destruct (b =? 237)%N]; intro V1; lia. }
    destruct i as [ | [ | i]]; cbn [nth firstn] in *; try congruence.
    rewrite V1, V2. apply IH; auto. cbn in Hn. lia. }
  destruct (inr 240 244 b); [ | discriminate].
  destruct r as [ | c1 [ | c2 [ | c3 r]]]; try discriminate. apply andb_true_iff in V as [V V4].
  apply andb_true_iff in V as [V V3]. apply andb_true_iff in V as [V1 V2].
  assert (C1 : cont c1 = true).
  { revert V1. unfold inr, cont. destruct (b =? 240)%N; [ | destruct (b =? 244)%N]; intro V1; lia. }
  destruct i as [ | [ | [ | i]]]; cbn [nth firstn] in *; try congruence.
  rewrite V1, V2, V3. apply IH; auto. cbn in Hn. lia.
Qed.

Lemma boundary_cont s : forall i, boundary_below s i = 0%nat \/ cont (nth (boundary_below s i) s 0%N) = false.
Proof.
  induction i as [ | i IH]; [now left | ]. cbn [boundary_below].
  destruct (cont (nth (S i) s 0%N)) eqn:E; [exact IH | now right].
Qed.
Lemma boundary_le s i : (boundary_below s i <= i)%nat.
Proof. induction i as [ | i IH]; cbn [boundary_below]; [lia | ]. destruct (cont _); lia. Qed.

Lemma truncate_text W s n : text_ok W s -> text_ok W (truncate s n) /\ (length (truncate s n) <= n)%nat.
Proof.
  intros [[B L] V]. unfold truncate. destruct (Nat.leb_spec (length s) n); [now repeat split | ].
  pose proof (boundary_le s n). split; [ | rewrite firstn_length; lia]. repeat split.
  - now apply bytes_ok_firstn.
  - unfold Nlen in *. rewrite firstn_length. lia.
  - destruct (boundary_cont s n) as [-> | C]; [reflexivity | ]. now apply (utf8_cut (length s)).
Qed.

(** ** Parsed parameters *)
Section Parsed.
  Variable W : N.
  Definition user_ok (u : user) : Prop :=
    blob_ok W (us_id u) /\ opt_ok (text_ok W) (us_name u) /\ opt_ok (text_ok W) (us_display u) /\
    opt_ok (text_ok W) (us_icon u).

  Lemma peek_in it k : forall v it', peek_value it k = (Some v, it') ->
    In v (map snd it) /\ incl it' it.
  Proof.
    induction it as [ | [a x] it IH]; cbn [peek_value]; intros v it' H; [discriminate | ].
    destruct (value_cmp a k); try discriminate.
    - injection H as <- <-. split; [now left | apply incl_tl, incl_refl].
    - apply IH in H as [H1 H2]. split; [now right | now apply incl_tl].
  Qed.
  Lemma peek_incl it k : incl (snd (peek_value it k)) it.
  Proof.
    induction it as [ | [a x] it IH]; cbn [peek_value]; [apply incl_refl | ].
    destruct (value_cmp a k); cbn [snd]; [apply incl_tl, incl_refl | now apply incl_tl | apply incl_refl].
  Qed.
  Lemma destructure_in keys : forall m v, In (Some v) (destructure m keys) -> In v (map snd m).
  Proof.
    induction keys as [ | k ks IH]; intros m v H; [destruct H | ]. cbn [destructure] in H.
    destruct (peek_value m k) as [o m'] eqn:E. destruct H as [H | H].
    - subst o. now apply peek_in in E as [E _].
    - apply IH in H. pose proof (peek_incl m k) as I. rewrite E in I. cbn in I.
      apply in_map_iff in H as (x & <- & H). apply in_map, I, H.
  Qed.
  Lemma field_ok m keys i v : value_ok W (VMap m) -> Parse.fields m keys i = Some v -> value_ok W v.
  Proof.
    intros O H. unfold Parse.fields in H.
    assert (I : In (Some v) (destructure m keys)).
    { rewrite <- H. destruct (Nat.lt_ge_cases i (length (destructure m keys))) as [L | L]; [now apply nth_In | ].
      rewrite nth_overflow in H by lia. discriminate. }
    apply destructure_in in I. apply in_map_iff in I as ([a x] & <- & I). inversion O; subst.
    rewrite Forall_forall in H2. now apply H2 in I.
  Qed.

  Lemma bytes_of v b : value_ok W v -> extract_byte_string v = Ok b -> blob_ok W b.
  Proof. intros O H. destruct v; cbn in H; try discriminate. injection H as <-. inversion O; subst. now split. Qed.
  Lemma text_of v b : value_ok W v -> extract_text_string v = Ok b -> text_ok W b.
  Proof. intros O H. destruct v; cbn in H; try discriminate. injection H as <-. inversion O; subst. now repeat split. Qed.
  Lemma map_of v m : value_ok W v -> extract_map v = Ok m -> value_ok W (VMap m).
  Proof. intros O H. destruct v; cbn in H; try discriminate. injection H as <-. exact O. Qed.
  Lemma opt_of_field {A} (P : A -> Prop) (f : value -> res status A) (o : option value) x :
    (forall v a, o = Some v -> f v = Ok a -> P a) -> map_opt f o = Ok x -> opt_ok P x.
  Proof.
    intros H E a ->. destruct o as [v | ]; cbn in E; [ | discriminate].
    destruct (f v) as [b | s] eqn:F; cbn in E; [ | discriminate]. injection E as ->. eauto.
  Qed.

  Tactic Notation "next" hyp(H) ident(x) ident(E) := apply rbind_ok in H as (x & E & H); cbv beta in H.
  Lemma parse_user_ok v u : value_ok W v -> parse_user v = Ok u -> user_ok u.
  Proof.
    intros O H. unfold parse_user in H.
    next H m E. apply (map_of _ _ O) in E. cbv zeta in H. next H i E1. next H id E2.
    next H n E3. next H d E4. next H ic E5. injection H as <-. unfold user_ok. cbn [us_id us_name us_display us_icon].
    assert (K : forall i v, Parse.fields m [text "id"; text "icon"; text "name"; text "displayName"] i = Some v -> value_ok W v)
      by (intros; eapply field_ok; eassumption).
    split; [ | split; [ | split]].
    - destruct (Parse.fields m _ 0) eqn:F in E1; [ | discriminate]. injection E1 as ->. eapply bytes_of; [eapply K, F | exact E2].
    - eapply opt_of_field; [ | exact E3]. intros v0 a0 F0 H0; eapply text_of; [eapply K, F0 | exact H0].
    - eapply opt_of_field; [ | exact E4]. intros v0 a0 F0 H0; eapply text_of; [eapply K, F0 | exact H0].
    - eapply opt_of_field; [ | exact E5]. intros v0 a0 F0 H0; eapply text_of; [eapply K, F0 | exact H0].
  Qed.
  Lemma parse_rp_ok v r : value_ok W v -> parse_rp v = Ok r -> text_ok W (rp_id r).
  Proof.
    intros O H. unfold parse_rp in H.
    next H m E. apply (map_of _ _ O) in E. cbv zeta in H. next H i E1. next H id E2. next H n E3. next H ic E4.
    injection H as <-. cbn [rp_id].
    destruct (Parse.fields m _ 0) eqn:F in E1; [ | discriminate]. injection E1 as ->. eapply text_of; [ | exact E2].
    eapply field_ok; eassumption.
  Qed.
  Lemma parse_ext_ok v x : value_ok W v -> parse_mc_ext v = Ok x -> opt_ok (blob_ok W) (mx_blob x).
  Proof.
    intros O H. unfold parse_mc_ext in H.
    next H m E. apply (map_of _ _ O) in E. cbv zeta in H. next H h E1. next H p E2. next H n E3. next H b E4. next H l E5.
    injection H as <-. cbn [mx_blob]. eapply opt_of_field; [ | exact E4]. intros v0 a0 F0 H0; eapply bytes_of; [ | exact H0].
    eapply field_ok; eassumption.
  Qed.
  Lemma parse_mc_ok c v p : value_ok W v -> parse_make_credential c v = Ok p ->
    text_ok W (rp_id (mc_rp p)) /\ user_ok (mc_user p) /\ opt_ok (blob_ok W) (mx_blob (mc_ext_ p)).
  Proof.
    intros O H. unfold parse_make_credential in H. next H m E. apply (map_of _ _ O) in E. cbv zeta in H.
    assert (K : forall i v, Parse.fields m (map VUnsigned [1; 2; 3; 4; 5; 6; 7; 8; 9; 10]%N) i = Some v -> value_ok W v)
      by (intros; eapply field_ok; eassumption).
    next H c0 E0. next H cdh E0'. next H r0 E1. next H rp E2. next H u0 E3. next H u E4. next H p0 E5. next H p1 E6.
    next H ps E7. next H ex E8. next H x E9. next H o E10. next H a E11. next H pp E12. next H ep E13. injection H as <-.
    cbn [mc_rp mc_user mc_ext_]. split; [ | split].
    - destruct (Parse.fields m _ 1) eqn:F in E1; [ | discriminate]. injection E1 as ->. eapply parse_rp_ok; [eapply K, F | eassumption].
    - destruct (Parse.fields m _ 2) eqn:F in E3; [ | discriminate]. injection E3 as ->. eapply parse_user_ok; [eapply K, F | eassumption].
    - destruct (Parse.fields m _ 5) eqn:F in E9; cbn [map_or] in E9; [eapply parse_ext_ok; [eapply K, F | eassumption] | ].
      injection E9 as <-. intros ? ?. discriminate.
  Qed.
  Lemma parse_cm_ok v p : value_ok W v -> parse_cred_mgmt v = Ok p ->
    forall d u, cm_data_ p = Some d -> cd_user d = Some u -> user_ok u.
  Proof.
    intros O H d u Hd Hu. unfold parse_cred_mgmt in H. next H m E. apply (map_of _ _ O) in E. cbv zeta in H.
    assert (K : forall i v, Parse.fields m (map VUnsigned [1; 2; 3; 4]%N) i = Some v -> value_ok W v)
      by (intros; eapply field_ok; eassumption).
    next H s0 E1. next H s E2. next H dd E3. next H pp E4. next H a E5. injection H as <-. cbn [cm_data_] in Hd.
    revert d Hd u Hu. change (opt_ok (fun d => forall u, cd_user d = Some u -> user_ok u) dd).
    eapply opt_of_field; [ | exact E3]. intros v' d F P u Hu. apply K in F.
    unfold parse_cm_data in P. next P m' E'. apply (map_of _ _ F) in E'. cbv zeta in P.
    next P h' Q1. next P d' Q2. next P u' Q3. injection P as <-. cbn [cd_user] in Hu. revert u Hu.
    change (opt_ok user_ok u'). eapply opt_of_field; [ | exact Q3]. intros v0 a0 F0 H0; eapply parse_user_ok; [ | exact H0].
    eapply field_ok; eassumption.
  Qed.
End Parsed.

Lemma parse_command_body c b x : cfg_ok c -> bytes_ok b = true -> parse_command c b = Ok x ->
  match x with
  | CMakeCredential p => exists v, value_ok (c_width c) v /\ parse_make_credential c v = Ok p
  | CGetAssertion p => exists v, value_ok (c_width c) v /\ parse_get_assertion v = Ok p
  | CCredMgmt p => exists v, value_ok (c_width c) v /\ parse_cred_mgmt v = Ok p
  | _ => True
  end.
Proof.
  intros C B H. destruct b as [ | t body]; [discriminate | ]. cbn in B. apply andb_true_iff in B as [_ B].
  assert (R : forall v, read_cbor c body = Ok v -> value_ok (c_width c) v).
  { intros v E. unfold read_cbor, cbor_read in E. destruct (read_nested _ _ _) eqn:E'; [ | discriminate].
    injection E as <-. eapply C03_reader_sorted; [ | exact B | exact E']. destruct (ok_width c C) as [-> | ->]; split; reflexivity || lia. }
  unfold parse_command in H.
  repeat match type of H with
         | (if ?t then _ else _) = _ => destruct t
         | Ok _ = Ok _ => injection H as <-; try exact I
         | Err _ = Ok _ => discriminate
         | rbind _ _ = Ok _ => let v := fresh "v" in let E := fresh "E" in
             apply rbind_ok in H as (v & E & H); cbv beta in H
         end; eauto.
Qed.

(** ** Every credential that is ever stored *)
Definition stored_ok (e : env) (r : cred) : Prop :=
  cred_ok (c_width (e_cfg e)) (c_ed25519 (e_cfg e)) r /\ length (cr_id r) = 32%nat.

Lemma width_pow c : cfg_ok c -> (2 ^ 32 <= 2 ^ c_width c)%N.
Proof. intro C. destruct (ok_width c C) as [-> | ->]; vm_compute; discriminate. Qed.

Lemma rnd_blob e i n : cfg_ok (e_cfg e) -> rnd_ok e -> (n <= 128)%nat -> blob_ok (c_width (e_cfg e)) (e_rnd e i n).
Proof.
  intros C R L. destruct (R i n) as [R1 R2]. split; [exact R2 | ]. unfold Nlen. rewrite R1.
  pose proof (width_pow _ C). eapply N.lt_le_trans; [ | eassumption]. change (2 ^ 32)%N with 4294967296%N. lia.
Qed.

Lemma cred_for_ok e b p l r : cfg_ok (e_cfg e) -> rnd_ok e -> bytes_ok b = true ->
  parse_command (e_cfg e) b = Ok (CMakeCredential p) -> cred_for e p l r -> stored_ok e r.
Proof.
  intros C R B H F. apply (parse_command_body _ _ _ C B) in H as (v & Ov & H).
  apply (parse_mc_ok _ _ _ _ Ov) in H as (H1 & (U1 & U2 & U3 & U4) & H3).
  destruct F as [F1 F2 F3 F4 F5 F6 F7 F8 (n1 & F9) (n2 & q & A1 & A2 & A3) F11].
  assert (T : forall o, opt_ok (text_ok (c_width (e_cfg e))) o ->
    opt_ok (text_ok (c_width (e_cfg e))) (option_map (fun s => truncate s 64) o)).
  { intros o Ho a Ha. destruct o as [s | ]; [ | discriminate]. injection Ha as <-. apply truncate_text. now apply Ho. }
  split; [split | ].
  - rewrite F9. apply rnd_blob; auto. lia.
  - split; [rewrite A3; apply R | ]. split; [rewrite A3; apply R | ]. intro E.
    apply find_some in A1 as [_ A1]. unfold supported in A1. rewrite A2, E in A1. now apply andb_true_iff in A1.
  - now rewrite F1.
  - now rewrite F2.
  - rewrite F3. auto.
  - rewrite F7. apply N.mod_lt. discriminate.
  - rewrite F4. auto.
  - rewrite F5. auto.
  - rewrite F8. intros x Hx. destruct (mx_blob _) as [y | ] eqn:E; [ | discriminate].
    destruct (_ <=? _)%nat; [ | discriminate]. injection Hx as <-. now apply H3.
  - intros x Hx. rewrite Hx in F11. destruct F11 as [_ (n & ->)]. apply rnd_blob; auto. lia.
  - rewrite F9. apply R.
Qed.

Theorem stored_history e h : cfg_ok (e_cfg e) -> rnd_ok e -> byte_ops h ->
  Forall (fun x => stored_ok e (snd x)) (p_creds (w_p (run e h))).
Proof.
  intros C R. induction h as [ | [o k] h IH] using rev_ind; intro B; [constructor | ].
  apply Forall_app in B as [B1 B2]. specialize (IH B1). inversion B2 as [ | ? ? B3 _]; subst. cbn [fst] in B3.
  rewrite Forall_forall in *. pose proof (creds_change e h o k) as S.
  set (l := p_creds (w_p (run e h))) in *. set (l' := p_creds (w_p (run e (h ++ [(o, k)])))) in *.
  destruct S as [-> | [(n & _ & ->) | (b & cid & x & -> & P & S)]].
  - exact IH.
  - intros x Hx. apply IH. rewrite <- (firstn_skipn n l). apply in_app_iff in Hx. apply in_app_iff. tauto.
  - destruct x; cbn [cred_step] in S; try contradiction.
    + destruct S as (_ & r & CF & j & ->). intros x Hx. apply in_app_iff in Hx as [Hx | [<- | []]].
      * apply filter_In in Hx as [Hx _]. auto.
      * eapply cred_for_ok; eauto.
    + subst. unfold l' in *. intros x Hx. rewrite S in Hx. destruct Hx.
    + apply (parse_command_body _ _ _ C B3) in P as (v & Ov & P).
      destruct (cm_sub_ p); try contradiction.
      * destruct S as (id & _ & _ & ->). intros x Hx. apply filter_In in Hx as [Hx _]. auto.
      * destruct S as (id & d & u & _ & D & U & j & r & F & ->). intros x Hx.
        apply in_app_iff in Hx as [Hx | [<- | []]]; [apply filter_In in Hx as [Hx _]; auto | ].
        assert (Hin : In (j, r) l).
        { assert (I0 : In (j, r) (filter (fun x => bytes_eqb (cr_id (snd x)) id) l)) by (rewrite F; now left).
          now apply filter_In in I0. }
        destruct (IH _ Hin) as [[K1 K2 K3 K4 K5 K6 K7 K8 K9 K10] K11].
        destruct (parse_cm_ok _ _ _ Ov P d u D U) as (U1 & U2 & U3 & U4).
        split; [ | exact K11]. split; cbn; auto.
Qed.
