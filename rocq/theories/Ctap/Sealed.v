(** Credentials sealed into their IDs stay usable until a reset: lemmas for C30. *)
From Verif Require Import Base Facts Hid.Model U2f.Model Cbor.Model Cbor.Spec Ctap.Crypto Ctap.Types Ctap.Machine
  Ctap.Commands Ctap.Parse Ctap.System Ctap.Logic Ctap.History Ctap.Track Ctap.Pin Ctap.PinChange
  Ctap.MinPin Ctap.TokenSpec Ctap.Token Ctap.Success Ctap.Auth Ctap.Gate Ctap.Answers Ctap.TokenUse
  Ctap.Creds Ctap.Enum Ctap.NoPanic Ctap.Enumerate Ctap.Reset Ctap.Keys Ctap.Protect Ctap.Seal Ctap.Stored.
From Coq Require Import List Lia.
Import ListNotations.
Open Scope list_scope.

(** With these keys the ID stands for [s] and for nothing else. *)
Definition stands_for (e : env) (p : pers) (id : bytes) (s : source) : Prop :=
  exists m, p_master p = Some m /\ length id = 241%nat /\
    forall h, unwrap_pure (e_prims e) (c_ed25519 (e_cfg e)) (c_width (e_cfg e)) m id h =
              Some (if bytes_eqb h (so_rp_hash s) then Some s else None).

Lemma stands_frame e w w' id s : fr Pmaster w w' -> stands_for e (w_p w) id s -> stands_for e (w_p w') id s.
Proof. intros F (m & M & U). exists m. split; [exact (fr_p _ _ _ F m M) | exact U]. Qed.

Section Sealing.
  Variable e : env.
  Hypothesis C : cfg_ok (e_cfg e).
  Hypothesis K : prims_ok (e_prims e).
  Hypothesis R : rnd_ok e.

  Lemma width_ok : (6 <= c_width (e_cfg e) <= 64)%N.
  Proof. destruct (ok_width _ C) as [-> | ->]; split; discriminate. Qed.

  Lemma wrap_stands s w id w' :
    source_ok (c_ed25519 (e_cfg e)) (c_width (e_cfg e)) s ->
    wrap_credential e s w = (Ok id, w') -> stands_for e (w_p w') id s.
  Proof.
    intros Hs H. unfold wrap_credential in H.
    apply bind_ok in H as (m & w1 & H1 & H). apply master_keys_ok in H1.
    apply bind_ok in H as (iv1 & w2 & H2 & H). apply draw_ok in H2 as (E1 & P2 & _).
    apply bind_ok in H as (m2 & w3 & H3 & H).
    assert (F : fr Pmaster w2 w3) by (pose proof (master_frame e w2) as F; now rewrite H3 in F).
    apply bind_ok in H as (iv2 & w4 & H4 & H). apply draw_ok in H4 as (E2 & P4 & _).
    destruct (wrap_pure _ _ _ _ _) as [x | ] eqn:W; [ | apply fail_ok in H; contradiction].
    apply ret_ok in H as [-> ->].
    exists m. split.
    - rewrite P4. apply (fr_p _ _ _ F m). now rewrite P2.
    - assert (Q : forall h, _) by (intro h; exact (unwrap_wrapped (e_prims e) (c_ed25519 (e_cfg e)) (c_width (e_cfg e)) K width_ok
        m iv1 iv2 s x h ltac:(subst; apply R) ltac:(subst; apply R) ltac:(subst; apply R) ltac:(subst; apply R) Hs W)).
      split; [apply (Q []) | intro h; apply (Q h)].
  Qed.

  (** ** Registrations *)
  Lemma key_for_ok p k : key_for e p k -> key_ok (c_ed25519 (e_cfg e)) k.
  Proof.
    intros (n & q & A1 & A2 & A3). split; [rewrite A3; apply R | ]. split; [rewrite A3; apply R | ]. intro E.
    apply find_some in A1 as [_ A1]. unfold supported in A1. rewrite A2, E in A1. now apply andb_true_iff in A1.
  Qed.

  Lemma mc_sealed p w r w' :
    mc_rk p = false -> opt_ok (blob_ok (c_width (e_cfg e))) (mx_blob (mc_ext_ p)) ->
    process_make_credential e p w = (Ok r, w') ->
    exists mr id s pre pub post, r = RMakeCredential mr /\
      stands_for e (w_p w') id s /\ key_for e p (so_key s) /\
      so_rp_hash s = sha256 (e_prims e) (rp_id (mc_rp p)) /\
      so_policy s = effective_policy e (mx_protect (mc_ext_ p)) /\ so_blob s = stored_blob e p /\
      length pre = (length (sha256 (e_prims e) (rp_id (mc_rp p))) + 5)%nat /\
      cbor_write (cose_to_cbor (pub_of (e_prims e) (so_key s))) = Some pub /\
      mr_auth_data mr = pre ++ c_aaguid (e_cfg e) ++ [0%N; Nlen id] ++ id ++ pub ++ post.
  Proof.
    intros Hr Hb H. unfold process_make_credential in H. cbv zeta in H.
    apply bind_ok in H as (? & w1 & _ & H). apply bind_ok in H as (a & w2 & H2 & H).
    apply bind_ok in H as (? & w3 & _ & H). apply bind_ok in H as (? & w4 & _ & H).
    apply bind_ok in H as (? & w5 & _ & H). apply bind_ok in H as (? & w6 & _ & H).
    apply bind_ok in H as (? & w7 & _ & H). apply bind_ok in H as (mp & w8 & _ & H).
    apply bind_ok in H as (lb & w9 & _ & H). apply bind_ok in H as (k & w10 & H10 & H).
    apply bind_ok in H as (id & w11 & H11 & H).
    match type of H with ?f w11 = _ => assert (F : fr Pmaster w11 w');
      [assert (RR : rel Pmaster f) by rel_walk; specialize (RR w11); now rewrite H in RR | ] end.
    apply bind_ok in H as (ad & w12 & H12 & H). apply generate_auth_data_ok in H12 as [Had _].
    apply bind_ok in H as (? & w13 & _ & H). apply bind_ok in H as (pk & w14 & H14 & H).
    apply bind_ok in H as (pub & w15 & H15 & H). apply bind_ok in H as (ext & w16 & _ & H).
    apply bind_ok in H as (sx & w17 & _ & H). apply ret_ok in H as [H _].
    assert (HK : key_for e p k).
    { unfold preferred_alg in H2. destruct (find _ _) as [q | ] eqn:Q; [ | apply fail_ok in H2; contradiction].
      destruct (cp_alg q) as [al | ] eqn:Q'; [ | apply fail_ok in H2; contradiction]. apply ret_ok in H2 as [-> _].
      unfold new_key in H10. apply bind_ok in H10 as (b & w18 & E & H10). apply draw_ok in E as (E & _).
      apply ret_ok in H10 as [-> _]. exists (w_rng w9), q. cbn. auto. }
    unfold mc_create in H11. rewrite Hr in H11. apply map_status_ok in H11.
    set (s := mkSource _ _ _ _) in H11.
    assert (Hs : source_ok (c_ed25519 (e_cfg e)) (c_width (e_cfg e)) s).
    { split.
      - exact (key_for_ok p k HK).
      - split; [apply (ok_sha_len _ K) | apply (ok_sha_bytes _ K)].
      - intros b0 Hx. cbn in Hx. destruct (mx_blob _) as [y | ] eqn:E; [ | discriminate].
        destruct (_ <=? _)%nat; [ | discriminate]. injection Hx as <-. now apply Hb. }
    pose proof (wrap_stands _ _ _ _ Hs H11) as SF.
    eexists _, id, s, ad, pub, ext. split; [exact H | ]. split; [exact (stands_frame _ _ _ _ _ F SF) | ].
    split; [exact HK | ]. do 3 (split; [reflexivity | ]). split; [ | split].
    - rewrite Had, !app_length. cbn [length be_bytes]. lia.
    - unfold get_pub_key in H14. destruct (key_valid e k); [ | apply fail_ok in H14; contradiction].
      apply ret_ok in H14 as [-> _]. unfold write_cbor in H15.
      destruct (cbor_write _) as [z | ] eqn:Z; [ | apply fail_ok in H15; contradiction]. apply ret_ok in H15 as [-> _]. reflexivity.
    - cbn [mr_auth_data]. reflexivity.
  Qed.

  Lemma u2f_sealed c a w r w' :
    length a = 32%nat -> bytes_ok a = true ->
    u2f_register e c a w = (Ok r, w') ->
    exists kh k pre cert sg, pk_alg k = Es256 /\ key_valid e k = true /\ stands_for e (w_p w') kh (mkSource k a None None) /\
      pre = [5%N] ++ uncompressed (pub_of (e_prims e) k) ++ [Nlen kh] /\ r = pre ++ kh ++ cert ++ sg.
  Proof.
    intros La Oa H. unfold u2f_register in H. cbv zeta in H.
    apply bind_ok in H as (k & w1 & H1 & H). apply bind_ok in H as (? & w2 & KV & H). apply guard_ok in KV as [KV _].
    apply bind_ok in H as (kh & w3 & H3 & H).
    match type of H with ?f w3 = _ => assert (F : fr Pmaster w3 w');
      [assert (RR : rel Pmaster f) by rel_walk; specialize (RR w3); now rewrite H in RR | ] end.
    apply bind_ok in H as (? & w4 & _ & H). apply bind_ok in H as (at_ & w5 & _ & H).
    destruct at_ as [[ak cert] | ]; [ | apply fail_ok in H; contradiction].
    apply bind_ok in H as (? & w6 & _ & H). apply ret_ok in H as [H _].
    apply map_status_ok in H3.
    assert (Hs : source_ok (c_ed25519 (e_cfg e)) (c_width (e_cfg e)) (mkSource k a None None)).
    { unfold new_key in H1. apply bind_ok in H1 as (b & w7 & E & H1). apply draw_ok in E as (E & _).
      apply ret_ok in H1 as [-> _]. split.
      - split; [cbn; subst b; apply R | ]. split; [cbn; subst b; apply R | discriminate].
      - split; assumption.
      - intros b0 Hx. discriminate. }
    pose proof (wrap_stands _ _ _ _ Hs H3) as SF.
    eexists kh, k, _, cert, _. split.
    { unfold new_key in H1. apply bind_ok in H1 as (b & w7 & _ & H1). apply ret_ok in H1 as [-> _]. reflexivity. }
    split; [exact KV | ]. split; [exact (stands_frame _ _ _ _ _ F SF) | ]. split; [reflexivity | ].
    rewrite H, <- !app_assoc. reflexivity.
  Qed.

  (** ** Lookups *)
  Lemma unwrap_stands id s h w o w' :
    stands_for e (w_p w) id s -> unwrap_credential e id h w = (Ok o, w') ->
    o = if bytes_eqb h (so_rp_hash s) then Some s else None.
  Proof.
    intros (m & M & L & U) H. unfold unwrap_credential in H. rewrite L in H.
    change (241 <? CBOR_CREDENTIAL_ID_SIZE)%nat with false in H. change (32 <=? 241)%nat with true in H. cbv iota in H.
    apply bind_ok in H as (u & w0 & Hu & H). apply ret_ok in Hu as [_ ->].
    apply bind_ok in H as (m' & w1 & H1 & H).
    assert (m' = m).
    { pose proof (master_frame e w) as F. rewrite H1 in F. pose proof (fr_p _ _ _ F m M) as Q. apply master_keys_ok in H1. cbn in Q. congruence. }
    subst m'. rewrite U in H. apply ret_ok in H as [H _]. now symmetry.
  Qed.

  Definition ids_short (p : pers) : Prop := Forall (fun x => length (cr_id (snd x)) = 32%nat) (p_creds p).

  Lemma listed_stands id s rp h uv d w o w' :
    stands_for e (w_p w) id s -> ids_short (w_p w) -> de_id d = id ->
    listed_credential e rp h uv d w = (Ok o, w') ->
    o = if (bytes_eqb h (so_rp_hash s) && listed uv (so_policy s))%bool then Some (to_public_source id s) else None.
  Proof.
    intros S I D H. unfold listed_credential in H. apply bind_ok in H as (r & w1 & H1 & H).
    assert (F : fr Pmaster w w1).
    { assert (RR : rel Pmaster (find_credential e rp (de_id d))) by rel_walk. specialize (RR w). now rewrite H1 in RR. }
    assert (r = None).
    { destruct r as [x | ]; [ | reflexivity]. apply find_credential_ok in H1 as (k & I1 & I2 & _).
      unfold ids_short in I. rewrite Forall_forall in I. apply I in I1. cbn in I1.
      destruct S as (_ & _ & L & _). rewrite I2, D, L in I1. discriminate. }
    subst r. apply bind_ok in H as (s' & w2 & H2 & H). rewrite D in H2.
    apply (unwrap_stands id s) in H2; [ | exact (stands_frame _ _ _ _ _ F S)]. subst s' id.
    destruct (bytes_eqb h (so_rp_hash s)); cbn [andb]; [ | apply ret_ok in H as [H _]; now symmetry].
    apply ret_ok in H as [H _]. exact H.
  Qed.

  Lemma first_stands id s rp h uv l : forall w o w',
    stands_for e (w_p w) id s -> ids_short (w_p w) -> bytes_eqb h (so_rp_hash s) = true ->
    listed uv (so_policy s) = true -> (exists d, In d l /\ de_id d = id) ->
    first_listed e rp h uv l w = (Ok o, w') -> o <> None.
  Proof.
    induction l as [ | d l IH]; intros w o w' S I B L (d0 & D1 & D2) H; [destruct D1 | ]. cbn [first_listed] in H.
    apply bind_ok in H as (x & w1 & H1 & H).
    destruct (listed_frames e rp h uv d) as [F1 F2]. specialize (F1 w). specialize (F2 w). rewrite H1 in F1, F2. cbn [snd] in *.
    destruct D1 as [-> | D1].
    - apply (listed_stands id s) in H1; auto. rewrite B, L in H1. cbn in H1. subst x.
      apply ret_ok in H as [-> _]. discriminate.
    - destruct x as [x | ]; [apply ret_ok in H as [-> _]; discriminate | ].
      apply (IH w1 o w'); auto.
      + exact (stands_frame _ _ _ _ _ F2 S).
      + unfold ids_short. pose proof (fr_p _ _ _ F1) as Q. cbn in Q. now rewrite Q.
      + eauto.
  Qed.

  (** ** Assertions *)
  Lemma ga_uv_frames p : rel Pmaster (ga_user_verification e p) /\ rel Pc (ga_user_verification e p).
  Proof. split; rel_walk. Qed.

  Lemma ga_finds id s p ch l w y w' :
    stands_for e (w_p w) id s -> ids_short (w_p w) -> sha256 (e_prims e) (ga_rp p) = so_rp_hash s ->
    listed (is_some (ga_auth p)) (so_policy s) = true -> ga_allow p = Some l -> (exists d, In d l /\ de_id d = id) ->
    process_get_assertion e p ch w = (y, w') -> y <> Err NO_CREDENTIALS.
  Proof.
    intros S I B L A D H E. subst y.
    pose proof (or_introl eq_refl : telling NO_CREDENTIALS) as T.
    assert (U : forall X (m : M status X) w0 w1, never NO_CREDENTIALS m -> m w0 = (Err NO_CREDENTIALS, w1) -> False).
    { intros X m w0 w1 N E. specialize (N w0). rewrite E in N. now apply N. }
    unfold process_get_assertion in H. cbv zeta in H.
    apply bind_err in H as [H | (? & w1 & H1 & H)]; [revert H; apply U; nt_walk T | ].
    apply precheck_ok in H1 as [-> _].
    apply bind_err in H as [H | (? & w1 & H1 & H)]; [revert H; apply U; nt_walk T | ].
    apply guard_ok in H1 as [_ ->].
    apply bind_err in H as [H | (? & w1 & H1 & H)]; [revert H; apply U; nt_walk T | ].
    destruct (ga_uv_frames p) as [F1 F2]. specialize (F1 w). specialize (F2 w). rewrite H1 in F1, F2. cbn [snd] in *.
    apply bind_err in H as [H | (sel & w2 & H2 & H)]; [revert H; apply U; nt_walk T | ].
    unfold ga_select in H2. rewrite A in H2. apply bind_ok in H2 as (o & w3 & H2 & H3). apply ret_ok in H3 as [-> ->].
    assert (N : o <> None).
    { apply (first_stands id s) in H2; auto.
      - exact (stands_frame _ _ _ _ _ F1 S).
      - unfold ids_short. pose proof (fr_p _ _ _ F2) as Q. cbn in Q. now rewrite Q.
      - rewrite B. now apply bytes_eqb_eq. }
    destruct o as [c | ]; [ | contradiction]. revert H. apply U. nt_walk T.
  Qed.

  Lemma ga_signs id s p ch d w g w' :
    stands_for e (w_p w) id s -> ids_short (w_p w) -> ga_allow p = Some [d] -> de_id d = id ->
    process_get_assertion e p ch w = (Ok g, w') ->
    sha256 (e_prims e) (ga_rp p) = so_rp_hash s /\ listed (is_some (ga_auth p)) (so_policy s) = true /\
    exists gr, g = RGetAssertion gr /\ gr_id gr = id /\
      gr_sig gr = sign (e_prims e) (so_key s) (gr_auth_data gr ++ ga_cdh p).
  Proof.
    intros S I A D H. unfold process_get_assertion in H. cbv zeta in H.
    apply bind_ok in H as (? & w1 & H1 & H). apply precheck_ok in H1 as [-> _].
    apply bind_ok in H as (? & w1 & H1 & H). apply guard_ok in H1 as [_ ->].
    apply bind_ok in H as (? & w3 & H3 & H).
    destruct (ga_uv_frames p) as [F1 F2]. specialize (F1 w). specialize (F2 w). rewrite H3 in F1, F2. cbn [snd] in *.
    apply bind_ok in H as (sel & w4 & H4 & H). unfold ga_select in H4. rewrite A in H4.
    apply bind_ok in H4 as (o & w5 & H4 & H5). apply ret_ok in H5 as [-> ->].
    cbn [first_listed] in H4. apply bind_ok in H4 as (o' & w6 & H4 & H5).
    apply (listed_stands id s) in H4; auto.
    2: { exact (stands_frame _ _ _ _ _ F1 S). }
    2: { unfold ids_short. pose proof (fr_p _ _ _ F2) as Q. cbn in Q. now rewrite Q. }
    change (match ga_auth p with Some _ => true | None => false end) with (is_some (ga_auth p)) in H4.
    destruct (bytes_eqb _ _) eqn:B; [ | cbn in H4; subst o'; apply ret_ok in H5 as [-> _]; apply fail_ok in H; contradiction].
    destruct (listed _ _) eqn:L; [ | cbn in H4; subst o'; apply ret_ok in H5 as [-> _]; apply fail_ok in H; contradiction].
    cbn [andb] in H4. subst o'. apply ret_ok in H5 as [-> _]. apply bytes_eqb_eq in B.
    split; [exact B | ]. split; [reflexivity | ].
    apply bind_ok in H as (? & w8 & _ & H). apply bind_ok in H as (? & w9 & _ & H).
    apply bind_ok in H as (ad & w10 & _ & H). apply bind_ok in H as (number & w11 & _ & H).
    apply bind_ok in H as (g' & w12 & H10 & H). apply ret_ok in H as [-> _].
    apply assertion_response_asserts in H10 as [(A1 & _ & A2 & A3) _]. exists g'. auto.
  Qed.

  Lemma u2f_signs id s c a fl w r w' :
    stands_for e (w_p w) id s -> u2f_authenticate e c a id fl w = (Ok r, w') ->
    a = so_rp_hash s /\ listed false (so_policy s) = true /\
    exists counter, r = UP_FLAG :: counter ++ sign (e_prims e) (so_key s) (a ++ UP_FLAG :: counter ++ c) /\ length counter = 4%nat.
  Proof.
    intros S H. unfold u2f_authenticate in H. apply bind_ok in H as (o & w1 & H1 & H). apply map_status_ok in H1.
    apply (unwrap_stands id s) in H1; [ | exact S].
    destruct (bytes_eqb a (so_rp_hash s)) eqn:B; [ | subst o; apply fail_ok in H; contradiction]. subst o.
    destruct (listed false (so_policy s)) eqn:L; [ | apply fail_ok in H; contradiction].
    apply bytes_eqb_eq in B. split; [exact B | ]. split; [reflexivity | ].
    apply bind_ok in H as (? & w2 & _ & H). apply bind_ok in H as (? & w3 & _ & H).
    apply bind_ok in H as (ad & w4 & H4 & H). apply map_status_ok in H4. apply generate_auth_data_ok in H4 as [-> _].
    apply bind_ok in H as (sg & w5 & H5 & H). apply ret_ok in H as [-> _].
    apply map_status_ok in H5. unfold sign_and_encode in H5. destruct (key_valid _ _); [ | apply fail_ok in H5; contradiction].
    apply ret_ok in H5 as [-> _]. eexists. split; [ | apply (be_bytes_length 4)].
    rewrite skipn_app, Nat.sub_diag, skipn_all. rewrite <- !app_assoc. reflexivity.
  Qed.
End Sealing.
