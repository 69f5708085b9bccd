(** Transfers of the large blob array. *)
From Verif Require Import Base Facts Hid.Model U2f.Model Cbor.Model Ctap.Crypto Ctap.Types Ctap.Machine
  Ctap.Commands Ctap.Parse Ctap.System Ctap.Logic Ctap.History Ctap.Track Ctap.Pin Ctap.PinChange
  Ctap.TokenSpec Ctap.Token Ctap.Success Ctap.Auth Ctap.Gate Ctap.Answers Ctap.TokenUse Ctap.Reset Ctap.Keys Ctap.Protect.
From Coq Require Import List Lia.
Import ListNotations.

(** * Specification *)

(** CTAP 2.1, 6.10: a serialised array ends with the first half of the hash of the rest. *)
Definition hash_valid (c : prims) (b : bytes) : Prop :=
  exists content, b = content ++ firstn 16 (sha256 c content).

(** The user protects the device by a PIN, or by the option alwaysUv. *)
Definition fragment_allowed (e : env) (w : world) (p : lb_params) (s : bytes) : Prop :=
  (p_pin (w_p w) = None /\ (c_enforce_uv (e_cfg e) || p_uv (w_p w)) = false) \/
  exists sg pp, lb_auth p = Some sg /\ lb_proto p = Some pp /\
    authorised (e_prims e) (w_log w) (w_now w) pp
      (repeat 255%N 32 ++ [0x0C%N; 0%N] ++ rev (be_bytes 4 (lb_offset p)) ++ sha256 (e_prims e) s)
      sg 16 (fun _ => True).
(** A message that sets the bytes [s] of the large blob array. *)
Definition fragment (e : env) (o : op) (p : lb_params) (s : bytes) : Prop :=
  exists b cid, o = OpMessage b (MainHid cid) /\ parse_command (e_cfg e) b = Ok (CLargeBlobs p) /\
    lb_get p = None /\ lb_set p = Some s.
Definition accepted (e : env) (w : world) (o : op) : Prop :=
  exists r w', run_op e o w = (OutCtap (Ok r), w').
(** In the history the device has accepted fragments of an array of length [n], in order from its
    beginning, without power loss; together they are [buf].  With [quiet], nothing else was sent to
    offset 0 meanwhile. *)
Inductive received (e : env) (quiet : bool) : list (op * option nat) -> bytes -> N -> Prop :=
| received_first h o p s n :
    fragment e o p s -> lb_offset p = 0%N -> lb_length p = Some n ->
    accepted e (run e h) o -> fragment_allowed e (run e h) p s ->
    received e quiet (h ++ [(o, None)]) s n
| received_next h o p s buf n :
    received e quiet h buf n -> fragment e o p s -> lb_offset p = Nlen buf -> lb_offset p <> 0%N ->
    accepted e (run e h) o -> fragment_allowed e (run e h) p s ->
    received e quiet (h ++ [(o, None)]) (buf ++ s) n
| received_other h o buf n :
    received e quiet h buf n ->
    ~ (exists p s, fragment e o p s /\ (accepted e (run e h) o \/ quiet = true /\ lb_offset p = 0%N)) ->
    received e quiet (h ++ [(o, None)]) buf n.

(** * Proofs *)
Section Blob.
  Variable e : env.
  Let lb (w : world) : blobs := v_lb (w_v w).

  Definition fragment_auth (p : lb_params) (s : bytes) (w : world) : Prop :=
    (p_pin (w_p w) = None /\ (c_enforce_uv (e_cfg e) || p_uv (w_p w)) = false) \/
    exists sg pp, lb_auth p = Some sg /\ lb_proto p = Some pp /\
      checked e w PERM_LBW (lb_message e (lb_offset p) s) sg pp.

  (** The buffer and length that a fragment continues. *)
  Definition continues (p : lb_params) (b : blobs) (buf : bytes) (len : N) : Prop :=
    (lb_offset p = 0 /\ buf = [] /\ lb_length p = Some len /\ len <= c_max_blob (e_cfg e))%N \/
    (lb_offset p <> 0 /\ lb_offset p = lb_next b /\ buf = lb_buf b /\ len = lb_len b)%N.

  Definition refused (p : lb_params) (w w' : world) : Prop :=
    calm w w' /\
    (lb w' = lb w \/ lb_offset p = 0%N /\
      (lb_next (lb w') = 0%N \/
       exists n, (c_max_blob (e_cfg e) < n)%N /\ lb w' = mkBlobs (lb_buf (lb w)) n (lb_next (lb w)))).

  Lemma lb_start_cases p w r w' : lb_start e p w = (r, w') ->
    match r with
    | Err _ => refused p w w'
    | Ok _ => calm w w' /\
        ((lb_offset p <> 0%N /\ w' = w) \/
         exists n, lb_offset p = 0%N /\ lb_length p = Some n /\ (n <= c_max_blob (e_cfg e))%N /\
           lb w' = mkBlobs (lb_buf (lb w)) n 0)
    end.
  Proof.
    unfold lb_start. destruct (N.eqb_spec (lb_offset p) 0) as [E0 | E0].
    - destruct (lb_length p) as [n | ].
      + unfold bind, mod_lb, modify, guard. cbn. destruct (n <=? c_max_blob (e_cfg e))%N eqn:L; cbn; intro H; injection H as <- <-.
        * split; [unfold calm; cbn; auto 10 | ]. right. exists n. apply N.leb_le in L. auto.
        * apply N.leb_gt in L. split; [unfold calm; cbn; auto 10 | ]. right. split; [exact E0 | ]. right. exists n. auto.
      + intro H. injection H as <- <-. split; [apply calm_refl | now left].
    - intro H. injection H as <- <-. split; [apply calm_refl | left; auto].
  Qed.

  Lemma still_calm w w' : still w w' -> calm w w' /\ lb w' = lb w.
  Proof. intros (A & B & C & D & _). unfold calm, lb. rewrite B. auto 10. Qed.

  Lemma lb_cases p s w r w' : lb_write e p s w = (r, w') ->
    (refused p w w' /\ exists x, r = Err x) \/
    (exists buf len, continues p (lb w) buf len /\ fragment_auth p s w /\ (lb_offset p + Nlen s <= len)%N /\
       ((Nlen (buf ++ s) <> len /\ r = Ok tt /\ calm w w' /\ lb w' = mkBlobs (buf ++ s) len (Nlen (buf ++ s))) \/
        (Nlen (buf ++ s) = len /\ lb_next (lb w') = 0%N /\
          ((w_p w' = w_p w /\ w_log w' = w_log w /\ exists x, r = Err x) \/
           (hash_valid (e_prims e) (buf ++ s) /\ (len <= c_max_blob (e_cfg e))%N /\
            w_p w' = set_blob (Some (buf ++ s)) (w_p w) /\ w_log w' = LWrite (w_p w') :: w_log w /\
            (r = Ok tt \/ exists i, e_fault e i <> None)))))).
  Proof.
    unfold lb_write. unfold bind at 1, guard at 1.
    destruct (Nlen s <=? c_max_msg (e_cfg e) - 64)%N.
    2: { intro H. injection H as <- <-. left. split; [split; [apply calm_refl | now left] | eauto]. }
    cbn [ret]. unfold bind at 1. destruct (lb_start e p w) as [[u | x] w1] eqn:S.
    2: { apply lb_start_cases in S. intro H. injection H as <- <-. left. eauto. }
    apply lb_start_cases in S as [C1 S].
    unfold bind at 1. cbn [gets]. unfold bind at 1, guard at 1.
    destruct (N.eqb_spec (lb_offset p) (lb_next (v_lb (w_v w1)))) as [En | En].
    2: { intro H. injection H as <- <-. left. split; [ | eauto]. split; [exact C1 | ].
         destruct S as [[_ ->] | (n & E0 & E1 & E2 & E3)]; [now left | ]. right. split; [exact E0 | ]. left. now rewrite E3. }
    cbn [ret]. unfold bind at 1. pose proof (reads_lb_authorise e p s w1) as R.
    destruct (lb_authorise e p s w1) as [[u1 | x] w2] eqn:A; cbn [snd] in R; apply still_calm in R as [C2 L2].
    2: { intro H. injection H as <- <-. left. split; [ | eauto]. split; [exact (calm_trans _ _ _ C1 C2) | ].
         rewrite L2. destruct S as [[_ ->] | (n & E0 & E1 & E2 & E3)]; [now left | ]. right. split; [exact E0 | ]. left. now rewrite E3. }
    apply lb_authorise_ok in A.
    assert (A' : fragment_auth p s w).
    { unfold fragment_auth. destruct C1 as (SP & _ & ST & S1 & S2 & _). rewrite SP in A.
      destruct A as [A | (sg & pp & A1 & A2 & A3)]; [now left | right]. exists sg, pp. split; [exact A1 | ]. split; [exact A2 | ].
      unfold checked, proto_of in *. now rewrite ST, S1, S2 in A3. }
    unfold bind at 1. cbn [gets]. unfold bind at 1, guard at 1. fold (lb w2). rewrite L2.
    set (b1 := lb w1) in *.
    destruct (lb_offset p + Nlen s <=? lb_len b1)%N eqn:Le.
    2: { intro H. injection H as <- <-. left. split; [ | eauto]. split; [exact (calm_trans _ _ _ C1 C2) | ].
         rewrite L2. destruct S as [[_ ->] | (n & E0 & E1 & E2 & E3)]; [now left | ]. right. split; [exact E0 | ]. left. now rewrite E3. }
    apply N.leb_le in Le. cbn [ret]. unfold bind at 1, mod_lb at 1, modify at 1. unfold bind at 1. cbn [gets w_v v_lb set_lb lb_next lb_len lb_buf].
    fold (lb w2). rewrite L2. fold b1.
    set (buf := if (lb_offset p =? 0)%N then [] else lb_buf b1).
    assert (Hc : continues p (lb w) buf (lb_len b1)).
    { unfold buf. destruct S as [[E0 ->] | (n & E0 & E1 & E2 & E3)].
      - right. unfold b1. rewrite (proj2 (N.eqb_neq _ _) E0). unfold lb in *. auto.
      - left. rewrite E0, E3. cbn. auto. }
    pose proof (calm_trans _ _ _ C1 C2) as C. clear S C1 C2 A En.
    intro H. right. exists buf, (lb_len b1). split; [exact Hc | ]. split; [exact A' | ]. split; [exact Le | ].
    set (w3 := mkWorld _ _ _ _ _ _ _) in H.
    assert (C3 : calm w w3) by (unfold calm in *; cbn; intuition).
    assert (L3 : lb w3 = mkBlobs (buf ++ s) (lb_len b1) (Nlen (buf ++ s))) by reflexivity.
    clearbody w3. clear C A'. destruct (N.eqb_spec (Nlen (buf ++ s)) (lb_len b1)) as [Ec | Ec].
    2: { left. injection H as <- <-. auto. }
    right. split; [exact Ec | ]. unfold lb_complete in H. unfold bind at 1, mod_lb at 1, modify at 1 in H.
    unfold bind at 1 in H. cbn [gets w_v v_lb set_lb lb_buf] in H. fold (lb w3) in H. rewrite L3 in H. cbn [lb_buf] in H.
    set (w4 := mkWorld _ _ _ _ _ _ _) in H.
    assert (C4 : calm w w4) by (unfold calm in *; cbn; intuition).
    assert (L4 : lb w4 = mkBlobs (buf ++ s) 0 0) by reflexivity. clearbody w4. clear w3 C3 L3.
    unfold bind at 1, guard at 1 in H. destruct (16 <=? length (buf ++ s))%nat eqn:L16.
    2: { injection H as <- <-. split; [now rewrite L4 | ]. left. destruct C4 as (P & Q & _). split; [exact P | ]. split; [exact Q | ]. eauto. }
    cbn [ret] in H. cbv zeta in H. apply Nat.leb_le in L16.
    destruct (bytes_eqb _ _) eqn:B.
    2: { unfold bind, mod_lb, modify, fail in H. injection H as <- <-. cbn. split; [first [reflexivity | exact (f_equal lb_next L4)] | ].
         left. destruct C4 as (P & Q & _). split; [exact P | ]. split; [exact Q | ]. eauto. }
    apply bytes_eqb_eq in B.
    assert (V : hash_valid (e_prims e) (buf ++ s)).
    { exists (firstn (length (buf ++ s) - 16) (buf ++ s)). rewrite B. symmetry. apply firstn_skipn. }
    unfold bind, commit_large_blob_array in H. destruct (_ <? _)%N eqn:Lm.
    { cbn in H. injection H as <- <-. split; [now rewrite L4 | ]. left.
      destruct C4 as (P & Q & _). split; [exact P | ]. split; [exact Q | ]. eauto. }
    apply N.ltb_ge in Lm. rewrite Ec in Lm.
    unfold store in H. destruct C4 as (P & Q & _). destruct (e_fault e (w_op w4)) as [[x [ | ]] | ] eqn:F.
    - injection H as <- <-. cbn. split; [first [reflexivity | exact (f_equal lb_next L4)] | ]. right.
      split; [exact V | ]. split; [exact Lm | ]. split; [now rewrite P | ]. split; [now rewrite Q | ]. right. exists (w_op w4). congruence.
    - injection H as <- <-. cbn. split; [first [reflexivity | exact (f_equal lb_next L4)] | ]. left. split; [exact P | ]. split; [exact Q | ]. eauto.
    - cbn in H. injection H as <- <-. cbn. split; [first [reflexivity | exact (f_equal lb_next L4)] | ]. right.
      split; [exact V | ]. split; [exact Lm | ]. split; [now rewrite P | ]. split; [now rewrite Q | ]. now left.
  Qed.

  (** Everything but large blob and reset commands keeps the transfer and the array. *)
  Definition Plb : params.
  Proof.
    refine (mkPar (fun p q => p_blob q = p_blob p) (fun u v => v_lb v = v_lb u) anyE _ _ _ _); congruence.
  Defined.
  Definition Pinit : params.
  Proof.
    refine (mkPar (fun p q => p_blob q = p_blob p \/ p_blob q = None) (fun u v => v_lb v = v_lb u) anyE _ _ _ _);
      intuition congruence.
  Defined.
  Definition small (x : command) : Prop := match x with CReset | CLargeBlobs _ => False | _ => True end.
  Lemma plb_parsed x ch : small x -> rel Plb (process_parsed_command e x ch).
  Proof. intro H. destruct x; try destruct H; rel_walk; intro v; try destruct (pi_proto p); cbn; auto. Qed.
  Lemma plb_preamble x ch : rel Plb (preamble x ch).
  Proof. unfold preamble; rel_walk. Qed.
  Lemma pinit_parsed ch : rel Pinit (process_parsed_command e CReset ch).
  Proof. rel_walk; cbn; auto. Qed.

  (** A fragment, processed. *)
  Lemma fragment_run o p s w y w' : fragment e o p s -> run_op e o w = (y, w') ->
    exists cid w1 r, preamble (CLargeBlobs p) (MainHid cid) w = (Ok tt, w1) /\
      w_p w1 = w_p w /\ w_log w1 = w_log w /\ lb w1 = lb w /\ lb_write e p s w1 = (r, w') /\
      y = OutCtap (match r with Ok _ => Ok (RLargeBlobs None) | Err x => Err x end).
  Proof.
    intros (b & cid & -> & Hx & Hg & Hs) H. destruct (run_op e (OpMessage b (MainHid cid)) w) as [y0 w0] eqn:R.
    injection H as -> ->. assert (Y : exists r, y = OutCtap r).
    { cbn [run_op] in R. destruct (process_command _ _ _ _). injection R as <- _. eauto. }
    destruct Y as [r ->]. destruct (message_any _ _ _ _ _ _ _ Hx R) as (w1 & Hp & P1 & Hf).
    destruct (preamble_p _ _ _ _ Hp) as (_ & L1 & _). pose proof (plb_preamble (CLargeBlobs p) (MainHid cid) w) as F.
    rewrite Hp in F. pose proof (fr_v _ _ _ F) as V. cbn in V.
    cbn [process_fido_command] in Hf. unfold process_large_blobs in Hf. rewrite Hg, Hs in Hf. unfold bind in Hf.
    destruct (lb_write e p s w1) as [r1 w2] eqn:E. exists cid, w1, r1. split; [exact Hp | ]. split; [exact P1 | ].
    split; [exact L1 | ]. split; [exact V | ]. destruct r1; injection Hf as <- <-; auto.
  Qed.
  Lemma allowed_here h x ch w1 p s :
    preamble x ch (run e h) = (Ok tt, w1) -> fragment_auth p s w1 -> fragment_allowed e (run e h) p s.
  Proof.
    intros Hp H. destruct (preamble_p _ _ _ _ Hp) as (P1 & _). unfold fragment_auth in H. rewrite P1 in H.
    destruct H as [H | (sg & pp & A1 & A2 & A3)]; [left; exact H | right]. exists sg, pp. split; [exact A1 | ]. split; [exact A2 | ].
    eapply checked_authorised; [apply reachable_tok | exact Hp | exact A3 | auto].
  Qed.

  Lemma fragment_dec o : (exists p s, fragment e o p s) \/ ~ (exists p s, fragment e o p s).
  Proof.
    unfold fragment. destruct o as [b [cid | cid] | b | ch b en | | d | k]; try (right; intros (? & ? & ? & ? & H & _); discriminate).
    destruct (parse_command (e_cfg e) b) as [x | x] eqn:E.
    2: { right. intros (? & ? & ? & ? & H & H1 & _). injection H as <- <-. congruence. }
    destruct x as [p | p | | p | | | p | | p | p]; try (right; intros (? & ? & ? & ? & H & H1 & _); injection H as <- <-; congruence).
    destruct (lb_get p) eqn:G.
    1: { right. intros (? & ? & ? & ? & H & H1 & H2 & _). injection H as <- <-. congruence. }
    destruct (lb_set p) as [s | ] eqn:S.
    2: { right. intros (? & ? & ? & ? & H & H1 & H2 & H3). injection H as <- <-. congruence. }
    left. exists p, s, b, cid. auto.
  Qed.

  Definition is_reset (o : op) : Prop :=
    exists b ch, o = OpMessage b ch /\ parse_command (e_cfg e) b = Ok CReset.
  Lemma other_frame o w : ~ (exists p s, fragment e o p s) ->
    fr Pinit w (snd (run_op e o w)) /\ (is_reset o \/ fr Plb w (snd (run_op e o w))).
  Proof.
    intro N. assert (G : forall w w', fr Plb w w' -> fr Pinit w w').
    { intros a b [(l & E & F) p v n u r W]. split; auto.
      - exists l. split; [exact E | ]. eapply Forall_impl; [ | exact F]. intros [q | ev]; cbn; auto.
      - now left. }
    destruct o as [b ch | b | ch b en | | d | k].
    - destruct (parse_command (e_cfg e) b) as [x | x] eqn:E.
      2: { assert (R : fr Plb w (snd (run_op e (OpMessage b ch) w))).
           { cbn [run_op]. unfold process_command, bind, lift. rewrite E. apply fr_refl. }
           auto. }
      assert (D : x = CReset \/ small x \/ exists p, x = CLargeBlobs p) by (destruct x; cbn; eauto).
      assert (Q : snd (run_op e (OpMessage b ch) w) = snd (process_parsed_command e x ch w)).
      { cbn [run_op]. unfold process_command, bind, lift. rewrite E. now destruct (process_parsed_command e x ch w). }
      rewrite Q. destruct D as [-> | [D | [p ->]]].
      + split; [apply pinit_parsed | ]. left. exists b, ch. auto.
      + pose proof (plb_parsed x ch D w). auto.
      + assert (R : fr Plb w (snd (process_parsed_command e (CLargeBlobs p) ch w))); [ | auto].
        rewrite split_message. unfold bind. pose proof (plb_preamble (CLargeBlobs p) ch w) as F.
        destruct (preamble (CLargeBlobs p) ch w) as [[u | x] w1]; [ | exact F]. eapply fr_trans; [exact F | ].
        destruct ch as [cid | cid].
        2: { assert (R : rel Plb (process_vendor_command e (CLargeBlobs p))) by rel_walk. apply R. }
        cbn [process_fido_command]. unfold process_large_blobs. destruct (lb_get p) as [n | ] eqn:Gt.
        * assert (R : rel Plb (do* guard (negb ((c_max_msg (e_cfg e) - 64 <? n)%N || (2 ^ c_width (e_cfg e) <=? lb_offset p + n)%N))
              INVALID_LENGTH in let* b := get_large_blob_array e (lb_offset p) n in ret (RLargeBlobs (Some b)))) by rel_walk. apply R.
        * destruct (lb_set p) as [s | ] eqn:St; [ | apply fr_refl]. exfalso. apply N. exists p, s, b, cid. auto.
    - cbn [run_op]. assert (R : rel Plb (u2f_process e b)) by rel_walk.
      specialize (R w). destruct (u2f_process e b w); auto.
    - cbn [run_op snd]. assert (R : fr Plb w (snd (after_vendor_response ch (write_world (set_atts b en (w_p w)) w)))); [ | auto].
      eapply fr_trans; [apply (fr_write _ (set_atts b en (w_p w))); cbn; auto | ].
      assert (R : rel Plb (after_vendor_response ch)) by rel_walk. apply R.
    - assert (R : fr Plb w (snd (run_op e OpTouch w))); [ | auto]. cbn [run_op snd].
      apply (rel_modify (E := status) Plb). intro v. reflexivity.
    - assert (R : fr Plb w (snd (run_op e (OpTick d) w))); [ | auto].
      split; cbn; auto; try lia. exists []. split; [reflexivity | constructor].
    - assert (R : fr Plb w (snd (run_op e (OpCompact k) w))); [ | auto]. apply fr_write. cbn. auto.
  Qed.

  (** The device knows what it has received. *)
  Definition knows (h : list (op * option nat)) : Prop :=
    let b := lb (run e h) in
    lb_next b = 0%N \/
    exists n, received e false h (lb_buf b) n /\ lb_next b = Nlen (lb_buf b) /\
      (lb_len b = n \/ (c_max_blob (e_cfg e) < lb_len b)%N).
  Definition remembers (h : list (op * option nat)) : Prop :=
    forall buf n, received e true h buf n ->
    let b := lb (run e h) in
    lb_next b = 0%N \/ b = mkBlobs buf n (Nlen buf).

  Lemma lb_reboot w : lb (reboot e w) = mkBlobs [] 0 0.
  Proof. reflexivity. Qed.
  Lemma run_none h o : run e (h ++ [(o, None)]) = snd (run_op e o (run e h)).
  Proof. now rewrite run_app. Qed.
  Lemma run_some h o n : lb (run e (h ++ [(o, Some n)])) = mkBlobs [] 0 0.
  Proof. now rewrite run_app. Qed.
  Lemma other_lb h o : ~ (exists p s, fragment e o p s) -> lb (run e (h ++ [(o, None)])) = lb (run e h).
  Proof.
    intro N. rewrite run_none. destruct (other_frame o (run e h) N) as [F _]. exact (fr_v _ _ _ F).
  Qed.
  Lemma fragment_fun o p s p' s' : fragment e o p s -> fragment e o p' s' -> p' = p /\ s' = s.
  Proof.
    intros (b & cid & -> & A1 & A2 & A3) (b' & cid' & B0 & B1 & B2 & B3). injection B0 as <- <-.
    rewrite A1 in B1. injection B1 as <-. rewrite A3 in B3. injection B3 as <-. auto.
  Qed.

  (** What a fragment does to the transfer. *)
  Lemma fragment_step h o p s : fragment e o p s ->
    let b := lb (run e h) in let b' := lb (run e (h ++ [(o, None)])) in
    (~ accepted e (run e h) o /\
      (b' = b \/ lb_offset p = 0%N /\
        (lb_next b' = 0%N \/ exists n, (c_max_blob (e_cfg e) < n)%N /\ b' = mkBlobs (lb_buf b) n (lb_next b)))) \/
    (exists buf len, continues p b buf len /\ fragment_allowed e (run e h) p s /\ (lb_offset p + Nlen s <= len)%N /\
       ((accepted e (run e h) o /\ b' = mkBlobs (buf ++ s) len (Nlen (buf ++ s))) \/ lb_next b' = 0%N)).
  Proof.
    intros F b b'. unfold b'. rewrite run_none. destruct (run_op e o (run e h)) as [y w'] eqn:R.
    destruct (fragment_run _ _ _ _ _ _ F R) as (cid & w1 & r & Hp & P1 & L1 & V1 & Hl & ->).
    apply lb_cases in Hl. rewrite V1 in Hl. unfold refused in Hl. rewrite V1 in Hl. cbn [snd].
    destruct Hl as [[[_ Hl] [x ->]] | (buf & len & Hc & Ha & Hn & Hl)].
    - left. split; [ | exact Hl]. intros (r & w2 & Q). rewrite R in Q. discriminate.
    - right. exists buf, len. split; [exact Hc | ]. split; [exact (allowed_here _ _ _ _ _ _ Hp Ha) | ].
      split; [exact Hn | ]. destruct Hl as [(_ & -> & _ & Hl) | (_ & Hl & _)]; [left | now right].
      split; [ | exact Hl]. exists (RLargeBlobs None), w'. exact R.
  Qed.

  Lemma knows_all h : knows h.
  Proof.
    induction h as [ | [o [k | ]] h IH] using rev_ind.
    - left. reflexivity.
    - left. now rewrite run_some.
    - destruct (fragment_dec o) as [(p & s & F) | N].
      2: { unfold knows in *. rewrite other_lb by exact N. destruct IH as [IH | (n & I1 & I2)]; [now left | right].
           exists n. split; [ | exact I2]. apply received_other; [exact I1 | ]. intros (p & s & F & _). eauto. }
      unfold knows. destruct (fragment_step h o p s F) as [(A & H) | (buf & len & C & Al & _ & H)].
      + assert (T : forall buf n, received e false h buf n -> received e false (h ++ [(o, None)]) buf n).
        { intros buf n T. apply received_other; [exact T | ]. intros (? & ? & ? & [Q | [Q _]]); [tauto | discriminate]. }
        destruct H as [-> | (O & [H | (n & L & ->)])].
        * destruct IH as [IH | (n & I1 & I2)]; [now left | right]. exists n. auto.
        * now left.
        * cbn [lb_next lb_buf lb_len]. destruct IH as [IH | (n0 & I1 & I2 & _)]; [now left | right]. exists n0. auto.
      + destruct H as [[A ->] | H]; [ | now left]. right. cbn [lb_next lb_buf lb_len].
        destruct C as [(C1 & -> & C2 & _) | (C1 & C2 & -> & ->)].
        * exists len. cbn [app]. split; [ | auto]. eapply received_first; eauto.
        * destruct IH as [IH | (n & I1 & I2 & I3)]; [congruence | ]. exists n. split; [ | auto].
          eapply received_next; eauto; congruence.
  Qed.

  Lemma received_bound q h buf n : received e q h buf n -> (n <= c_max_blob (e_cfg e))%N.
  Proof.
    induction 1 as [h o p s n F O L A Al | | ]; auto.
    destruct (fragment_step h o p s F) as [(A' & _) | (b & len & [(_ & _ & C & B) | (C & _)] & _)]; [tauto | | congruence].
    rewrite L in C. injection C as ->. exact B.
  Qed.

  Lemma remembers_all h : remembers h.
  Proof.
    induction h as [ | [o k] h IH] using rev_ind; intros buf n R b; subst b.
    { inversion R as [? ? ? ? ? ? ? ? ? ? E | ? ? ? ? ? ? ? ? ? ? ? ? E | ? ? ? ? ? ? E]; now apply app_eq_nil in E as [_ E]. }
    inversion R as [h0 o0 p s n0 F O L A Al E E1 E2 | h0 o0 p s buf0 n0 R0 F O Nz A Al E E1 E2 | h0 o0 buf0 n0 R0 N E E1 E2];
      subst; apply app_inj_tail in E as [-> E]; injection E as -> <-.
    - destruct (fragment_step h o p _ F) as [(A' & _) | (b & len & C & _ & _ & H)]; [tauto | ].
      destruct C as [(_ & -> & C & _) | (C & _)]; [ | congruence]. rewrite L in C. injection C as <-.
      destruct H as [[_ H] | H]; auto.
    - destruct (fragment_step h o p _ F) as [(A' & _) | (b & len & C & _ & _ & H)]; [tauto | ].
      destruct C as [(C & _) | (_ & C1 & -> & ->)]; [congruence | ]. destruct H as [[_ H] | H]; [ | now left].
      destruct (IH _ _ R0) as [I1 | I1]; [congruence | ]. right. rewrite H, I1. reflexivity.
    - destruct (fragment_dec o) as [(p & s & F) | N'].
      2: { rewrite other_lb by exact N'. exact (IH _ _ R0). }
      destruct (fragment_step h o p s F) as [(A & H) | (b & len & C & _ & _ & H)].
      + destruct H as [-> | [O _]]; [exact (IH _ _ R0) | ]. exfalso. apply N. eauto 10.
      + destruct H as [[A _] | H]; [ | now left]. exfalso. apply N. eauto 10.
  Qed.

  (** The array changes by a reset, or as a fragment completes it. *)
  Definition completes (q : bool) (h : list (op * option nat)) (p : lb_params) (s : bytes) (n : N) (new : bytes) : Prop :=
    Nlen new = n /\
    ((lb_offset p = 0%N /\ lb_length p = Some n /\ new = s) \/
     exists buf, received e q h buf n /\ lb_offset p = Nlen buf /\ lb_offset p <> 0%N /\ new = buf ++ s).

  Lemma array_changes h o k :
    blob_of (w_p (step e (run e h) (o, k))) <> blob_of (w_p (run e h)) ->
    (is_reset o /\ blob_of (w_p (step e (run e h) (o, k))) = EMPTY_LARGE_BLOB) \/
    exists p s n, fragment e o p s /\ fragment_allowed e (run e h) p s /\
      completes false h p s n (blob_of (w_p (step e (run e h) (o, k)))) /\
      (n <= c_max_blob (e_cfg e))%N /\ hash_valid (e_prims e) (blob_of (w_p (step e (run e h) (o, k)))).
  Proof.
    intro D. destruct (fragment_dec o) as [(p & s & F) | N].
    2: { left. destruct (other_frame o (run e h) N) as [F [I | F']].
         - split; [exact I | ]. destruct (step_frame e _ _ o k (run_wf e h) F) as [Q | Q].
           + exfalso. apply D. unfold blob_of. now rewrite Q.
           + unfold blob_of. now rewrite Q.
         - exfalso. apply D. unfold blob_of. pose proof (step_frame e _ _ o k (run_wf e h) F') as Q. cbn in Q. now rewrite Q. }
    right. destruct (run_op e o (run e h)) as [y w'] eqn:R.
    destruct (fragment_run _ _ _ _ _ _ F R) as (cid & w1 & r & Hp & P1 & L1 & V1 & Hl & ->).
    assert (St : forall q, (w_p w' = w_p w1 /\ w_log w' = w_log w1) \/ (w_p w' = q /\ w_log w' = LWrite q :: w_log w1) ->
        w_p (step e (run e h) (o, k)) = w_p (run e h) \/ w_p (step e (run e h) (o, k)) = q).
    { intros q Hq. unfold step. cbn [fst snd]. rewrite R. cbn [snd]. destruct k as [m | ].
      - rewrite reboot_p. unfold lose_power. cbn [w_p]. pose proof (run_wf e h) as W. unfold wf in W. rewrite L1 in Hq.
        destruct Hq as [[Q1 Q2] | [Q1 Q2]]; rewrite Q2.
        + rewrite Nat.sub_diag, Nat.min_0_r. cbn [skipn]. left. now rewrite <- W.
        + cbn [length]. replace (S (length (w_log (run e h))) - length (w_log (run e h)))%nat with 1%nat by lia.
          destruct (Nat.min_spec m 1) as [[Lt E] | [_ E]]; rewrite E; [destruct m; [ | lia] | ]; cbn; auto.
      - rewrite P1, L1 in Hq. destruct Hq as [[Q1 _] | [Q1 _]]; auto. }
    apply lb_cases in Hl. destruct Hl as [[[(C1 & C2 & _) _] _] | (buf & len & Hc & Ha & Hn & Hl)].
    { destruct (St (w_p (run e h)) (or_introl (conj C1 C2))) as [Q | Q]; rewrite Q in D; tauto. }
    destruct Hl as [(_ & _ & (C1 & C2 & _) & _) | (El & _ & [(C1 & C2 & _) | (V & Lm & C1 & C2 & _)])].
    { destruct (St (w_p (run e h)) (or_introl (conj C1 C2))) as [Q | Q]; rewrite Q in D; tauto. }
    { destruct (St (w_p (run e h)) (or_introl (conj C1 C2))) as [Q | Q]; rewrite Q in D; tauto. }
    rewrite P1 in C1. rewrite C1 in C2. destruct (St _ (or_intror (conj C1 C2))) as [Q | Q]; rewrite Q in *; [tauto | ].
    exists p, s, len. split; [exact F | ]. split; [exact (allowed_here _ _ _ _ _ _ Hp Ha) | ]. cbn [blob_of set_blob p_blob].
    split; [ | auto]. split; [exact El | ]. unfold continues in Hc. rewrite V1 in Hc.
    destruct Hc as [(O & -> & Hc & _) | (O & Hc & -> & ->)]; [left; auto | right].
    exists (lb_buf (lb (run e h))). destruct (knows_all h) as [K | (n & K1 & K2 & K3)]; [congruence | ].
    assert (n = lb_len (lb (run e h))) as -> by (destruct K3; [auto | lia]).
    split; [exact K1 | ]. split; [congruence | ]. auto.
  Qed.

  (** Complete transfers are stored. *)
  Lemma array_completed h o p s n new r w' :
    fragment e o p s -> completes true h p s n new -> run_op e o (run e h) = (OutCtap (Ok r), w') ->
    blob_of (w_p w') = new /\ hash_valid (e_prims e) new.
  Proof.
    intros F (Ln & C) R. destruct (fragment_run _ _ _ _ _ _ F R) as (cid & w1 & r1 & Hp & P1 & L1 & V1 & Hl & Y).
    apply lb_cases in Hl. rewrite V1 in Hl. destruct Hl as [[_ [x ->]] | (buf & len & Hc & Ha & Hn & Hl)]; [discriminate | ].
    assert (E : buf ++ s = new /\ len = n).
    { destruct C as [(C1 & C2 & ->) | (buf' & C1 & C2 & C3 & ->)]; destruct Hc as [(D1 & -> & D2 & _) | (D1 & D2 & -> & ->)]; try congruence.
      - split; [reflexivity | congruence].
      - destruct (remembers_all h _ _ C1) as [Q | Q]; [congruence | ]. unfold lb in *. rewrite Q. auto. }
    destruct E as [<- ->]. destruct Hl as [(X & _) | (_ & _ & [(_ & _ & [x ->]) | (V & _ & P & _)])]; [congruence | discriminate | ].
    rewrite P. auto.
  Qed.
  Lemma array_kept h o p s x w' : (forall i, e_fault e i = None) ->
    fragment e o p s -> run_op e o (run e h) = (OutCtap (Err x), w') -> w_p w' = w_p (run e h).
  Proof.
    intros NF F R. destruct (fragment_run _ _ _ _ _ _ F R) as (cid & w1 & r1 & Hp & P1 & L1 & V1 & Hl & Y).
    apply lb_cases in Hl. destruct Hl as [[[(P & _) _] _] | (buf & len & Hc & Ha & Hn & Hl)]; [congruence | ].
    destruct Hl as [(_ & _ & (P & _) & _) | (_ & _ & [(P & _) | (_ & _ & _ & _ & [-> | [i Hi]])])]; try congruence; try discriminate.
  Qed.
  Lemma received_fits h buf n : received e true h buf n -> (Nlen buf <= n)%N.
  Proof.
    induction 1 as [h o p s n F O L A Al | h o p s buf n R IH F O Nz A Al | ]; auto.
    - destruct (fragment_step h o p s F) as [(A' & _) | (b & len & [(_ & _ & C & B) | (C & _)] & _ & Q & _)]; [tauto | | congruence].
      rewrite L in C. injection C as ->. lia.
    - destruct (fragment_step h o p s F) as [(A' & _) | (b & len & [(C & _) | (_ & C & -> & ->)] & _ & Q & _)]; [tauto | congruence | ].
      destruct (remembers_all h _ _ R) as [Q' | Q']; [congruence | ]. rewrite Q' in Q. cbn [lb_len] in Q.
      unfold Nlen in *. rewrite app_length. lia.
  Qed.
  Lemma array_valid h : blob_of (w_p (run e h)) = EMPTY_LARGE_BLOB \/ hash_valid (e_prims e) (blob_of (w_p (run e h))).
  Proof.
    induction h as [ | [o k] h IH] using rev_ind.
    - left. unfold run, start. cbn [fold_left]. rewrite reboot_p. reflexivity.
    - rewrite run_app. destruct (list_eq_dec N.eq_dec (blob_of (w_p (step e (run e h) (o, k)))) (blob_of (w_p (run e h)))) as [-> | D]; [exact IH | ].
      destruct (array_changes h o k D) as [[_ D'] | (p & s & n & _ & _ & _ & _ & V)]; auto.
  Qed.
End Blob.
