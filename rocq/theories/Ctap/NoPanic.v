(** No command makes the authenticator panic: property C51. *)
From Verif Require Import Base Facts Hid.Model U2f.Model Cbor.Model Ctap.Crypto Ctap.Types Ctap.Machine
  Ctap.Commands Ctap.Parse Ctap.System Ctap.Logic Ctap.History Ctap.Track Ctap.Pin Ctap.PinChange
  Ctap.MinPin Ctap.TokenSpec Ctap.Token Ctap.Success Ctap.Auth Ctap.Gate Ctap.Answers Ctap.TokenUse.
From Coq Require Import Lia.

(** ** Parsing *)
Definition calmly {A} (r : res status A) : Prop := r <> Err Panic.
Lemma calmly_bind {A B} (r : res status A) (f : A -> res status B) :
  calmly r -> (forall a, calmly (f a)) -> calmly (a <- r ;; f a).
Proof. intros H K. destruct r as [a | s]; [apply K | ]. intro E. apply H. cbn in E. congruence. Qed.
Lemma calmly_map_opt {A B} (f : A -> res status B) o : (forall a, calmly (f a)) -> calmly (map_opt f o).
Proof. intro H. destruct o as [a | ]; cbn; [apply calmly_bind; [apply H | discriminate] | discriminate]. Qed.
Lemma calmly_map_or {A B} d (f : A -> res status B) o : (forall a, calmly (f a)) -> calmly (map_or d f o).
Proof. intro H. destruct o as [a | ]; [apply H | discriminate]. Qed.
Lemma calmly_map_res {A B} (f : A -> res status B) l : (forall a, calmly (f a)) -> calmly (map_res f l).
Proof.
  intro H. induction l as [ | a l IH]; cbn [map_res]; [discriminate | ].
  apply calmly_bind; [apply H | intro]. apply calmly_bind; [exact IH | discriminate].
Qed.
Ltac calmly_step :=
  lazymatch goal with
  | |- calmly (Ok _) => discriminate
  | |- calmly (Err _) => discriminate
  | |- calmly (rbind _ _) => apply calmly_bind; [ | intros ?]
  | |- calmly (map_opt _ _) => apply calmly_map_opt; intros ?
  | |- calmly (map_or _ _ _) => apply calmly_map_or; intros ?
  | |- calmly (map_res _ _) => apply calmly_map_res; intros ?
  | |- calmly (match ?x with _ => _ end) => destruct x
  | |- calmly (let _ := _ in _) => cbv zeta
  | |- calmly ((fun _ => _) _) => cbv beta
  | |- calmly ?m => let h := head m in unfold h
  end.
Ltac calmly_walk := repeat calmly_step.
Lemma parse_calmly c b : calmly (parse_command c b).
Proof.
  unfold parse_command. destruct b; [discriminate | ].
  repeat lazymatch goal with |- calmly (if ?x then _ else _) => destruct x end; calmly_walk.
Qed.

(** ** Commands *)
Definition never {E A} (bad : E) (m : M E A) : Prop := forall w, fst (m w) <> Err bad.
Lemma never_ret {E A} (bad : E) (a : A) : never bad (ret a).
Proof. intros w. discriminate. Qed.
Lemma never_lift {A} (r : res status A) : calmly r -> never Panic (lift r).
Proof. intros H w. exact H. Qed.
Lemma never_bind {E A B} (bad : E) (m : M E A) (k : A -> M E B) :
  never bad m -> (forall a, never bad (k a)) -> never bad (bind m k).
Proof.
  intros H K w. unfold bind. specialize (H w). destruct (m w) as [[a | s] w1]; [apply K | ].
  cbn in *. congruence.
Qed.
Lemma never_guard {E} (bad : E) b s : s <> bad -> never bad (guard b s).
Proof. intros H w. destruct b; cbn; congruence. Qed.
Lemma never_load {A} e (f : pers -> A) : never Panic (load e f).
Proof. intro w. unfold load. destruct (e_fault e (w_op w)) as [[[] b] | ]; discriminate. Qed.
Lemma never_store e f : never Panic (store e f).
Proof. intro w. unfold store. destruct (e_fault e (w_op w)) as [[[] b] | ]; discriminate. Qed.
Lemma never_presence e : never Panic (check_user_presence e).
Proof.
  intro w. unfold check_user_presence. destruct (e_up e (w_up w)) as [[] d]; cbn; discriminate.
Qed.
Lemma never_map {A E} (bad : E) (f : status -> E) (m : M status A) :
  never Panic m -> (forall s, f s <> bad) -> never bad (map_status bad f m).
Proof.
  intros H Hf w. specialize (H w). unfold map_status. destruct (m w) as [[a | s] w1]; [discriminate | ].
  destruct s; cbn in *; try (intro E1; injection E1; apply Hf); congruence.
Qed.
Lemma never_ignore {A} (m : M status A) : never Panic m -> never Panic (ignore m).
Proof.
  intros H w. specialize (H w). unfold ignore. destruct (m w) as [[a | s] w1]; [discriminate | ].
  destruct s; cbn in *; try discriminate; congruence.
Qed.
Lemma never_find e rp id : never Panic (find_credential_item e id) -> never Panic (find_credential e rp id).
Proof.
  intros H w. specialize (H w). unfold find_credential.
  destruct (find_credential_item e id w) as [[[k r] | s] w1]; [discriminate | ].
  destruct s; cbn in *; try discriminate; congruence.
Qed.
Lemma never_first_listed e rp h uv l :
  (forall d, never Panic (listed_credential e rp h uv d)) -> never Panic (first_listed e rp h uv l).
Proof.
  intro H. induction l as [ | d l IH]; cbn [first_listed]; [apply never_ret | ].
  apply never_bind; [apply H | intros [x | ]; [apply never_ret | apply IH]].
Qed.
Lemma calmly_scan e rp u l acc : calmly acc -> calmly (fold_left (store_scan_step e rp u) l acc).
Proof.
  revert acc. induction l as [ | x l IH]; cbn [fold_left]; auto. intros acc H. apply IH.
  unfold store_scan_step. apply calmly_bind; [exact H | intro a]. calmly_walk.
Qed.
Lemma never_unwrap e id h : never Panic (master_keys e) -> never Panic (unwrap_credential e id h).
Proof.
  intro H. unfold unwrap_credential.
  destruct (Nat.ltb_spec (length id) CBOR_CREDENTIAL_ID_SIZE) as [L | L]; [apply never_ret | ].
  assert (32 <=? length id = true)%nat as -> by (apply Nat.leb_le; unfold CBOR_CREDENTIAL_ID_SIZE in L; lia).
  apply never_bind; [apply never_ret | intros _]. apply never_bind; [exact H | intro m].
  destruct (unwrap_pure _ _ _ _ _ _); [apply never_ret | intros ?; discriminate].
Qed.
Ltac never_step :=
  lazymatch goal with
  | |- never _ (ret _) => apply never_ret
  | |- never _ (fail _) => intros ? ; discriminate
  | |- never _ (gets _) => intros ? ; discriminate
  | |- never _ now => intros ? ; discriminate
  | |- never _ (modify _) => intros ? ; discriminate
  | |- never _ (emit _) => intros ? ; discriminate
  | |- never _ (draw _ _) => intros ? ; discriminate
  | |- never _ (lift (store_scan _ _ _ _)) => apply never_lift, calmly_scan; discriminate
  | |- never _ (lift _) => apply never_lift; calmly_walk
  | |- never _ (guard _ _) => apply never_guard; discriminate
  | |- never _ (bind _ _) => apply never_bind; [ | intros ?]
  | |- never _ (load _ _) => apply never_load
  | |- never _ (store _ _) => apply never_store
  | |- never _ (check_user_presence _) => apply never_presence
  | |- never _ (map_status _ _ _) => apply never_map; [ | let s := fresh in intro s; try destruct s; discriminate]
  | |- never _ (ignore _) => apply never_ignore
  | |- never _ (find_credential _ _ _) => apply never_find
  | |- never _ (unwrap_credential _ _ _) => apply never_unwrap
  | |- never _ (first_listed _ _ _ _ _) => apply never_first_listed; intros ?
  | |- never _ (match ?x with _ => _ end) => destruct x
  | |- never _ (let _ := _ in _) => cbv zeta
  | |- never _ ((fun _ => _) _) => cbv beta
  | |- never _ ?m => let h := head m in unfold h
  end.
Ltac never_walk := repeat never_step.

(** The two places that could panic: a provisioned attestation key that is no private key, and the
    end of a large blob array of less than 16 bytes. *)
Definition keys_fit (e : env) (p : pers) : Prop :=
  forall a, p_batch p = Some a \/ p_ent p = Some a -> ecdsa_valid (e_prims e) (fst a) = true.
Definition blob_ok (v : vol) : Prop := lb_len (v_lb v) = 0%N \/ (17 <= lb_len (v_lb v))%N.

Section NoPanic.
  Variable e : env.
  Definition Patt : params := keep (fun p => (p_batch p, p_ent p)) anyv anyE.

  Lemma attest_calm ep k msg w : keys_fit e (w_p w) -> fst (mc_attest e ep k msg w) <> Err Panic.
  Proof.
    intro K. unfold mc_attest.
    set (id := if ep then Some Enterprise else if c_batch (e_cfg e) then Some Batch else None).
    destruct id as [i | ].
    2: { match goal with |- fst (?m w) <> _ => assert (N : never Panic m) by never_walk end. apply N. }
    unfold bind.
    assert (N : never Panic (get_attestation e i)) by never_walk. specialize (N w).
    destruct (get_attestation e i w) as [[[[ak cert] | ] | s] w1] eqn:E; cbn [fst] in *; [ | discriminate | congruence].
    unfold get_attestation in E. apply map_status_ok in E. apply load_ok in E as (E & P & _).
    assert (V : ecdsa_valid (e_prims e) ak = true).
    { apply (K (ak, cert)). destruct i; auto. }
    rewrite V. discriminate.
  Qed.
  Lemma mc_calm p w : keys_fit e (w_p w) -> fst (process_make_credential e p w) <> Err Panic.
  Proof.
    intro K. unfold process_make_credential. cbv zeta.
    assert (S : forall A B (m : M status A) (k : A -> M status B) w, never Panic m -> rel Patt m ->
              keys_fit e (w_p w) -> (forall a w1, keys_fit e (w_p w1) -> fst (k a w1) <> Err Panic) ->
              fst (bind m k w) <> Err Panic).
    { intros A B m k w0 N R K0 H. unfold bind. specialize (N w0). pose proof (fr_p _ _ _ (R w0)) as F.
      cbn in F. apply pair_equal_spec in F as [F1 F2].
      destruct (m w0) as [[a | s] w1]; cbn [fst snd] in *; [ | congruence].
      apply H. unfold keys_fit. rewrite F1, F2. exact K0. }
    repeat (lazymatch goal with |- fst (bind (mc_attest _ _ _ _) _ _) <> _ => fail | _ => idtac end;
      apply S; [never_walk | rel_walk | assumption | ]; clear dependent w; intros ? w K).
    lazymatch goal with |- fst (bind (mc_attest e ?ep ?k ?m) _ _) <> _ => pose proof (attest_calm ep k m w K) as Q end.
    unfold bind. destruct (mc_attest _ _ _ _ w) as [[x | s] w1]; cbn [fst] in *; [discriminate | congruence].
  Qed.

  (** ** Large blobs *)
  Definition fits (p : lb_params) : Prop :=
    lb_set p <> None -> lb_offset p = 0%N -> exists n, lb_length p = Some n /\ (17 <= n)%N.
  Lemma parse_fits c v p : parse_large_blobs c v = Ok p -> fits p.
  Proof.
    unfold parse_large_blobs. intro H. destruct (extract_map v) as [m | ]; [ | discriminate]. cbn [rbind] in H.
    cbv zeta in H.
    repeat match type of H with
           | (_ <- ?x ;; _) = _ => destruct x eqn:?; [ | discriminate]; cbn [rbind] in H
           end.
    injection H as <-. intros H1 H2. cbn in *.
    repeat match goal with Q : check ?b _ = Ok _ |- _ => destruct b eqn:?; [clear Q | discriminate] end.
    destruct a0 as [s | ]; [ | congruence]. cbn in *. rewrite H2 in *. cbn in *.
    destruct (option_map (as_usize c) a2) as [n | ]; cbn in *; [ | discriminate].
    exists n. split; [reflexivity | ]. destruct (n <? 17)%N eqn:E; cbn in *; [discriminate | lia].
  Qed.

  Notation lb w := (v_lb (w_v w)).
  Definition Plb : params := keep anyp v_lb anyE.
  Lemma lb_calm p s w : fits p -> lb_set p = Some s -> blob_ok (w_v w) ->
    fst (lb_write e p s w) <> Err Panic /\ blob_ok (w_v (snd (lb_write e p s w))).
  Proof.
    intros F Hs B. unfold lb_write.
    set (Good := fun (r : res status unit) w => r <> Err Panic /\ blob_ok (w_v w)).
    assert (G : hoare (fun w => blob_ok (w_v w)) (lb_write e p s) Good);
      [ | exact (G w B)]. clear w B. unfold lb_write.
    eapply hoare_bind with (Mid := fun _ w => blob_ok (w_v w)).
    { intros w B. destruct (Nlen s <=? _)%N; cbn; [exact B | split; [discriminate | exact B]]. }
    intros _.
    eapply hoare_bind with (Mid := fun _ w => blob_ok (w_v w) /\
        (lb_offset p = 0%N -> (17 <= lb_len (lb w))%N)).
    { intros w B. unfold lb_start. destruct (lb_offset p =? 0)%N eqn:E0; [ | cbn; split; [exact B | lia]].
      destruct F as (n & -> & Hn); [congruence | lia | ]. unfold bind, mod_lb, modify, guard. cbn.
      unfold blob_ok. destruct (n <=? c_max_blob (e_cfg e))%N; cbn; [split; [right; exact Hn | intros _; exact Hn] | ].
      split; [discriminate | right; exact Hn]. }
    intros _.
    assert (KK : forall A (m : M status A), never Panic m -> rel Plb m ->
      hoare (fun w => blob_ok (w_v w) /\ (lb_offset p = 0%N -> (17 <= lb_len (lb w))%N)) m
        (fun r w => match r with Ok a => blob_ok (w_v w) /\ (lb_offset p = 0%N -> (17 <= lb_len (lb w))%N)
                    | Err x => Good (Err x) w end)).
    { intros A m N R w [B1 B2]. specialize (N w). pose proof (fr_v _ _ _ (R w)) as V. cbn in V.
      destruct (m w) as [[a | x] w1]; cbn [fst snd] in *; unfold Good, blob_ok in *; rewrite V; auto.
      split; [congruence | exact B1]. }
    eapply hoare_bind; [apply KK; [never_walk | rel_walk] | intro b].
    eapply hoare_bind; [apply KK; [never_walk | rel_walk] | intro].
    eapply hoare_bind; [apply KK; [never_walk | rel_walk] | intro].
    intros w [B1 B2]. unfold bind, gets, guard, mod_lb, modify. cbn -[N.add Nlen lb_complete].
    destruct (lb_offset p + Nlen s <=? lb_len (lb w))%N eqn:El; [ | cbn; split; [discriminate | exact B1]].
    cbn -[N.add Nlen lb_complete].
    set (buf := (if (lb_offset p =? 0)%N then [] else lb_buf (lb w)) ++ s).
    destruct (Nlen buf =? lb_len (lb w))%N eqn:Ec; [ | cbn; split; [discriminate | exact B1]].
    assert (L17 : (17 <= Nlen buf)%N).
    { destruct B1 as [Z | Z]; [ | lia]. rewrite Z in *. assert (lb_offset p = 0%N) by lia. specialize (B2 H). lia. }
    unfold lb_complete, bind, mod_lb, modify, gets, guard. cbn -[N.add Nlen Nat.leb].
    assert (L : (16 <=? length buf)%nat = true) by (apply Nat.leb_le; unfold Nlen in L17; lia).
    rewrite L. cbn -[N.add Nlen Nat.leb firstn skipn Nat.sub].
    destruct (bytes_eqb _ _); cbn -[N.add Nlen Nat.leb].
    - unfold commit_large_blob_array. destruct (_ <? _)%N.
      + cbn. split; [discriminate | left; reflexivity].
      + unfold store. cbn. destruct (e_fault e (w_op w)) as [[[] []] | ]; cbn; split; try discriminate; left; reflexivity.
    - split; [discriminate | left; reflexivity].
  Qed.

  Lemma parsed_calm x ch w : keys_fit e (w_p w) -> blob_ok (w_v w) ->
    (forall p, x = CLargeBlobs p -> fits p) ->
    fst (process_parsed_command e x ch w) <> Err Panic /\ blob_ok (w_v (snd (process_parsed_command e x ch w))).
  Proof.
    intros K B HF. rewrite split_message. destruct (preamble_same x ch w) as (w1 & Q & P1 & _).
    assert (B1 : blob_ok (w_v w1)).
    { assert (R : rel Plb (preamble x ch)) by (unfold preamble; rel_walk). pose proof (fr_v _ _ _ (R w)) as V.
      rewrite Q in V. cbn in V. unfold blob_ok. rewrite V. exact B. }
    rewrite <- P1 in K. unfold bind. rewrite Q. clear w P1 B Q.
    assert (GO : forall m : M status response, never Panic m -> rel Plb m ->
              fst (m w1) <> Err Panic /\ blob_ok (w_v (snd (m w1)))).
    { intros m N R. split; [apply N | ]. pose proof (fr_v _ _ _ (R w1)) as V. cbn in V.
      unfold blob_ok. rewrite V. exact B1. }
    destruct ch; [ | destruct x; cbn [process_vendor_command]; (apply GO; [never_walk | rel_walk])].
    destruct x as [p | | | | | | | | p | ]; cbn [process_fido_command];
      try (apply GO; [never_walk | rel_walk; try (intro v; destruct (pi_proto _); cbn; auto)]; fail).
    - split; [apply mc_calm, K | ]. assert (R : rel Plb (process_make_credential e p)) by rel_walk.
      pose proof (fr_v _ _ _ (R w1)) as V. cbn in V. unfold blob_ok. rewrite V. exact B1.
    - unfold process_large_blobs. destruct (lb_get p) as [n | ]; [apply GO; [never_walk | rel_walk] | ].
      destruct (lb_set p) as [s | ] eqn:Es; [ | apply GO; [never_walk | rel_walk]].
      destruct (lb_calm p s w1 (HF p eq_refl) Es B1) as [C1 C2]. unfold bind.
      destruct (lb_write e p s w1) as [[] w2]; cbn [fst snd] in *; split; auto; [discriminate | congruence].
  Qed.
End NoPanic.

(** ** Histories in which only usable attestation keys are provisioned *)
Definition att_ok (e : env) (o : option (bytes * bytes)) : Prop :=
  match o with Some a => ecdsa_valid (e_prims e) (fst a) = true | None => True end.
Definition provisioned (e : env) (o : op) : Prop :=
  match o with OpVendor _ b en => att_ok e b /\ att_ok e en | _ => True end.

Lemma op_calm e o w : provisioned e o -> keys_fit e (w_p w) -> blob_ok (w_v w) ->
  (exists l, w_log (snd (run_op e o w)) = l ++ w_log w /\
     forall l1 q l2, l = l1 ++ LWrite q :: l2 -> keys_fit e q) /\
  blob_ok (w_v (snd (run_op e o w))) /\
  (forall b ch, o = OpMessage b ch -> fst (run_op e o w) <> OutCtap (Err Panic)).
Proof.
  intros HP K B.
  assert (FR : forall w', fr Patt w w' -> exists l, w_log w' = l ++ w_log w /\
             forall l1 q l2, l = l1 ++ LWrite q :: l2 -> keys_fit e q).
  { intros w' F. destruct (fr_log _ _ _ F) as (l & E & Fl). exists l. split; [exact E | ].
    intros l1 q l2 ->. apply Forall_elt in Fl. cbn in Fl. apply pair_equal_spec in Fl as [F1 F2].
    unfold keys_fit. rewrite F1, F2. exact K. }
  destruct o as [b ch | b | ch b en | | d | n]; cbn [run_op].
  - unfold process_command, bind, lift.
    destruct (parse_command (e_cfg e) b) as [x | s] eqn:Ex.
    + assert (R : rel Patt (process_parsed_command e x ch)) by (rel_walk; try (intro v; destruct (pi_proto _); cbn; auto)).
      specialize (R w).
      assert (HF : forall p, x = CLargeBlobs p -> fits p).
      { intros p ->. unfold parse_command in Ex. destruct b as [ | y b]; [discriminate | ].
        repeat match type of Ex with (if ?c then _ else _) = _ => destruct c end; try discriminate;
          (destruct (read_cbor _ b) as [v | ]; [ | discriminate]; cbn [rbind] in Ex);
          match type of Ex with (_ <- ?r ;; _) = _ => destruct r eqn:Er; [ | discriminate] end;
          cbn [rbind] in Ex; try discriminate. injection Ex as ->. eapply parse_fits, Er. }
      destruct (parsed_calm e x ch w K B HF) as [C1 C2].
      destruct (process_parsed_command e x ch w) as [r w']. cbn [fst snd] in *.
      split; [apply FR, R | ]. split; [exact C2 | ]. intros _ _ _ E1. congruence.
    + cbn [fst snd]. split; [apply FR, fr_refl | ]. split; [exact B | ]. intros _ _ _ E1.
      apply (parse_calmly (e_cfg e) b). rewrite Ex. congruence.
  - assert (R : rel Patt (u2f_process e b)) by rel_walk. specialize (R w).
    assert (R2 : rel Plb (u2f_process e b)) by rel_walk. specialize (R2 w).
    destruct (u2f_process e b w) as [r w']. cbn [fst snd] in *. split; [apply FR, R | ].
    pose proof (fr_v _ _ _ R2) as V. cbn in V. split; [unfold blob_ok; rewrite V; exact B | discriminate].
  - cbn. destruct HP as [H1 H2]. split; [ | split; [exact B | discriminate]].
    exists [LWrite (set_atts b en (w_p w))]. split; [reflexivity | ].
    intros [ | i l1] q l2 E; [ | destruct l1; discriminate]. injection E as <- _.
    intros a [E | E]; cbn in E; subst; assumption.
  - cbn. split; [exists []; split; [reflexivity | intros [ | ? ?]; discriminate] | split; [exact B | discriminate]].
  - cbn. split; [exists []; split; [reflexivity | intros [ | ? ?]; discriminate] | split; [exact B | discriminate]].
  - cbn. split; [ | split; [exact B | discriminate]]. eexists [_]. split; [reflexivity | ].
    intros [ | i l1] q l2 E; [ | destruct l1; discriminate]. injection E as <- _. exact K.
Qed.
Lemma history_calm e h : Forall (fun y => provisioned e (fst y)) h ->
  all_writes (keys_fit e) (w_log (run e h)) /\ blob_ok (w_v (run e h)).
Proof.
  induction h as [ | y h IH] using rev_ind; intro F.
  - split; [ | left; reflexivity]. cbn. intros a [H | H]; discriminate.
  - apply Forall_app in F as [F Fy]. destruct (IH F) as [W B]. inversion_clear Fy as [ | ? ? Hy _].
    rewrite run_app. pose proof (run_wf e h) as WF.
    assert (K : keys_fit e (w_p (run e h))) by (rewrite WF; apply all_writes_last; exact W).
    destruct (op_calm e (fst y) (run e h) Hy K B) as ((l & E & Hl) & B' & _).
    assert (W' : all_writes (keys_fit e) (w_log (snd (run_op e (fst y) (run e h)))))
      by (rewrite E; apply all_writes_app; assumption).
    unfold step. destruct (snd y) as [n | ]; [ | auto].
    split; [ | left; reflexivity]. rewrite reboot_log. cbn [all_writes].
    destruct (lose_power_log n (run e h) (snd (run_op e (fst y) (run e h)))) as (l' & E').
    apply (all_writes_suffix _ l'). rewrite <- E'. exact W'.
Qed.
Theorem message_calm e h b ch : Forall (fun y => provisioned e (fst y)) h ->
  fst (run_op e (OpMessage b ch) (run e h)) <> OutCtap (Err Panic).
Proof.
  intro F. destruct (history_calm e h F) as [W B].
  assert (K : keys_fit e (w_p (run e h))) by (rewrite (run_wf e h); apply all_writes_last; exact W).
  destruct (op_calm e (OpMessage b ch) (run e h) I K B) as (_ & _ & H). apply (H b ch eq_refl).
Qed.
