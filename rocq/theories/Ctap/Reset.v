(** When a reset is possible and what it leaves: property C39. *)
From Verif Require Import Base Facts Hid.Model U2f.Model Cbor.Model Ctap.Crypto Ctap.Types Ctap.Machine
  Ctap.Commands Ctap.Parse Ctap.System Ctap.Logic Ctap.History Ctap.Track Ctap.Pin Ctap.PinChange
  Ctap.TokenSpec Ctap.Token Ctap.Success Ctap.Auth Ctap.Gate Ctap.Answers Ctap.TokenUse Ctap.Enum.
From Coq Require Import Lia.

(** What may happen between power-up and a reset: these four commands, and what is no CTAP2
    command. *)
Definition before_reset (e : env) (o : op) : Prop :=
  match o with
  | OpMessage b _ =>
      match parse_command (e_cfg e) b with
      | Ok CReset | Ok CGetInfo | Ok CSelection | Ok (CMakeCredential _) => True
      | Ok _ => False
      | Err _ => True
      end
  | OpVendor _ _ _ => False
  | OpU2f _ | OpTouch | OpTick _ | OpCompact _ => True
  end.
(** A history after which the device has just been powered up. *)
Definition powered_up (h : list (op * option nat)) : Prop :=
  h = [] \/ exists h' o n, h = h' ++ [(o, Some n)].

Lemma desc_reset s s' : desc s s' -> sf_cmd s' = Some SReset -> s' = s.
Proof.
  intros [-> | D] E; [discriminate | ]. unfold shape in D. destruct s as [t c ch], s' as [t' c' ch']. cbn in *.
  apply pair_equal_spec in D as [D D3]. apply pair_equal_spec in D as [D1 D2]. subst.
  destruct c as [[ | | | ] | ]; cbn in D3; try discriminate. reflexivity.
Qed.
Lemma fresh_reset k ch w w' : fresh k ch w w' -> sf_cmd (st w') <> Some SReset.
Proof. intros (t & _ & F) E. unfold shape in F. rewrite E in F. apply pair_equal_spec in F as [_ F]. discriminate. Qed.

Local Hint Resolve st_next_assertion st_next_rp st_next_credential : rel_db.
Lemma rest_desc e x ch w1 :
  let w' := snd (match ch with MainHid _ => process_fido_command e x ch | VendorHid _ => process_vendor_command e x end w1) in
  desc (st w1) (st w') \/ exists k, fresh k ch w1 w'.
Proof.
  cbv zeta. destruct ch as [cid | cid].
  2:{ left. assert (R : rel Pst (process_vendor_command e x)) by (destruct x; cbn [process_vendor_command]; st_walk).
      apply (fr_v _ _ _ (R w1)). }
  assert (REL : forall m : M status response, rel Pst m -> desc (st w1) (st (snd (m w1))) \/ exists k, fresh k (MainHid cid) w1 (snd (m w1))).
  { intros m R. left. apply (fr_v _ _ _ (R w1)). }
  destruct x as [ | p | | | | | p | | | ]; cbn [process_fido_command];
    try (apply REL; st_walk; st_fin; fail).
  - destruct (started_get_assertion e p (MainHid cid) w1) as [_ [D | F]]; eauto.
  - rewrite cm_split. destruct (cm_front_run p w1) as (w2 & Q2 & _ & _ & N2 & _ & _ & _ & C2).
    unfold bind at 1 2. rewrite Q2.
    assert (D2 : desc (st w1) (st w2)) by (destruct C2 as [-> | [-> _]]; [now left | apply desc_refl]).
    assert (G : started KRps (MainHid cid) (cm_rest e p (MainHid cid)) \/ started KCreds (MainHid cid) (cm_rest e p (MainHid cid))).
    { destruct (cm_sub_ p) eqn:Es; try (left; apply started_rel; unfold cm_rest; rewrite Es; st_walk; st_fin; fail).
      - left. now apply started_cm.
      - right. now apply started_cm. }
    destruct G as [G | G]; destruct (G w2) as [_ [D3 | (t & Ht & F)]].
    1, 3: left; eapply desc_trans; eassumption.
    all: right; eexists; exists t; (split; [ | exact F]); lia.
Qed.

Lemma reset_step e o w : sf_cmd (st (snd (run_op e o w))) = Some SReset ->
  st (snd (run_op e o w)) = st w /\ before_reset e o.
Proof.
  intro E. destruct o as [b ch | b | ch b en | | d | n].
  - cbn [run_op before_reset] in *. unfold process_command, bind, lift in *.
    destruct (parse_command (e_cfg e) b) as [x | s] eqn:Ex; [ | split; [reflexivity | exact I]].
    rewrite split_message in *. destruct (preamble_same x ch w) as (w1 & Q & _).
    pose proof (st_preamble x ch w w1 Q) as (D1 & _ & C1). unfold bind in *. rewrite Q in *.
    pose proof (rest_desc e x ch w1) as R. cbv zeta in R.
    destruct (match ch with MainHid _ => process_fido_command e x ch | VendorHid _ => process_vendor_command e x end w1) as [r w'].
    cbn [snd] in *. destruct R as [R | (k & R)]; [ | destruct (fresh_reset _ _ _ _ R E)].
    pose proof (desc_reset _ _ R E) as E1. rewrite E1 in *. pose proof (desc_reset _ _ D1 E) as E2.
    split; [exact E2 | ]. destruct C1 as [C1 | (K & _)]; [rewrite C1 in E; discriminate | ].
    rewrite E2 in E. rewrite E in K. destruct x; try discriminate; exact I.
  - split; [ | exact I]. cbn [run_op] in *. assert (R : rel Pst_same (u2f_process e b)) by rel_walk. specialize (R w).
    destruct (u2f_process e b w) as [r w']. exact (fr_v _ _ _ R).
  - discriminate.
  - split; [reflexivity | exact I].
  - split; [reflexivity | exact I].
  - split; [reflexivity | exact I].
Qed.

(** Where the permission to reset comes from. *)
Lemma reset_history e h : sf_cmd (st (run e h)) = Some SReset ->
  exists h1 h2, h = h1 ++ h2 /\ powered_up h1 /\
    Forall (fun y => snd y = None /\ before_reset e (fst y)) h2 /\
    st (run e h) = mkStateful 10000%N (Some SReset) None /\ w_now (run e h1) = 0%N.
Proof.
  induction h as [ | [o k] h IH] using rev_ind; intro E.
  - exists [], []. split; [reflexivity | ]. split; [now left | ]. split; [constructor | ]. split; reflexivity.
  - rewrite run_app in *. unfold step in *. cbn [fst snd] in *. destruct k as [n | ].
    + exists (h ++ [(o, Some n)]), []. rewrite app_nil_r. split; [reflexivity | ].
      split; [right; eauto | ]. split; [constructor | ]. split; [reflexivity | ]. rewrite run_app. reflexivity.
    + destruct (reset_step e o (run e h) E) as [E1 B]. rewrite E1 in *.
      destruct (IH E) as (h1 & h2 & -> & P & F & T & N1). exists h1, (h2 ++ [(o, None)]).
      split; [now rewrite app_assoc | ]. split; [exact P | ]. split; [ | auto].
      apply Forall_app. split; [exact F | repeat constructor; auto].
Qed.

(** ** A successful reset *)
Lemma get_command_reset w w' : get_command w = (Ok (Some SReset), w') ->
  sf_cmd (st w) = Some SReset /\ w_p w' = w_p w /\ w_log w' = w_log w.
Proof.
  intro H2. unfold get_command in H2. apply bind_ok in H2 as (? & w3 & H3 & H2). apply gets_ok in H2 as [E ->].
  unfold clear_timer in H3. apply bind_ok in H3 as (? & w4 & H4 & H3). apply now_ok in H4 as [-> ->].
  apply modify_ok in H3 as (V & P & _ & L & _). split; [ | auto]. rewrite V in E. clear V. cbn [set_st v_st] in E.
  destruct (is_elapsed _ _); [discriminate | now symmetry].
Qed.
Lemma client_pin_reset_frame e : rel (keep (fun p => p) anyv anyE) (client_pin_reset e).
Proof. rel_walk. Qed.
Lemma client_pin_reset_token e : hoare (fun _ => True) (client_pin_reset e) (fun y w => forall u, y = Ok u -> t_perms (v_token (w_v w)) = 0%N).
Proof.
  unfold client_pin_reset.
  do 5 (eapply hoare_bind with (Mid := fun _ _ => True);
        [intros w _; match goal with |- match ?x with _ => _ end => destruct x; [exact I | discriminate] end | intros _]).
  intros w _ u _. reflexivity.
Qed.
Lemma client_pin_reset_run e w u w' : client_pin_reset e w = (Ok u, w') ->
  w_p w' = w_p w /\ t_perms (v_token (w_v w')) = 0%N /\ exists l, w_log w' = l ++ w_log w.
Proof.
  intro H. pose proof (client_pin_reset_frame e w) as R. pose proof (client_pin_reset_token e w I) as T.
  rewrite H in R, T. pose proof (fr_p _ _ _ R) as P. cbn in P. destruct (fr_log _ _ _ R) as (l & L & _). cbn [snd] in L.
  split; [exact P | ]. split; [exact (T u eq_refl) | eauto].
Qed.
Lemma reset_done e b ch w r w' :
  parse_command (e_cfg e) b = Ok CReset -> run_op e (OpMessage b ch) w = (OutCtap (Ok r), w') ->
  sf_cmd (st w) = Some SReset /\ (w_now w < sf_timer (st w))%N /\
  w_p w' = clear_pers (w_p w) /\ t_perms (v_token (w_v w')) = 0%N /\ v_up (w_v w') = up_init /\
  exists l1 l2, w_log w' = l1 ++ LEv EvPresence :: l2 ++ w_log w.
Proof.
  intros Hx H. apply message_ok in H as (x & w1 & Hx' & Hp & H). rewrite Hx in Hx'. injection Hx' as <-.
  destruct ch as [cid | cid]; [ | discriminate]. cbn [process_fido_command] in H.
  pose proof (st_preamble CReset (MainHid cid) w w1 Hp) as (_ & _ & C1).
  destruct (preamble_same CReset (MainHid cid) w) as (w1' & Hp' & P1 & L1 & N1 & _).
  rewrite Hp in Hp'. injection Hp' as <-. unfold process_reset in H.
  apply bind_ok in H as (s & w2 & H2 & H).
  destruct s as [[ | | | ] | ]; try discriminate.
  destruct (get_command_reset _ _ H2) as (S1 & P2 & L2).
  destruct C1 as [C1 | (_ & C1 & T1 & _)]; [rewrite C1 in S1; discriminate | ].
  split; [congruence | ]. split; [exact T1 | ].
  apply bind_ok in H as (? & w3 & H3 & H). apply check_user_presence_ok in H3 as (_ & _ & P3 & V3 & L3 & _).
  apply bind_ok in H as (? & w4 & H4 & H). unfold storage_reset in H4.
  apply bind_ok in H4 as (? & w5 & H5 & H4). apply store_ok in H5 as (P5 & V5 & _ & L5 & _).
  unfold internal in H4. apply map_status_ok in H4. apply store_ok in H4 as (P4 & V4 & _ & L4 & _).
  apply bind_ok in H as (? & w6 & H6 & H).
  destruct (client_pin_reset_run _ _ _ _ H6) as (P6 & T6 & l6 & L6).
  apply bind_ok in H as (? & w7 & H7 & H). apply modify_ok in H7 as (V7 & P7 & _ & L7 & _). apply ret_ok in H as [-> ->].
  split; [rewrite P7, P6, P4, P5, P3, P2, P1; reflexivity | ].
  split; [rewrite V7; exact T6 | ]. split; [rewrite V7; reflexivity | ].
  exists (l6 ++ [LWrite (set_master None (w_p w5)); LWrite (clear_pers (w_p w3))]), [].
  rewrite L7, L6, L4, L5, L3, L2, L1, <- app_assoc. reflexivity.
Qed.

(** ** Interrupted or failed resets, and what else an operation does to the store *)
Lemma last_write_in l log : last_write (l ++ log) = last_write log \/ In (LWrite (last_write (l ++ log))) l.
Proof.
  induction l as [ | [q | ev] l IH]; cbn; [now left | now right; left | ].
  destruct IH as [-> | IH]; auto.
Qed.
Lemma step_frame e P w o k : wf w -> fr P w (snd (run_op e o w)) -> Rp P (w_p w) (w_p (step e w (o, k))).
Proof.
  intros W F. unfold step. cbn [fst snd]. destruct k as [n | ]; [ | apply (fr_p _ _ _ F)].
  rewrite reboot_p. destruct (fr_log _ _ _ F) as (l & E & Hl). unfold lose_power. cbn [w_p].
  rewrite E, app_length, Nat.add_sub, skipn_app.
  replace (Nat.min n (length l) - length l)%nat with 0%nat by lia. cbn [skipn].
  destruct (last_write_in (skipn (Nat.min n (length l)) l) (w_log w)) as [-> | Hi].
  - rewrite <- W. apply Rp_refl.
  - rewrite Forall_forall in Hl.
    assert (Hi' : In (LWrite (last_write (skipn (Nat.min n (length l)) l ++ w_log w))) l).
    { revert Hi. generalize (last_write (skipn (Nat.min n (length l)) l ++ w_log w)). intros q Hi.
      rewrite <- (firstn_skipn (Nat.min n (length l)) l). apply in_or_app. right. exact Hi. }
    exact (Hl _ Hi').
Qed.

(** Unchanged, or cleared. *)
Definition Pclear : params.
Proof.
  refine (mkPar (fun p q => q = p \/ q = clear_pers p) (fun _ _ => True) anyE _ _ _ _); auto.
  intros p q r [-> | ->] [-> | ->]; auto.
Defined.
Definition Pkill : params.
Proof.
  refine (mkPar (fun p q => q = p \/ q = set_master None p) (fun _ _ => True) anyE _ _ _ _); auto.
  intros p q r [-> | ->] [-> | ->]; auto.
Defined.
Lemma storage_reset_frame e : rel Pclear (storage_reset e).
Proof.
  intro w. unfold storage_reset, bind.
  assert (R : rel Pclear (store e clear_pers)) by (apply rel_store; intro p; now right). specialize (R w).
  destruct (store e clear_pers w) as [[u | s] w1] eqn:E; [ | exact R]. cbn [snd] in *. eapply fr_trans; [exact R | ].
  apply store_ok in E as (P1 & _).
  assert (EP : set_master None (w_p w1) = w_p w1) by (rewrite P1; reflexivity).
  assert (R2 : rel Pkill (internal (store e (set_master None)))).
  { unfold internal. apply rel_map_status, rel_store. intro p. now right. }
  specialize (R2 w1). destruct R2 as [(l & L & F) p2 v2 n2 u2 r2 W2]. cbn in p2, F. split; auto.
  - exists l. split; [exact L | ]. eapply Forall_impl; [ | exact F]. intros [q | ev]; cbn; auto.
    intros [-> | ->]; left; [reflexivity | exact EP].
  - left. destruct p2 as [-> | ->]; [reflexivity | exact EP].
Qed.
Local Hint Resolve storage_reset_frame : rel_db.
Lemma reset_frame e ch : rel Pclear (process_parsed_command e CReset ch).
Proof. rel_walk. Qed.

(** ** Master keys are drawn afresh *)
Section Fresh.
  Variable e : env.
  Variable n : nat.
  (** [m] was drawn after the first [n] draws. *)
  Definition drawn (m : option bytes) : Prop := m = None \/ exists i, (n <= i)%nat /\ m = Some (e_rnd e i 128).
  Definition Pfresh : params.
  Proof.
    refine (mkPar (fun p q => p_master q = p_master p \/ drawn (p_master q)) (fun _ _ => True) anyE _ _ _ _); auto.
    intros p q r [H | H] [H' | H']; auto; [left; congruence | right; congruence].
  Defined.
  Definition later {E A} (m : M E A) : Prop := forall w, (n <= w_rng w)%nat -> fr Pfresh w (snd (m w)).
  Lemma later_rel {E A} (m : M E A) : rel Pfresh m -> later m.
  Proof. intros R w _. apply R. Qed.
  Lemma later_bind {E A B} (m : M E A) (k : A -> M E B) : later m -> (forall a, later (k a)) -> later (bind m k).
  Proof.
    intros Hm Hk w Hw. unfold bind. specialize (Hm w Hw). destruct (m w) as [[a | s] w1]; cbn [snd] in *; auto.
    eapply fr_trans; [exact Hm | apply Hk]. pose proof (fr_rng _ _ _ Hm). lia.
  Qed.
  Lemma later_map {E A} x (f : status -> E) (m : M status A) : later m -> later (map_status x f m).
  Proof.
    intros H w Hw. specialize (H w Hw). unfold map_status.
    destruct (m w) as [[a | s] w1]; [exact H | destruct s; exact H].
  Qed.
  Lemma later_ignore {A} (m : M status A) : later m -> later (ignore m).
  Proof.
    intros H w Hw. specialize (H w Hw). unfold ignore.
    destruct (m w) as [[a | s] w1]; [exact H | destruct s; exact H].
  Qed.
  Lemma later_find rp id : later (find_credential_item e id) -> later (find_credential e rp id).
  Proof.
    intros H w Hw. specialize (H w Hw). unfold find_credential.
    destruct (find_credential_item e id w) as [[[k r] | s] w1]; [exact H | destruct s; exact H].
  Qed.
  Lemma later_first rp h uv l : (forall d, later (listed_credential e rp h uv d)) -> later (first_listed e rp h uv l).
  Proof.
    intro H. induction l as [ | d l IH]; cbn; [apply later_rel, rel_ret | ].
    apply later_bind; [apply H | intros [x | ]; [apply later_rel, rel_ret | apply IH]].
  Qed.
  Lemma later_master : later (master_keys e).
  Proof.
    apply later_map. apply later_bind; [apply later_rel, rel_load | ].
    intros [x | ]; [apply later_rel, rel_ret | ].
    intros w Hw. unfold bind, draw. cbn [snd].
    assert (D : drawn (Some (e_rnd e (w_rng w) 128))) by (right; eauto).
    set (w1 := mkWorld _ _ _ _ _ _ _).
    assert (F1 : fr Pfresh w w1).
    { subst w1. split; cbn; auto; try lia. exists []. split; [reflexivity | constructor]. }
    assert (R : rel Pfresh (store e (set_master (Some (e_rnd e (w_rng w) 128))))).
    { apply rel_store. intro p. right. exact D. }
    specialize (R w1). eapply fr_trans; [exact F1 | ].
    destruct (store e _ w1) as [[u | s] w2]; exact R.
  Qed.
End Fresh.
Ltac later_step :=
  lazymatch goal with
  | |- later _ _ (master_keys _) => apply later_master
  | |- later _ _ (bind _ _) => apply later_bind; [ | intros ?]
  | |- later _ _ (map_status _ _ _) => apply later_map
  | |- later _ _ (ignore _) => apply later_ignore
  | |- later _ _ (find_credential _ _ _) => apply later_find
  | |- later _ _ (first_listed _ _ _ _ _) => apply later_first; intros ?
  | |- later _ _ (match ?x with _ => _ end) => destruct x
  | |- later _ _ (let _ := _ in _) => cbv zeta
  | |- later _ _ ((fun _ => _) _) => cbv beta
  | |- later _ _ (ret _) => apply later_rel, rel_ret
  | |- later _ _ (fail _) => apply later_rel, rel_fail
  | |- later _ _ (lift _) => apply later_rel, rel_lift
  | |- later _ _ (guard _ _) => apply later_rel, rel_guard
  | |- later _ _ (gets _) => apply later_rel, rel_gets
  | |- later _ _ now => apply later_rel, rel_now
  | |- later _ _ (modify _) => apply later_rel, rel_modify; intro; exact Logic.I
  | |- later _ _ (emit _) => apply later_rel, rel_emit; exact Logic.I
  | |- later _ _ (draw _ _) => apply later_rel, rel_draw
  | |- later _ _ (load _ _) => apply later_rel, rel_load
  | |- later _ _ (store _ _) => apply later_rel, rel_store; intro; cbn; first [left; reflexivity | right; left; reflexivity]
  | |- later _ _ (check_user_presence _) => apply later_rel, rel_check_user_presence; exact Logic.I
  | |- later _ _ ?m => let h := head m in unfold h
  end.
Ltac later_walk := repeat later_step.

Lemma fresh_op e n o w : (n <= w_rng w)%nat -> fr (Pfresh e n) w (snd (run_op e o w)).
Proof.
  intro Hw. destruct o as [b ch | b | ch b en | | d | k]; cbn [run_op].
  - assert (R : later e n (process_command e b ch)) by later_walk.
    specialize (R w Hw). destruct (process_command e b ch w); exact R.
  - assert (R : later e n (u2f_process e b)) by later_walk.
    specialize (R w Hw). destruct (u2f_process e b w); exact R.
  - eapply fr_trans; [apply (fr_write _ (set_atts b en (w_p w))); left; reflexivity | ].
    assert (R : rel (Pfresh e n) (after_vendor_response ch)) by rel_walk. apply R.
  - apply (rel_modify (E := status) (Pfresh e n)). intro v. exact I.
  - split; cbn; auto; try lia. exists []. split; [reflexivity | constructor].
  - apply fr_write. now left.
Qed.
Lemma fresh_history e n h2 w : wf w -> (n <= w_rng w)%nat -> drawn e n (p_master (w_p w)) ->
  drawn e n (p_master (w_p (fold_left (step e) h2 w))).
Proof.
  revert w. induction h2 as [ | [o k] h2 IH]; intros w W Hw D; [exact D | ]. cbn [fold_left].
  pose proof (fresh_op e n o w Hw) as F. apply IH.
  - unfold step. cbn [fst snd]. destruct k; [reflexivity | apply (fr_wf _ _ _ F W)].
  - pose proof (fr_rng _ _ _ F). unfold step. cbn [fst snd]. destruct k; cbn; lia.
  - destruct (step_frame e (Pfresh e n) w o k W F) as [-> | H]; assumption.
Qed.
