(** The contents of the enumerations: properties C36 and C37. *)
From Verif Require Import Base Facts Hid.Model U2f.Model Cbor.Model Ctap.Crypto Ctap.Types Ctap.Machine
  Ctap.Commands Ctap.Parse Ctap.System Ctap.Logic Ctap.History Ctap.Track Ctap.Pin Ctap.PinChange
  Ctap.MinPin Ctap.TokenSpec Ctap.Token Ctap.Success Ctap.Auth Ctap.Gate Ctap.Answers Ctap.TokenUse
  Ctap.Enum Ctap.Creds.
From Coq Require Import Lia Permutation Sorted.

Notation creds w := (p_creds (w_p w)).

(** ** Specification *)

(** The credentials that an assertion without allow list may use: those of the RP, and without user
    verification only those without restriction. *)
Definition usable (rp : bytes) (uv : bool) (x : N * cred) : bool :=
  bytes_eqb (cr_rp (snd x)) rp &&
  (uv || match cr_policy (snd x) with None | Some UvOptional => true | Some _ => false end).
(** Sorted by creation, the newest first. *)
Fixpoint place (x : N * cred) (l : list (N * cred)) : list (N * cred) :=
  match l with
  | [] => [x]
  | y :: l' => if (cr_order (snd y) <=? cr_order (snd x))%N then x :: l else y :: place x l'
  end.
Definition newest_first (l : list (N * cred)) : list (N * cred) := fold_left (fun acc x => place x acc) l [].
Definition ranked (rp : bytes) (uv : bool) (l : list (N * cred)) : list (N * cred) :=
  newest_first (filter (usable rp uv) l).

Lemma place_perm x l : Permutation (x :: l) (place x l).
Proof.
  induction l as [ | y l IH]; cbn; [reflexivity | ]. destruct (_ <=? _)%N; [reflexivity | ].
  rewrite perm_swap. constructor. exact IH.
Qed.
Definition older (x y : N * cred) : Prop := (cr_order (snd y) <= cr_order (snd x))%N.
Lemma place_sorted x l : StronglySorted older l -> StronglySorted older (place x l).
Proof.
  induction l as [ | y l IH]; cbn; intro H; [repeat constructor | ].
  apply StronglySorted_inv in H as [H F]. destruct (_ <=? _)%N eqn:E.
  - constructor; [constructor; assumption | ]. constructor; [unfold older; lia | ].
    eapply Forall_impl; [ | exact F]. unfold older. intros z Hz. lia.
  - constructor; [apply IH, H | ]. apply Forall_forall. intros z Hz.
    apply (Permutation_in _ (Permutation_sym (place_perm x l))) in Hz as [<- | Hz]; [unfold older; lia | ].
    eapply Forall_forall in F; [exact F | exact Hz].
Qed.
Lemma newest_first_ok l : Permutation l (newest_first l) /\ StronglySorted older (newest_first l).
Proof.
  unfold newest_first.
  assert (G : forall l acc, StronglySorted older acc ->
    Permutation (acc ++ l) (fold_left (fun acc x => place x acc) l acc) /\
    StronglySorted older (fold_left (fun acc x => place x acc) l acc)).
  { clear l. induction l as [ | x l IH]; intros acc H; cbn; [rewrite app_nil_r; auto | ].
    destruct (IH (place x acc) (place_sorted x acc H)) as [I1 I2]. split; [ | exact I2].
    rewrite <- I1. rewrite <- Permutation_middle, <- place_perm. reflexivity. }
  destruct (G l [] ltac:(constructor)) as [G1 G2]. auto.
Qed.
Lemma ranked_ok rp uv l :
  Permutation (filter (usable rp uv) l) (ranked rp uv l) /\ StronglySorted older (ranked rp uv l).
Proof. apply newest_first_ok. Qed.

(** The model sorts pairs of keys and orders in ascending order. *)
Definition tag (x : N * cred) : N * N := (fst x, cr_order (snd x)).
Lemma insert_end x l : Forall (fun y => (snd y <= snd x)%N) l -> insert_by_order x l = l ++ [x].
Proof.
  induction l as [ | y l IH]; intro H; [reflexivity | ]. inversion_clear H as [ | ? ? H1 H2].
  cbn. destruct (snd y <=? snd x)%N eqn:E; [now rewrite IH | lia].
Qed.
Lemma insert_before x y l : (snd x < snd y)%N -> insert_by_order x (l ++ [y]) = insert_by_order x l ++ [y].
Proof.
  intro H. induction l as [ | z l IH]; cbn.
  - destruct (snd y <=? snd x)%N eqn:E; [lia | reflexivity].
  - destruct (snd z <=? snd x)%N; [now rewrite IH | reflexivity].
Qed.
Lemma insert_place x l : StronglySorted older l ->
  insert_by_order (tag x) (rev (map tag l)) = rev (map tag (place x l)).
Proof.
  induction l as [ | y l IH]; intro H; [reflexivity | ]. apply StronglySorted_inv in H as [H F]. cbn [place].
  destruct (cr_order (snd y) <=? cr_order (snd x))%N eqn:E.
  - cbn [map rev]. rewrite insert_end; [reflexivity | ]. apply Forall_app. split; [ | repeat constructor; cbn; lia].
    apply Forall_rev, Forall_map. eapply Forall_impl; [ | exact F]. unfold older. cbn. intros z Hz. lia.
  - cbn [map rev]. rewrite insert_before by (cbn; lia). now rewrite IH.
Qed.
Lemma candidates_ranked rp uv l : rev (candidates rp uv l) = map fst (ranked rp uv l).
Proof.
  unfold candidates, ranked, newest_first, sort_by_order.
  assert (EQ : filter (eligible rp uv) l = filter (usable rp uv) l).
  { apply filter_ext. intro x. unfold eligible, usable, is_discoverable.
    destruct (cr_policy (snd x)) as [[] | ]; reflexivity. }
  rewrite EQ. generalize (filter (usable rp uv) l). clear.
  assert (G : forall l acc, StronglySorted older acc ->
    fold_left (fun acc x => insert_by_order x acc) (map tag l) (rev (map tag acc)) =
    rev (map tag (fold_left (fun acc x => place x acc) l acc))).
  { induction l as [ | x l IH]; intros acc H; [reflexivity | ]. cbn [map fold_left].
    rewrite insert_place by exact H. apply IH, place_sorted, H. }
  intro l. change (map (fun x => (fst x, cr_order (snd x))) l) with (map tag l).
  change (@nil (N * N)) with (rev (map tag [])). rewrite G by constructor.
  rewrite map_rev, rev_involutive, map_map. reflexivity.
Qed.

(** The credentials of an RP, given by its hash, for credential management. *)
Definition of_rp (pr : prims) (h : bytes) (l : list (N * cred)) : list (N * cred) :=
  filter (fun x => bytes_eqb (sha256 pr (cr_rp (snd x))) h) l.

(** ** Looking up keys *)
Lemma lookup_in e l k r : creds_ok e l -> (lookup k l = Some r <-> In (k, r) l).
Proof.
  intro C. unfold lookup. split.
  - destruct (find _ l) as [x | ] eqn:F; [ | discriminate]. intro H. injection H as <-.
    apply find_some in F as [F E]. assert (fst x = k) by lia. subst k. destruct x; exact F.
  - intro H. destruct (find _ l) as [x | ] eqn:F.
    + apply find_some in F as [F E]. assert (x = (k, r)) by (apply (key_eq e l); auto; cbn; lia).
      subst x. reflexivity.
    + apply find_none with (x := (k, r)) in F; [cbn in F; lia | exact H].
Qed.
Lemma in_ranked rp uv l x : In x (ranked rp uv l) <-> In x l /\ usable rp uv x = true.
Proof.
  destruct (ranked_ok rp uv l) as [P _]. split.
  - intro H. apply (Permutation_in _ (Permutation_sym P)), filter_In in H. exact H.
  - intro H. apply (Permutation_in _ P), filter_In. exact H.
Qed.

(** ** What is being enumerated after a start and [m] continuations *)
Definition input_for (p : ga_params) (i : assertion_input) : Prop :=
  ai_cdh i = ga_cdh p /\ ai_uv i = is_some (ga_auth p) /\ ai_ext i = ga_ext_ p.
Definition content (e : env) (x : command) (l : list (N * cred)) (m : nat) (c : stateful_cmd) : Prop :=
  match x with
  | CGetAssertion p => exists i keys, c = SGetAssertion i keys /\ input_for p i /\
      rev keys = skipn (S m) (map fst (ranked (ga_rp p) (is_some (ga_auth p)) l))
  | CCredMgmt p =>
      match cm_sub_ p with
      | CmRpsBegin => c = SEnumRps (S m)
      | CmCredsBegin => exists keys d h, c = SEnumCreds keys /\ cm_data_ p = Some d /\ cd_hash d = Some h /\
          rev keys = skipn (S m) (rev (map fst (of_rp (e_prims e) h l)))
      | _ => False
      end
  | _ => False
  end.

Section Start.
  Variable e : env.
  Notation pr := (e_prims e).

  (** An assertion as it is returned. *)
  Definition asserts (c : cred) (i : assertion_input) (g : ga_resp) : Prop :=
    gr_id g = cr_id c /\ (exists ext, gr_auth_data g = ai_auth_data i ++ ext) /\
    gr_sig g = sign pr (cr_key c) (gr_auth_data g ++ ai_cdh i) /\ gr_user g = response_user c (ai_uv i).
  Lemma assertion_response_asserts c i n w g w' :
    assertion_response e c i n w = (Ok g, w') -> asserts c i g /\ gr_number g = n.
  Proof.
    unfold assertion_response. cbv zeta. intro H.
    apply bind_ok in H as (x & w1 & _ & H). apply bind_ok in H as (sg & w2 & H2 & H).
    apply ret_ok in H as [-> _]. unfold sign_and_encode in H2. destruct (key_valid _ _); [ | discriminate].
    apply ret_ok in H2 as [-> _]. split; [ | reflexivity]. split; [reflexivity | ]. split; [now exists x | ]. auto.
  Qed.
  Lemma get_credential_ok k w r w' :
    get_credential e k w = (Ok r, w') -> lookup k (creds w) = Some r /\ creds w' = creds w /\ st w' = st w.
  Proof.
    intro H.
    assert (R : rel (keep p_creds v_st anyE) (get_credential e k)) by rel_walk. specialize (R w). rewrite H in R.
    pose proof (fr_p _ _ _ R) as F1. pose proof (fr_v _ _ _ R) as F2. cbn in F1, F2.
    split; [ | auto]. unfold get_credential in H.
    destruct (negb (key_in_range e k)); [discriminate | ].
    apply bind_ok in H as (o & w1 & H1 & H). apply load_ok in H1 as (-> & _).
    destruct (lookup k (creds w)); [ | discriminate]. apply bind_ok in H as (? & w2 & _ & H).
    apply ret_ok in H as [-> _]. reflexivity.
  Qed.

  Definition Pcs : params := keep p_creds v_st anyE.
  Variable l : list (N * cred).
  Definition Ics (w : world) : Prop := creds w = l /\ st w = stateful_clear.
  Lemma ics_rel {A} (m : M status A) : rel Pcs m -> hoare Ics m (fun _ => Ics).
  Proof.
    intros R w [H1 H2]. pose proof (fr_p _ _ _ (R w)) as F1. pose proof (fr_v _ _ _ (R w)) as F2. cbn in F1, F2.
    split; congruence.
  Qed.
  Lemma iter_ics : hoare Ics (iter_credentials e) (fun y w => Ics w /\ forall v, y = Ok v -> v = l).
  Proof.
    intros w Hw. split; [apply (ics_rel (iter_credentials e)); [rel_walk | exact Hw] | ].
    intros v Hv. destruct (iter_credentials e w) as [y w'] eqn:E. cbn in Hv. subst y.
    unfold iter_credentials in E. apply bind_ok in E as (k & w1 & E1 & E).
    assert (R : rel Pcs (wrap_key e)) by rel_walk. specialize (R w). rewrite E1 in R.
    apply fr_p in R. cbn in R. apply load_ok in E as (-> & _). rewrite R. apply Hw.
  Qed.

  (** The outcome of a start: nothing is enumerated, or what [x] asks for. *)
  Definition begun (ch : channel) (x : command) (w0 w : world) : Prop :=
    creds w = l /\
    (st w = stateful_clear \/
     exists t c, st w = mkStateful t (Some c) (Some ch) /\ (w_now w0 + 30000 <= t)%N /\ content e x l 0 c).
  Lemma begun_clear ch x w0 w : Ics w -> begun ch x w0 w.
  Proof. intros [H1 H2]. split; auto. Qed.
  Lemma begun_rel {A} ch x w0 (m : M status A) : rel Pcs m -> hoare (begun ch x w0) m (fun _ => begun ch x w0).
  Proof.
    intros R w [H1 H2]. pose proof (fr_p _ _ _ (R w)) as F1. pose proof (fr_v _ _ _ (R w)) as F2. cbn in F1, F2.
    split; [congruence | ]. rewrite F2. exact H2.
  Qed.

  Definition ga_begun (p : ga_params) (ch : channel) (w0 : world) (y : res status response) (w : world) : Prop :=
    begun ch (CGetAssertion p) w0 w /\
    forall r, y = Ok r -> exists k c rest i g,
      ranked (ga_rp p) (is_some (ga_auth p)) l = (k, c) :: rest /\
      r = RGetAssertion g /\ input_for p i /\ asserts c i g /\
      gr_number g = match rest with [] => None | _ => Some (Nlen (ranked (ga_rp p) (is_some (ga_auth p)) l)) end /\
      (st w = stateful_clear <-> rest = []).
  Lemma ga_begins p ch w0 : creds_ok e l -> ga_allow p = None ->
    hoare (fun w => Ics w /\ (w_now w0 <= w_now w)%N) (process_get_assertion e p ch) (ga_begun p ch w0).
  Proof.
    intros C Ha. set (I := fun w => Ics w /\ (w_now w0 <= w_now w)%N).
    assert (IR : forall A (m : M status A), rel Pcs m -> hoare I m (fun _ => I)).
    { intros A m R w [H1 H2]. split; [apply (ics_rel m R w H1) | ]. pose proof (fr_now _ _ _ (R w)). lia. }
    assert (IB : forall s w, I w -> ga_begun p ch w0 (Err s) w).
    { intros s w [H _]. split; [now apply begun_clear | discriminate]. }
    assert (IRB : forall A (m : M status A), rel Pcs m -> hoare I m (fun y w => match y with Ok _ => I w | Err s => ga_begun p ch w0 (Err s) w end)).
    { intros A m R w H. pose proof (IR A m R w H) as Q. destruct (m w) as [[a | s] w']; cbn [fst snd] in *; auto. }
    unfold process_get_assertion. cbv zeta.
    eapply hoare_bind with (Mid := fun _ => I); [apply IRB; rel_walk | intros _].
    eapply hoare_bind with (Mid := fun _ => I); [apply IRB; rel_walk | intros _].
    eapply hoare_bind with (Mid := fun _ => I); [apply IRB; rel_walk | intros _].
    change (match ga_auth p with Some _ => true | None => false end) with (is_some (ga_auth p)).
    set (L := ranked (ga_rp p) (is_some (ga_auth p)) l).
    eapply hoare_bind with (Mid := fun sel w => I w /\
      match sel with
      | (None, _) => True
      | (Some c, keys) => exists k rest, L = (k, c) :: rest /\ rev keys = map fst rest
      end).
    { unfold ga_select. rewrite Ha.
      eapply hoare_bind with (Mid := fun v w => v = l /\ I w).
      { intros w [Hw Hn]. destruct (iter_ics w Hw) as [H1 H2].
        assert (R : rel Pcs (iter_credentials e)) by rel_walk.
        pose proof (fr_now _ _ _ (R w)) as N1. destruct (iter_credentials e w) as [[v | s] w']; cbn [fst snd] in *.
        - split; [apply H2; reflexivity | ]. split; [exact H1 | lia].
        - apply IB. split; [exact H1 | lia]. }
      intro v. apply hoare_fact. intros ->. rewrite candidates_ranked. fold L.
      destruct L as [ | [k c] rest] eqn:EL; [intros w Hw; split; auto | ]. cbn [map fst].
      intros w Hw.
      assert (R : rel Pcs (get_credential e k)) by rel_walk.
      pose proof (IR _ _ R w Hw) as Q. unfold bind. destruct (get_credential e k w) as [[c' | s] w'] eqn:G;
        cbn [fst snd] in *; [ | apply IB, Q].
      split; [exact Q | ]. exists k, rest. rewrite rev_involutive. split; [ | reflexivity].
      apply get_credential_ok in G as [G _]. destruct Hw as [[Hw _] _]. rewrite Hw in G.
      apply (lookup_in e l k c' C) in G.
      assert (In (k, c) l). { apply (in_ranked (ga_rp p) (is_some (ga_auth p))). fold L. rewrite EL. now left. }
      assert (X : (k, c') = (k, c)) by (apply (key_eq e l); auto). injection X as ->. reflexivity. }
    intros [[c | ] keys].
    2:{ intros w [Hw _]. apply IB, Hw. }
    apply hoare_fact_r. intros (k & rest & EL & EK).
    eapply hoare_bind with (Mid := fun _ => I); [apply IRB; rel_walk | intros _].
    eapply hoare_bind with (Mid := fun _ => I); [apply IRB; rel_walk | intros _].
    eapply hoare_bind with (Mid := fun _ => I); [apply IRB; rel_walk | intro ad].
    set (i := mkAI _ _ _ _).
    assert (IN : input_for p i) by (repeat split).
    eapply hoare_bind with (Mid := fun n w => begun ch (CGetAssertion p) w0 w /\
      (st w = stateful_clear <-> rest = []) /\
      n = match rest with [] => None | _ => Some (Nlen L) end).
    { destruct keys as [ | k1 keys'].
      - destruct rest; [ | apply (f_equal (@length N)) in EK; discriminate].
        intros w Hw. cbn. split; [apply begun_clear, Hw | ]. split; [ | reflexivity]. split; [auto | intros _; apply Hw].
      - destruct rest as [ | r1 rest']; [apply (f_equal (@length N)) in EK; rewrite rev_length in EK; discriminate | ].
        intros w [[Hw Hs] Hn]. cbn. split; [ | split; [split; discriminate | ]].
        + split; [exact Hw | ]. right. eexists _, _. split; [reflexivity | ]. split; [unfold make_timer, STATEFUL_TIMEOUT_MS; lia | ].
          cbn [content]. exists i, (k1 :: keys'). split; [reflexivity | ]. split; [exact IN | ].
          fold L. rewrite EL, EK. reflexivity.
        + f_equal. fold L. rewrite EL. apply (f_equal (@length N)) in EK. rewrite rev_length, map_length in EK.
          unfold Nlen in *. cbn [length] in *. lia. }
    intro n. unfold hoare. intros w (B & Hs & ->).
    assert (R : rel Pcs (assertion_response e c i match rest with [] => None | _ => Some (Nlen L) end)) by rel_walk.
    pose proof (begun_rel ch (CGetAssertion p) w0 _ R w B) as B'.
    pose proof (fr_v _ _ _ (R w)) as V. cbn in V.
    unfold bind. destruct (assertion_response e c i _ w) as [[g | s] w'] eqn:G; cbn [fst snd] in *.
    2:{ split; [exact B' | discriminate]. }
    apply assertion_response_asserts in G as [G1 G2].
    split; [exact B' | ]. intros r Hr. cbn in Hr. injection Hr as <-.
    exists k, c, rest, i, g. fold L. split; [exact EL | ]. split; [reflexivity | ]. split; [exact IN | ].
    split; [exact G1 | ]. split; [exact G2 | ]. cbn. rewrite V. exact Hs.
  Qed.
End Start.

(** ** Starting an enumeration of RPs or of the credentials of an RP *)
Lemma set_insert_in x l y : In y (set_insert x l) <-> y = x \/ In y l.
Proof.
  induction l as [ | z l IH]; cbn; [intuition | ].
  destruct (lexcmp x z) eqn:E; cbn.
  - apply lexcmp_eq in E. subst z. intuition.
  - intuition.
  - rewrite IH. intuition.
Qed.
Definition before (a b : bytes) : Prop := lexcmp a b = Lt.
Lemma set_insert_sorted x l : StronglySorted before l -> StronglySorted before (set_insert x l).
Proof.
  induction l as [ | z l IH]; cbn; intro H; [repeat constructor | ].
  pose proof H as H'. apply StronglySorted_inv in H' as [H1 H2].
  destruct (lexcmp x z) eqn:E.
  - exact H.
  - constructor; [exact H | ]. constructor; [exact E | ]. eapply Forall_impl; [ | exact H2].
    intros a Ha. unfold before in *. eapply lexcmp_trans_lt; eassumption.
  - constructor; [now apply IH | ]. apply Forall_forall. intros a Ha. apply set_insert_in in Ha as [-> | Ha].
    + unfold before. rewrite lexcmp_antisym, E. reflexivity.
    + rewrite Forall_forall in H2. now apply H2.
Qed.
Lemma rp_set_ok l : StronglySorted before (rp_set l) /\ forall y, In y (rp_set l) <-> exists x, In x l /\ cr_rp (snd x) = y.
Proof.
  unfold rp_set.
  assert (G : forall (l : list (N * cred)) acc, StronglySorted before acc ->
    StronglySorted before (fold_left (fun acc x => set_insert (cr_rp (snd x)) acc) l acc) /\
    forall y, In y (fold_left (fun acc x => set_insert (cr_rp (snd x)) acc) l acc) <->
      In y acc \/ exists x, In x l /\ cr_rp (snd x) = y).
  { clear. induction l as [ | x l IH]; intros acc H; cbn [fold_left].
    - split; [exact H | ]. intro y. split; [auto | intros [Hy | (z & [] & _)]; exact Hy].
    - destruct (IH (set_insert (cr_rp (snd x)) acc)) as [I1 I2]; [now apply set_insert_sorted | ].
      split; [exact I1 | ]. intro y. rewrite I2, set_insert_in. split.
      + intros [[-> | Hy] | (z & Hz & E)]; [right; exists x; cbn; auto | auto | right; exists z; cbn; auto].
      + intros [Hy | (z & [-> | Hz] & E)]; [auto | auto | right; exists z; auto]. }
  destruct (G l [] (SSorted_nil _)) as [G1 G2]. split; [exact G1 | ]. intro y. rewrite G2. cbn. intuition.
Qed.
Lemma sorted_unique (l l' : list bytes) : StronglySorted before l -> StronglySorted before l' ->
  (forall y, In y l <-> In y l') -> l = l'.
Proof.
  revert l'. induction l as [ | x l IH]; intros [ | y l'] H H' E.
  - reflexivity.
  - destruct (proj2 (E y) (or_introl eq_refl)).
  - destruct (proj1 (E x) (or_introl eq_refl)).
  - apply StronglySorted_inv in H as [H F]. apply StronglySorted_inv in H' as [H' F'].
    rewrite Forall_forall in F, F'. unfold before in *.
    assert (x = y).
    { destruct (proj1 (E x) (or_introl eq_refl)) as [-> | Hx]; [reflexivity | ].
      destruct (proj2 (E y) (or_introl eq_refl)) as [-> | Hy]; [reflexivity | ].
      apply F' in Hx. apply F in Hy. rewrite lexcmp_antisym, Hx in Hy. discriminate. }
    subst y. f_equal. apply IH; auto. intro z.
    assert (N : forall l, (forall z, In z l -> lexcmp x z = Lt) -> ~ In x l).
    { intros m Hm Hx. apply Hm in Hx. rewrite lexcmp_refl in Hx. discriminate. }
    split; intro Hz.
    + destruct (proj1 (E z) (or_intror Hz)) as [<- | Hz']; [destruct (N l F Hz) | exact Hz'].
    + destruct (proj2 (E z) (or_intror Hz)) as [<- | Hz']; [destruct (N l' F' Hz) | exact Hz'].
Qed.
Lemma rp_set_perm l l' : Permutation l l' -> rp_set l = rp_set l'.
Proof.
  intro P. destruct (rp_set_ok l) as [S1 I1], (rp_set_ok l') as [S2 I2]. apply sorted_unique; auto.
  intro y. rewrite I1, I2. split; intros (x & Hx & E); exists x; split; auto.
  - eapply Permutation_in; eassumption.
  - eapply Permutation_in; [apply Permutation_sym, P | exact Hx].
Qed.

(** The credentials of an RP in the order in which they are returned. *)
Definition rp_creds (pr : prims) (h : bytes) (l : list (N * cred)) : list (N * cred) := rev (of_rp pr h l).
(** A credential as it is returned by credential management. *)
Definition describes (pr : prims) (c : cred) (n : option N) (r : cm_resp) : Prop :=
  r = mkCmResp None None None None None (Some (mkUser (cr_user c) (cr_name c) (cr_display c) (cr_icon c)))
        (Some (cr_id c)) (Some (pub_of pr (cr_key c))) n (cr_policy c) (cr_lbkey c).
Lemma creds_response_describes e c n w r w' :
  creds_response e c n w = (Ok r, w') -> describes (e_prims e) c n r.
Proof.
  unfold creds_response. intro H. apply bind_ok in H as (pub & w1 & H1 & H). apply ret_ok in H as [-> _].
  unfold get_pub_key in H1. destruct (key_valid _ _); [ | discriminate]. apply ret_ok in H1 as [-> _]. reflexivity.
Qed.

Section StartCm.
  Variable e : env.
  Notation pr := (e_prims e).
  Variable l : list (N * cred).
  Definition rps_begun (p : cm_params) (ch : channel) (w0 : world) (y : res status response) (w : world) : Prop :=
    begun e l ch (CCredMgmt p) w0 w /\
    forall r, y = Ok r -> exists rp rest, rp_set l = rp :: rest /\
      r = RCredMgmt (Some (rps_response e rp (Some (Nlen (rp_set l))))) /\
      (st w = stateful_clear <-> rest = []).
  Definition creds_begun (p : cm_params) (ch : channel) (w0 : world) (y : res status response) (w : world) : Prop :=
    begun e l ch (CCredMgmt p) w0 w /\
    forall r, y = Ok r -> exists d h k c rest x, cm_data_ p = Some d /\ cd_hash d = Some h /\
      rp_creds pr h l = (k, c) :: rest /\ r = RCredMgmt (Some x) /\
      describes pr c (Some (Nlen (of_rp pr h l))) x /\ (st w = stateful_clear <-> rest = []).
  Lemma rps_begins p ch w0 : cm_sub_ p = CmRpsBegin ->
    hoare (fun w => Ics l w /\ (w_now w0 <= w_now w)%N) (cm_rest e p ch) (rps_begun p ch w0).
  Proof.
    intros Es. set (I := fun w => Ics l w /\ (w_now w0 <= w_now w)%N).
    assert (IR : forall A (m : M status A), rel Pcs m -> hoare I m (fun _ => I)).
    { intros A m R w [H1 H2]. split; [apply (ics_rel l m R w H1) | ]. pose proof (fr_now _ _ _ (R w)). lia. }
    assert (IB : forall s w, I w -> rps_begun p ch w0 (Err s) w).
    { intros s w [H _]. split; [now apply begun_clear | discriminate]. }
    assert (IRB : forall A (m : M status A), rel Pcs m -> hoare I m (fun y w => match y with Ok _ => I w | Err s => rps_begun p ch w0 (Err s) w end)).
    { intros A m R w H. pose proof (IR A m R w H) as Q. destruct (m w) as [[a | s] w']; cbn [fst snd] in *; auto. }
    unfold cm_rest. rewrite Es.
    eapply hoare_bind with (Mid := fun _ => I); [apply IRB; rel_walk | intros _].
    eapply hoare_bind with (Mid := fun a => rps_begun p ch w0 (Ok (RCredMgmt a))).
    2:{ intros a w Hw. exact Hw. }
    eapply hoare_bind with (Mid := fun _ => I); [apply IRB; rel_walk | intros _]. unfold cm_rps_begin.
    eapply hoare_bind with (Mid := fun v w => v = l /\ I w).
    { intros w [Hw Hn]. destruct (iter_ics e l w Hw) as [H1 H2].
      assert (R : rel Pcs (iter_credentials e)) by rel_walk.
      pose proof (fr_now _ _ _ (R w)) as N1. destruct (iter_credentials e w) as [[v | s] w']; cbn [fst snd] in *.
      - split; [apply H2; reflexivity | ]. split; [exact H1 | lia].
      - apply IB. split; [exact H1 | lia]. }
    intro v. apply hoare_fact. intros ->. cbv zeta.
    destruct (rp_set l) as [ | rp [ | rp2 rest]] eqn:EL; cbn [length Nat.ltb Nat.leb].
    - intros w Hw. cbn. apply IB, Hw.
    - intros w [Hw Hn]. cbn. split; [now apply begun_clear | ]. intros r Hr. injection Hr as <-.
      exists rp, []. rewrite EL. split; [reflexivity | ]. split; [reflexivity | ]. split; [auto | intros _; apply Hw].
    - intros w [Hw Hn]. split.
      + split; [exact (proj1 Hw) | ]. right. eexists _, _. split; [reflexivity | ].
        split; [unfold make_timer, STATEFUL_TIMEOUT_MS; lia | ]. cbn [content]. rewrite Es. reflexivity.
      + intros r Hr. injection Hr as <-. exists rp, (rp2 :: rest). rewrite EL. split; [reflexivity | ].
        split; [reflexivity | ]. cbn. split; discriminate.
  Qed.
  Lemma creds_begins p ch w0 : creds_ok e l -> cm_sub_ p = CmCredsBegin ->
    hoare (fun w => Ics l w /\ (w_now w0 <= w_now w)%N) (cm_rest e p ch) (creds_begun p ch w0).
  Proof.
    intros C Es. set (I := fun w => Ics l w /\ (w_now w0 <= w_now w)%N).
    assert (IR : forall A (m : M status A), rel Pcs m -> hoare I m (fun _ => I)).
    { intros A m R w [H1 H2]. split; [apply (ics_rel l m R w H1) | ]. pose proof (fr_now _ _ _ (R w)). lia. }
    assert (IB : forall s w, I w -> creds_begun p ch w0 (Err s) w).
    { intros s w [H _]. split; [now apply begun_clear | discriminate]. }
    assert (IRB : forall A (m : M status A), rel Pcs m -> hoare I m (fun y w => match y with Ok _ => I w | Err s => creds_begun p ch w0 (Err s) w end)).
    { intros A m R w H. pose proof (IR A m R w H) as Q. destruct (m w) as [[a | s] w']; cbn [fst snd] in *; auto. }
    unfold cm_rest. rewrite Es.
    eapply hoare_bind with (Mid := fun _ => I); [apply IRB; rel_walk | intros _].
    eapply hoare_bind with (Mid := fun a => creds_begun p ch w0 (Ok (RCredMgmt a))).
    2:{ intros a w Hw. exact Hw. }
    destruct (cm_data_ p) as [d | ] eqn:Ed; [ | intros w Hw; apply IB, Hw].
    unfold cm_creds_begin. unfold ok_or_missing at 1. cbn [lift].
    intros w Hw. unfold bind at 1. cbn. revert w Hw. change (hoare I (cm_creds_begin e d ch) (fun y w => match y with Ok a => creds_begun p ch w0 (Ok (RCredMgmt a)) w | Err s => creds_begun p ch w0 (Err s) w end)).
    unfold cm_creds_begin.
    destruct (cd_hash d) as [h | ] eqn:Eh; [ | intros w Hw; apply IB, Hw].
    eapply hoare_bind with (Mid := fun a w => a = h /\ I w).
    { intros w Hw. cbn. auto. }
    intro h'. apply hoare_fact. intros ->.
    eapply hoare_bind with (Mid := fun _ => I); [apply IRB; rel_walk | intros _].
    eapply hoare_bind with (Mid := fun v w => v = l /\ I w).
    { intros w [Hw Hn]. destruct (iter_ics e l w Hw) as [H1 H2].
      assert (R : rel Pcs (iter_credentials e)) by rel_walk.
      pose proof (fr_now _ _ _ (R w)) as N1. destruct (iter_credentials e w) as [[v | s] w']; cbn [fst snd] in *.
      - split; [apply H2; reflexivity | ]. split; [exact H1 | lia].
      - apply IB. split; [exact H1 | lia]. }
    intro v. apply hoare_fact. intros ->. cbv zeta. fold (of_rp pr h l).
    rewrite <- map_rev. fold (rp_creds pr h l).
    assert (EN : length (map fst (of_rp pr h l)) = length (rp_creds pr h l)).
    { unfold rp_creds. now rewrite map_length, rev_length. }
    assert (IN : forall x, In x (rp_creds pr h l) -> In x l).
    { intros x Hx. unfold rp_creds, of_rp in Hx. apply in_rev, filter_In in Hx. apply Hx. }
    destruct (rp_creds pr h l) as [ | [k c] rest] eqn:EL; [intros w Hw; apply IB, Hw | ]. cbn [map fst].
    eapply hoare_bind with (Mid := fun a w => a = c /\ I w).
    { intros w Hw. assert (R : rel Pcs (get_credential e k)) by rel_walk.
      pose proof (IR _ _ R w Hw) as Q. destruct (get_credential e k w) as [[c' | s] w'] eqn:G; cbn [fst snd] in *; [ | apply IB, Q].
      split; [ | exact Q]. apply get_credential_ok in G as [G _]. destruct Hw as [[Hw _] _]. rewrite Hw in G.
      apply (lookup_in e l k c' C) in G.
      assert (X : (k, c') = (k, c)) by (apply (key_eq e l); auto; apply IN; now left). now injection X as ->. }
    intro c'. apply hoare_fact. intros ->.
    eapply hoare_bind with (Mid := fun _ w => begun e l ch (CCredMgmt p) w0 w /\ (st w = stateful_clear <-> rest = [])).
    { rewrite EN. cbn [length]. destruct rest as [ | x2 rest].
      - intros w Hw. cbn. split; [apply begun_clear, Hw | ]. split; [auto | intros _; apply Hw].
      - change (1 <? S (length (x2 :: rest)))%nat with true. intros w [[Hw Hs] Hn]. cbn. split; [ | split; discriminate].
        split; [exact Hw | ]. right. eexists _, _. split; [reflexivity | ].
        split; [unfold make_timer, STATEFUL_TIMEOUT_MS; lia | ]. cbn [content]. rewrite Es.
        eexists _, d, h. split; [reflexivity | ]. split; [exact Ed | ]. split; [exact Eh | ].
        replace (rev (map fst (of_rp pr h l))) with (map fst (rp_creds pr h l)) by (unfold rp_creds; apply map_rev).
        rewrite EL. cbn [map skipn rev]. now rewrite rev_app_distr, rev_involutive. }
    intros _ w (B & Hs).
    assert (R : rel Pcs (creds_response e c (Some (Nlen (map fst (of_rp pr h l)))))) by rel_walk.
    pose proof (begun_rel e l ch (CCredMgmt p) w0 _ R w B) as B'.
    pose proof (fr_v _ _ _ (R w)) as V. cbn in V.
    unfold bind. destruct (creds_response e c _ w) as [[x | s] w'] eqn:G; cbn [fst snd ret] in *.
    2:{ split; [exact B' | discriminate]. }
    apply creds_response_describes in G. split; [exact B' | ]. intros r Hr. injection Hr as <-.
    exists d, h, k, c, rest, x. rewrite EL. split; [exact Ed | ]. split; [exact Eh | ]. split; [reflexivity | ]. split; [reflexivity | ].
    split; [ | now rewrite V]. unfold Nlen in *. now rewrite map_length in G.
  Qed.
End StartCm.

(** ** Continuing *)
Lemma preamble_live x ch w t c : st w = mkStateful t (Some c) (Some ch) -> (w_now w < t)%N -> keeps x (Some c) = true ->
  exists w1, preamble x ch w = (Ok tt, w1) /\ st w1 = st w /\ w_p w1 = w_p w /\ w_now w1 = w_now w.
Proof.
  intros Hs Ht Hk. destruct (preamble_same x ch w) as (w1 & Q & P1 & _ & P3 & _).
  exists w1. split; [exact Q | ]. split; [ | auto].
  unfold preamble in Q. apply bind_ok in Q as (? & w2 & H1 & H). unfold update_timeouts in H1.
  apply bind_ok in H1 as (n & w3 & H2 & H1). apply now_ok in H2 as [-> ->].
  apply modify_ok in H1 as (V1 & _ & N1 & _).
  apply bind_ok in H as (? & w4 & H2 & H). unfold clear_other_channels in H2.
  apply bind_ok in H2 as (? & w5 & H3 & H2). apply modify_ok in H3 as (V2 & _ & N2 & _).
  apply modify_ok in H2 as (V3 & _ & N3 & _).
  apply bind_ok in H as (s & w6 & H3 & H). unfold get_command in H3.
  apply bind_ok in H3 as (? & w7 & H4 & H3). unfold clear_timer in H4.
  apply bind_ok in H4 as (n & w8 & H5 & H4). apply now_ok in H5 as [-> ->].
  apply modify_ok in H4 as (V4 & _ & N4 & _). apply gets_ok in H3 as [-> ->].
  assert (E5 : v_st (w_v w5) = st w) by (rewrite V2, V1; reflexivity).
  assert (E4 : v_st (w_v w4) = st w).
  { rewrite V3. cbn [set_st v_st]. rewrite E5, Hs. cbn [sf_chan].
    assert (EB : channel_eqb ch ch = true) by (destruct ch; cbn; now apply bytes_eqb_eq). now rewrite EB. }
  assert (E7 : v_st (w_v w7) = st w).
  { rewrite V4. cbn [set_st v_st]. rewrite E4, Hs. cbn [sf_timer]. unfold is_elapsed.
    destruct (t <=? w_now w4)%N eqn:E; [ | reflexivity]. rewrite N3, N2, N1 in E. lia. }
  rewrite E7, Hs in H. cbn [sf_cmd] in H. rewrite Hk in H. apply ret_ok in H as [_ ->]. exact E7.
Qed.
Lemma clear_timer_live w t c ch : st w = mkStateful t c ch -> (w_now w < t)%N ->
  exists w1, clear_timer w = (Ok tt, w1) /\ st w1 = st w /\ w_p w1 = w_p w /\ w_now w1 = w_now w.
Proof.
  intros Hs Ht. eexists. split; [reflexivity | ]. cbn. rewrite Hs. cbn. unfold is_elapsed.
  destruct (t <=? w_now w)%N eqn:E; [lia | auto].
Qed.
Lemma clear_timer_run w : exists w1, clear_timer w = (Ok tt, w1) /\ w_p w1 = w_p w /\ w_now w1 = w_now w /\
  (st w = stateful_clear -> st w1 = stateful_clear).
Proof.
  eexists. split; [reflexivity | ]. cbn. split; [reflexivity | ]. split; [reflexivity | ].
  intros ->. destruct (is_elapsed _ _); reflexivity.
Qed.

Lemma bind_run {A B} (n : M status A) (f : A -> M status B) w a w1 : n w = (Ok a, w1) -> bind n f w = f a w1.
Proof. intro H. unfold bind. now rewrite H. Qed.

Lemma load_total e {A} (f : pers -> A) w : nofault e -> exists w', load e f w = (Ok (f (w_p w)), w') /\ w_p w' = w_p w.
Proof. intro F. unfold load. rewrite F. eexists. split; reflexivity. Qed.
Lemma wrap_key_total e w : nofault e -> exists k w', wrap_key e w = (Ok k, w') /\ creds w' = creds w.
Proof.
  intro F. unfold wrap_key, master_keys, internal, map_status, bind.
  destruct (load_total e p_master w F) as (w1 & Q1 & P1). rewrite Q1. destruct (p_master (w_p w)).
  - eexists _, _. split; [reflexivity | ]. now rewrite P1.
  - unfold store, draw. rewrite F. eexists _, _. split; [reflexivity | ]. cbn. now rewrite P1.
Qed.
Lemma iter_total e w : nofault e -> exists v w', iter_credentials e w = (Ok v, w').
Proof.
  intro F. unfold iter_credentials, bind. destruct (wrap_key_total e w F) as (k & w1 & Q1 & _). rewrite Q1.
  destruct (load_total e p_creds w1 F) as (w2 & Q2 & _). eauto.
Qed.
Lemma get_credential_total e k r w : nofault e -> key_in_range e k = true -> lookup k (creds w) = Some r ->
  exists w', get_credential e k w = (Ok r, w').
Proof.
  intros F K L. unfold get_credential. rewrite K. cbn [negb]. unfold bind.
  destruct (load_total e (fun p => lookup k (p_creds p)) w F) as (w1 & Q1 & P1). rewrite Q1, L.
  destruct (wrap_key_total e w1 F) as (kk & w2 & Q2 & _). rewrite Q2. eexists. reflexivity.
Qed.
Lemma assertion_total e c i n w : gx_hmac (ai_ext i) = None -> gx_blob (ai_ext i) = false ->
  key_valid e (cr_key c) = true -> exists g w', assertion_response e c i n w = (Ok g, w').
Proof.
  intros H1 H2 H3. unfold assertion_response. rewrite H1, H2. cbn [orb]. unfold bind, ret, sign_and_encode. rewrite H3. eexists _, _. reflexivity.
Qed.
Lemma creds_response_total e c n w : key_valid e (cr_key c) = true -> exists g w', creds_response e c n w = (Ok g, w').
Proof. intro H. unfold creds_response, bind, get_pub_key, ret. rewrite H. eexists _, _. reflexivity. Qed.

(** The answer of the [m]-th continuation: the element of rank [m] of the enumeration, or an error. *)
Definition continued (e : env) (x : command) (l : list (N * cred)) (m : nat) (y : res status response) : Prop :=
  match x with
  | CGetAssertion p =>
      match nth_error (ranked (ga_rp p) (is_some (ga_auth p)) l) m with
      | Some (_, c) =>
          (forall r, y = Ok r -> exists i g, r = RGetNextAssertion g /\ input_for p i /\
             asserts e c i g /\ gr_number g = None) /\
          (nofault e -> gx_hmac (ga_ext_ p) = None -> gx_blob (ga_ext_ p) = false ->
           key_valid e (cr_key c) = true -> exists r, y = Ok r)
      | None => y = Err NOT_ALLOWED
      end
  | CCredMgmt p =>
      match cm_sub_ p with
      | CmRpsBegin =>
          match nth_error (rp_set l) m with
          | Some rp => (forall r, y = Ok r -> r = RCredMgmt (Some (rps_response e rp None))) /\
                       (nofault e -> exists r, y = Ok r)
          | None => forall r, y <> Ok r
          end
      | CmCredsBegin => forall d h, cm_data_ p = Some d -> cd_hash d = Some h ->
          match nth_error (rp_creds (e_prims e) h l) m with
          | Some (_, c) =>
              (forall r, y = Ok r -> exists z, r = RCredMgmt (Some z) /\ describes (e_prims e) c None z) /\
              (nofault e -> key_valid e (cr_key c) = true -> exists r, y = Ok r)
          | None => y = Err NOT_ALLOWED
          end
      | _ => False
      end
  | _ => False
  end.
Definition kind_for (x : command) (k : kind) : Prop := begins k x.
Lemma content_kind e x l m c k : begins k x -> content e x l m c -> kind_of c = Some k.
Proof.
  intros B H. destruct k, x; cbn in B; try contradiction; cbn in H.
  - destruct H as (i & keys & -> & _). reflexivity.
  - rewrite B in H. subst. reflexivity.
  - rewrite B in H. destruct H as (keys & d & h & -> & _). reflexivity.
Qed.
Lemma skipn_nth {A} (l : list A) m : skipn m l = match nth_error l m with Some x => x :: skipn (S m) l | None => [] end.
Proof.
  revert l. induction m as [ | m IH]; intros [ | y l]; cbn; auto. apply IH.
Qed.
Lemma skipn_past {A} (l : list A) m : skipn m l = [] -> skipn (S m) l = [].
Proof. revert l. induction m as [ | m IH]; intros [ | y l]; cbn; auto; try discriminate. apply IH. Qed.

Definition at_ (e : env) (x : command) (l : list (N * cred)) (ch : channel) (m : nat) (t : N) (w : world) : Prop :=
  Permutation l (creds w) /\ exists c, st w = mkStateful t (Some c) (Some ch) /\ content e x l m c.
(** The state after the continuation [x'] on the channel of an enumeration. *)
Section Continue.
  Variable e : env.
  Notation pr := (e_prims e).
  Variable l : list (N * cred).
  Hypothesis Hl : creds_ok e l.

  Lemma at_rel {A} x ch m' t (n : M status A) w : rel Pcs n -> at_ e x l ch m' t w -> at_ e x l ch m' t (snd (n w)).
  Proof.
    intros R [P (c & Hs & Hc)]. pose proof (fr_p _ _ _ (R w)) as F1. pose proof (fr_v _ _ _ (R w)) as F2. cbn in F1, F2.
    split; [now rewrite F1 | ]. exists c. now rewrite F2.
  Qed.
  Lemma got q c w w' r : Permutation l (creds w) -> In (q, c) l -> get_credential e q w = (Ok r, w') -> r = c.
  Proof.
    intros P Hi G. apply get_credential_ok in G as [G _].
    assert (C' : creds_ok e (creds w)) by (eapply creds_perm; eassumption).
    apply (lookup_in e _ q r C') in G.
    assert (X : (q, r) = (q, c)).
    { apply (key_eq e (creds w)); auto. eapply Permutation_in; eassumption. }
    now injection X as ->.
  Qed.

  Lemma got_total q c w : nofault e -> Permutation l (creds w) -> In (q, c) l ->
    exists w', get_credential e q w = (Ok c, w').
  Proof.
    intros F P Hi. assert (C' : creds_ok e (creds w)) by (eapply creds_perm; eassumption).
    assert (Hi' : In (q, c) (creds w)) by (eapply Permutation_in; eassumption).
    apply get_credential_total; [exact F | | ].
    - destruct C' as [_ C' _]. rewrite Forall_forall in C'. exact (C' _ Hi').
    - apply (lookup_in e _ q c C'), Hi'.
  Qed.
  Lemma next_dead k x' ch cid w w1 : ch = MainHid cid -> continues k x' ->
    preamble x' ch w = (Ok tt, w1) -> st w1 = stateful_clear ->
    creds (snd ((do* preamble x' ch in
      match ch with MainHid _ => process_fido_command e x' ch | VendorHid _ => process_vendor_command e x' end) w)) = creds w /\
    st (snd ((do* preamble x' ch in
      match ch with MainHid _ => process_fido_command e x' ch | VendorHid _ => process_vendor_command e x' end) w)) = stateful_clear /\
    fst ((do* preamble x' ch in
      match ch with MainHid _ => process_fido_command e x' ch | VendorHid _ => process_vendor_command e x' end) w) = Err NOT_ALLOWED.
  Proof.
      intros Ech Hk Q S1.
      assert (P1 : w_p w1 = w_p w) by (destruct (preamble_same x' ch w) as (w1' & Q' & P1 & _); congruence).
      rewrite (bind_run _ _ _ _ _ Q). subst ch.
      assert (CM : forall p, x' = CCredMgmt p -> exists w2, cm_front p w1 = (Ok tt, w2) /\ creds w2 = creds w /\ st w2 = stateful_clear).
      { intros p Hp. destruct (cm_front_run p w1) as (w2 & Q2 & P2 & _ & _ & _ & _ & _ & C2).
        exists w2. split; [exact Q2 | ]. split; [now rewrite P2, P1 | ]. destruct C2 as [C2 | [C2 _]]; congruence. }
      destruct k, x'; cbn in Hk; try contradiction; cbn [process_fido_command].
      + unfold process_get_next_assertion, next_assertion_credential, bind.
        destruct (clear_timer_run w1) as (w2 & Q2 & P2 & N2 & S2). rewrite Q2. unfold gets. rewrite (S2 S1). cbn.
        rewrite P2, P1. auto.
      + rewrite cm_split. destruct (CM _ eq_refl) as (w2 & Q2 & P2 & S2). rewrite (bind_run _ _ _ _ _ Q2).
        unfold cm_rest, cm_authorise. rewrite Hk. unfold cm_rps_next, next_enumerate_rp, bind, ret.
        destruct (clear_timer_run w2) as (w3 & Q3 & P3 & N3 & S3). rewrite Q3. unfold gets. rewrite (S3 S2). cbn.
        rewrite P3, P2. auto.
      + rewrite cm_split. destruct (CM _ eq_refl) as (w2 & Q2 & P2 & S2). rewrite (bind_run _ _ _ _ _ Q2).
        unfold cm_rest, cm_authorise. rewrite Hk. unfold cm_creds_next, next_enumerate_credential, bind, ret.
        destruct (clear_timer_run w2) as (w3 & Q3 & P3 & N3 & S3). rewrite Q3. unfold gets. rewrite (S3 S2). cbn.
        rewrite P3, P2. auto.
  Qed.
  Lemma next_step x k ch m x' cid t w : begins k x -> ch = MainHid cid -> continues k x' -> at_ e x l ch m t w ->
    let y := fst (process_parsed_command e x' ch w) in
    let w' := snd (process_parsed_command e x' ch w) in
    ((t <= w_now w)%N -> creds w' = creds w /\ st w' = stateful_clear /\ y = Err NOT_ALLOWED) /\
    ((w_now w < t)%N -> at_ e x l ch (S m) t w' /\ creds w' = creds w /\ continued e x l (S m) y).
  Proof.
    intros Hb Ech Hk [P (c & Hs & Hc)]. cbv zeta. pose proof (content_kind _ _ _ _ _ _ Hb Hc) as Kc.
    rewrite split_message. split.
    - intro Ht. destruct (preamble_same x' ch w) as (w1 & Q & P1 & _ & N1 & _).
      pose proof (st_preamble x' ch w w1 Q) as (_ & _ & C1).
      assert (S1 : st w1 = stateful_clear).
      { destruct C1 as [C1 | (_ & _ & C1 & _)]; [exact C1 | ]. rewrite Hs in C1. cbn in C1. lia. }
      exact (next_dead k x' ch cid w w1 Ech Hk Q S1).
    - intro Ht.
      assert (KP : keeps x' (Some c) = true).
      { destruct k, c; cbn in Kc; try discriminate; destruct x'; cbn in Hk; try contradiction; reflexivity. }
      destruct (preamble_live x' ch w t c Hs Ht KP) as (w1 & Q & S1 & P1 & N1).
      rewrite (bind_run _ _ _ _ _ Q). subst ch.
      assert (CM : forall p, x' = CCredMgmt p -> exists w2, cm_front p w1 = (Ok tt, w2) /\ w_p w2 = w_p w /\
                     st w2 = mkStateful t (Some c) (Some (MainHid cid)) /\ w_now w2 = w_now w).
      { intros p Hp. unfold cm_front, bind.
        destruct (clear_timer_live w1 t (Some c) (Some (MainHid cid))) as (w2 & Q2 & S2 & P2 & N2); [congruence | lia | ].
        unfold get_command, bind. rewrite Q2. unfold gets. rewrite S2, S1, Hs. cbn [sf_cmd].
        assert (G : exists w3, (match cm_sub_ p, Some c with
                     | CmRpsNext, Some (SEnumRps _) => ret tt
                     | CmCredsNext, Some (SEnumCreds _) => ret tt
                     | _, _ => st_clear end w2) = (Ok tt : res status unit, w3) /\ w3 = w2).
        { subst x'. destruct k, c; cbn in Kc, Hk; try discriminate; try contradiction; rewrite Hk; eexists; split; reflexivity. }
        destruct G as (w3 & G & ->). exists w2. split; [exact G | ]. split; [congruence | ]. split; [congruence | lia]. }
      pose proof Hb as Hb'. destruct k, x; cbn in Hb'; try contradiction;
        destruct x'; cbn in Hk; try contradiction; cbn [process_fido_command].
      + (* next assertion *)
        cbn [content] in Hc. destruct Hc as (i & keys & -> & Hi & Ek).
        set (L := ranked (ga_rp p) (is_some (ga_auth p)) l) in *.
        rewrite skipn_nth, nth_error_map in Ek.
        unfold process_get_next_assertion, next_assertion_credential, bind.
        destruct (clear_timer_live w1 t (Some (SGetAssertion i keys)) (Some (MainHid cid))) as (w2 & Q2 & S2 & P2 & N2); [congruence | lia | ].
        rewrite Q2. unfold gets. rewrite S2, S1, Hs. cbn [sf_cmd continued]. fold L.
        destruct (nth_error L (S m)) as [[q c] | ] eqn:EN; cbn [option_map fst] in Ek; rewrite Ek.
        2:{ cbn. split; [ | split; [congruence | reflexivity]]. split; [now rewrite P2, P1 | ].
            exists (SGetAssertion i keys). split; [congruence | ]. exists i, keys. split; [reflexivity | ]. split; [exact Hi | ].
            fold L. rewrite Ek. symmetry. apply skipn_past. rewrite skipn_nth, nth_error_map, EN. reflexivity. }
        unfold mod_st, modify, ret.
        set (w3 := mkWorld (w_p w2) _ _ _ _ _ _).
        assert (A3 : at_ e (CGetAssertion p) l (MainHid cid) (S m) t w3).
        { unfold at_. split; [subst w3; cbn; now rewrite P2, P1 | ].
          exists (SGetAssertion i (rev (skipn (S (S m)) (map fst L)))). split.
          - subst w3. cbn. rewrite S2, S1, Hs. reflexivity.
          - exists i, (rev (skipn (S (S m)) (map fst L))). rewrite rev_involutive. auto. }
        assert (P3 : Permutation l (creds w3)) by apply A3.
        assert (C3 : creds w3 = creds w) by (subst w3; cbn; now rewrite P2, P1).
        assert (R4 : rel Pcs (get_credential e q)) by rel_walk.
        pose proof (at_rel _ _ (S m) t _ w3 R4 A3) as A4. pose proof (fr_p _ _ _ (R4 w3)) as C4. cbn in C4.
        destruct (get_credential e q w3) as [[r | s] w4] eqn:G4; cbn [fst snd] in *.
        2:{ split; [exact A4 | ]. split; [congruence | ]. split; [discriminate | ]. intro F.
            destruct (got_total q c w3 F P3) as (w' & Q'); [ | congruence].
            apply (in_ranked (ga_rp p) (is_some (ga_auth p))). eapply nth_error_In, EN. }
        assert (r = c).
        { eapply got; [exact P3 | | exact G4]. apply (in_ranked (ga_rp p) (is_some (ga_auth p))). eapply nth_error_In, EN. }
        subst r.
        assert (R5 : rel Pcs (assertion_response e c i None)) by rel_walk.
        pose proof (at_rel _ _ (S m) t _ w4 R5 A4) as A5. pose proof (fr_p _ _ _ (R5 w4)) as C5. cbn in C5.
        destruct (assertion_response e c i None w4) as [[g | s] w5] eqn:G5; cbn [fst snd] in *;
          (split; [exact A5 | ]; split; [congruence | ]; [ ..]).
        * split; [ | eauto]. intros r Hr. injection Hr as <-. apply assertion_response_asserts in G5 as [G5 G6]. eauto 8.
        * split; [discriminate | ]. intros _ F1 F2 F3.
          destruct Hi as (_ & _ & Hx). rewrite <- Hx in F1, F2.
          destruct (assertion_total e c i None w4 F1 F2 F3) as (g & w' & Q'). congruence.
      + (* next RP *)
        cbn [content] in Hc. rewrite Hb' in Hc. subst c. cbn [continued]. rewrite Hb'.
        rewrite cm_split. destruct (CM _ eq_refl) as (w2 & Q2 & P2 & S2 & N2). rewrite (bind_run _ _ _ _ _ Q2).
        unfold cm_rest, cm_authorise. rewrite Hk. unfold cm_rps_next, next_enumerate_rp, bind, ret.
        destruct (clear_timer_live w2 _ _ _ S2) as (w3 & Q3 & S3 & P3 & N3); [lia | ].
        rewrite Q3. unfold gets. rewrite S3, S2. cbn [sf_cmd]. unfold mod_st, modify.
        set (w4 := mkWorld (w_p w3) _ _ _ _ _ _).
        assert (A4 : at_ e (CCredMgmt p) l (MainHid cid) (S m) t w4).
        { unfold at_. split; [subst w4; cbn; now rewrite P3, P2 | ]. exists (SEnumRps (S (S m))).
          split; [subst w4; cbn; rewrite S3, S2; reflexivity | ]. cbn [content]. now rewrite Hb'. }
        assert (C4 : creds w4 = creds w) by (subst w4; cbn; now rewrite P3, P2).
        assert (R5 : rel Pcs (iter_credentials e)) by rel_walk.
        pose proof (at_rel _ _ (S m) t _ w4 R5 A4) as A5. pose proof (fr_p _ _ _ (R5 w4)) as C5. cbn in C5.
        destruct (iter_credentials e w4) as [[v | s] w5] eqn:G5; cbn [fst snd] in *.
        2:{ split; [exact A5 | ]. split; [congruence | ].
            assert (NF : nofault e -> False) by (intro F; destruct (iter_total e w4 F) as (v & w' & Q'); congruence).
            destruct (nth_error _ _); [split; [discriminate | intro F; destruct (NF F)] | discriminate]. }
        assert (v = creds w).
        { unfold iter_credentials in G5. apply bind_ok in G5 as (kk & w6 & E1 & E2).
          assert (R : rel Pcs (wrap_key e)) by rel_walk. specialize (R w4). rewrite E1 in R.
          apply fr_p in R. cbn in R. apply load_ok in E2 as (-> & _). congruence. }
        subst v. rewrite (rp_set_perm _ _ P).
        destruct (nth_error (rp_set (creds w)) (S m)) as [rp | ]; cbn [fst snd fail];
          (split; [exact A5 | ]; split; [congruence | ]).
        * split; [ | eauto]. intros r Hr. now injection Hr as <-.
        * discriminate.
      + (* next credential *)
        cbn [content] in Hc. rewrite Hb' in Hc. destruct Hc as (keys & d & h & -> & Ed & Eh & Ek).
        cbn [continued]. rewrite Hb'.
        replace (rev (map fst (of_rp pr h l))) with (map fst (rp_creds pr h l)) in Ek by (unfold rp_creds; apply map_rev).
        set (L := rp_creds pr h l) in *.
        rewrite skipn_nth, nth_error_map in Ek.
        rewrite cm_split. destruct (CM _ eq_refl) as (w2 & Q2 & P2 & S2 & N2). rewrite (bind_run _ _ _ _ _ Q2).
        unfold cm_rest, cm_authorise. rewrite Hk. unfold cm_creds_next, next_enumerate_credential, bind, ret.
        destruct (clear_timer_live w2 _ _ _ S2) as (w3 & Q3 & S3 & P3 & N3); [lia | ].
        rewrite Q3. unfold gets. rewrite S3, S2. cbn [sf_cmd].
        assert (KL : forall ks, rev ks = skipn (S (S m)) (map fst L) -> content e (CCredMgmt p) l (S m) (SEnumCreds ks)).
        { intros ks Hks. cbn [content]. rewrite Hb'. exists ks, d, h. split; [reflexivity | ]. split; [exact Ed | ].
          split; [exact Eh | ]. rewrite Hks. unfold L, rp_creds. now rewrite map_rev. }
        destruct (nth_error L (S m)) as [[q c] | ] eqn:EN; cbn [option_map fst] in Ek; rewrite Ek.
        2:{ cbn [fail fst snd]. split; [ | split; [congruence | ]].
            2:{ intros d' h' E1 E2. rewrite Ed in E1. injection E1 as <-. rewrite Eh in E2. injection E2 as <-. fold L. now rewrite EN. }
            unfold at_. split; [now rewrite P3, P2 | ].
            exists (SEnumCreds keys). split; [congruence | ]. apply KL.
            rewrite Ek. symmetry. apply skipn_past. rewrite skipn_nth, nth_error_map, EN. reflexivity. }
        unfold mod_st, modify.
        set (w4 := mkWorld (w_p w3) _ _ _ _ _ _).
        assert (A4 : at_ e (CCredMgmt p) l (MainHid cid) (S m) t w4).
        { unfold at_. split; [subst w4; cbn; now rewrite P3, P2 | ].
          exists (SEnumCreds (rev (skipn (S (S m)) (map fst L)))).
          split; [subst w4; cbn; rewrite S3, S2; reflexivity | ]. apply KL. now rewrite rev_involutive. }
        assert (C4 : creds w4 = creds w) by (subst w4; cbn; now rewrite P3, P2).
        assert (R5 : rel Pcs (get_credential e q)) by rel_walk.
        pose proof (at_rel _ _ (S m) t _ w4 R5 A4) as A5. pose proof (fr_p _ _ _ (R5 w4)) as C5. cbn in C5.
        assert (P4 : Permutation l (creds w4)) by apply A4.
        assert (INL : In (q, c) l).
        { pose proof EN as EN'. apply nth_error_In in EN'. unfold L, rp_creds, of_rp in EN'.
          apply in_rev, filter_In in EN'. apply EN'. }
        destruct (get_credential e q w4) as [[r | s] w5] eqn:G5; cbn [fst snd] in *.
        2:{ split; [exact A5 | ]. split; [congruence | ]. intros d' h' E1 E2.
            rewrite Ed in E1. injection E1 as <-. rewrite Eh in E2. injection E2 as <-. fold L. rewrite EN.
            split; [discriminate | ]. intro F. destruct (got_total q c w4 F P4 INL) as (w' & Q'). congruence. }
        assert (r = c).
        { eapply got; [exact P4 | exact INL | exact G5]. }
        subst r.
        assert (R6 : rel Pcs (creds_response e c None)) by rel_walk.
        pose proof (at_rel _ _ (S m) t _ w5 R6 A5) as A6. pose proof (fr_p _ _ _ (R6 w5)) as C6. cbn in C6.
        destruct (creds_response e c None w5) as [[z | s] w6] eqn:G6; cbn [fst snd] in *;
          (split; [exact A6 | ]; split; [congruence | ]); intros d' h' E1 E2;
          rewrite Ed in E1; injection E1 as <-; rewrite Eh in E2; injection E2 as <-; fold L; rewrite EN.
        * split; [ | eauto]. intros r Hr. injection Hr as <-. apply creds_response_describes in G6. eauto.
        * split; [discriminate | ]. intros _ F. destruct (creds_response_total e c None w5 F) as (z & w' & Q'). congruence.
  Qed.
End Continue.

(** ** Histories *)
Definition commands (e : env) (h : list (op * option nat)) : nat :=
  length (filter (fun y => match fst y with
                           | OpMessage b _ => match parse_command (e_cfg e) b with Ok _ => true | Err _ => false end
                           | _ => false end) h).
Lemma commands_app e h h' : commands e (h ++ h') = (commands e h + commands e h')%nat.
Proof. unfold commands. now rewrite filter_app, app_length. Qed.

(** The answer of the command that starts an enumeration: the first element and the total. *)
Definition first_answer (e : env) (x : command) (l : list (N * cred)) (y : res status response) (w : world) : Prop :=
  forall r, y = Ok r ->
  match x with
  | CGetAssertion p =>
      let L := ranked (ga_rp p) (is_some (ga_auth p)) l in
      exists q c rest i g, L = (q, c) :: rest /\ r = RGetAssertion g /\ input_for p i /\ asserts e c i g /\
        gr_number g = (match rest with [] => None | _ => Some (Nlen L) end) /\ (st w = stateful_clear <-> rest = [])
  | CCredMgmt p =>
      match cm_sub_ p with
      | CmRpsBegin => exists rp rest, rp_set l = rp :: rest /\
          r = RCredMgmt (Some (rps_response e rp (Some (Nlen (rp_set l))))) /\
          (st w = stateful_clear <-> rest = [])
      | CmCredsBegin => exists d h q c rest z, cm_data_ p = Some d /\ cd_hash d = Some h /\
          rp_creds (e_prims e) h l = (q, c) :: rest /\ r = RCredMgmt (Some z) /\
          describes (e_prims e) c (Some (Nlen (rp_creds (e_prims e) h l))) z /\ (st w = stateful_clear <-> rest = [])
      | _ => False
      end
  | _ => False
  end.

Section Track.
  Variable e : env.
  Variable l : list (N * cred).
  Hypothesis Hl : creds_ok e l.
  Variables (k : kind) (x : command) (cid : bytes).
  Notation ch := (MainHid cid).
  Hypothesis Hb : begins k x.
  Definition lost (t : N) (w : world) : Prop :=
    Permutation l (creds w) /\ st w = stateful_clear /\ (t <= w_now w)%N.
  Lemma keep_step {A} (m : M sw A) w : rel (keep p_creds v_st anyE) m ->
    creds (snd (m w)) = creds w /\ st (snd (m w)) = st w /\ (w_now w <= w_now (snd (m w)))%N.
  Proof.
    intro R. specialize (R w). pose proof (fr_p _ _ _ R). pose proof (fr_v _ _ _ R). pose proof (fr_now _ _ _ R). auto.
  Qed.
  Definition inc (o : op) : nat :=
    match o with
    | OpMessage b _ => match parse_command (e_cfg e) b with Ok _ => 1 | Err _ => 0 end
    | _ => 0
    end.
  Lemma live_step o m t w : harmless e k ch o -> at_ e x l ch m t w ->
    let w' := snd (run_op e o w) in
    (w_now w <= w_now w')%N /\ (at_ e x l ch (inc o + m) t w' \/ lost t w').
  Proof.
    intros Ho A. cbv zeta. destruct o as [b c | b | c b en | | d | n]; cbn [inc].
    - cbn [run_op harmless] in *. unfold process_command, bind, lift.
      destruct (parse_command (e_cfg e) b) as [x' | s] eqn:Ex.
      2:{ cbn. split; [lia | now left]. }
      destruct Ho as [Hk ->].
      destruct (next_step e l Hl x k ch m x' cid t w Hb eq_refl Hk A) as [H1 H2].
      destruct (st_message e x' ch w) as [N1 _].
      destruct (process_parsed_command e x' ch w) as [y w'] eqn:E. cbn [fst snd] in *. split; [exact N1 | ].
      destruct (t <=? w_now w)%N eqn:Et.
      + right. destruct H1 as (C1 & S1 & _); [lia | ]. split; [rewrite C1; apply A | ]. split; [exact S1 | lia].
      + left. apply H2. lia.
    - cbn [run_op]. assert (R : rel (keep p_creds v_st anyE) (u2f_process e b)) by rel_walk.
      destruct (keep_step _ w R) as (C1 & S1 & N1). destruct (u2f_process e b w) as [y w']. cbn [snd] in *.
      split; [exact N1 | ]. left. unfold at_. rewrite C1, S1. exact A.
    - destruct Ho.
    - cbn. split; [lia | left; exact A].
    - cbn. split; [lia | left; exact A].
    - cbn. split; [lia | ]. left. destruct A as [P A]. split; [ | exact A]. cbn.
      eapply Permutation_trans; [exact P | ]. rewrite <- (firstn_skipn n (creds w)) at 1. apply Permutation_app_comm.
  Qed.
  Lemma dead_step o w : harmless e k ch o -> st w = stateful_clear ->
    let w' := snd (run_op e o w) in
    (w_now w <= w_now w')%N /\ Permutation (creds w) (creds w') /\ st w' = stateful_clear /\
    (inc o = 1%nat -> fst (run_op e o w) = OutCtap (Err NOT_ALLOWED)).
  Proof.
    intros Ho S. cbv zeta. destruct o as [b c | b | c b en | | d | n]; cbn [inc].
    - cbn [run_op harmless] in *. unfold process_command, bind, lift.
      destruct (parse_command (e_cfg e) b) as [x' | s] eqn:Ex.
      2:{ cbn. split; [lia | ]. split; [reflexivity | ]. split; [exact S | discriminate]. }
      destruct Ho as [Hk ->]. destruct (preamble_same x' ch w) as (w1 & Q & _).
      assert (S1 : st w1 = stateful_clear).
      { destruct (st_preamble x' ch w w1 Q) as ([D | D] & _); [exact D | ]. rewrite S in D. now apply shape_clear in D. }
      pose proof (next_dead e k x' ch cid w w1 eq_refl Hk Q S1) as H. rewrite <- split_message in H.
      destruct (st_message e x' ch w) as [N1 _].
      destruct (process_parsed_command e x' ch w) as [y w'] eqn:E. cbn [fst snd] in *.
      destruct H as (C & S2 & ->). split; [exact N1 | ]. rewrite C. auto.
    - cbn [run_op]. assert (R : rel (keep p_creds v_st anyE) (u2f_process e b)) by rel_walk.
      destruct (keep_step _ w R) as (C1 & S1 & N1). destruct (u2f_process e b w) as [y w']. cbn [fst snd] in *.
      split; [exact N1 | ]. rewrite C1, S1. split; [reflexivity | ]. split; [exact S | discriminate].
    - destruct Ho.
    - cbn. split; [lia | ]. split; [reflexivity | ]. split; [exact S | discriminate].
    - cbn. split; [lia | ]. split; [reflexivity | ]. split; [exact S | discriminate].
    - cbn. split; [lia | ]. split; [ | split; [exact S | discriminate]].
      rewrite <- (firstn_skipn n (creds w)) at 1. apply Permutation_app_comm.
  Qed.

  Definition quiet (h2 : list (op * option nat)) : Prop := Forall (fun y => snd y = None /\ harmless e k ch (fst y)) h2.
  Lemma live_history w0 h2 t : quiet h2 -> at_ e x l ch 0 t w0 ->
    let w := fold_left (step e) h2 w0 in
    (w_now w0 <= w_now w)%N /\ (at_ e x l ch (commands e h2) t w \/ lost t w).
  Proof.
    intros H A. cbv zeta. induction h2 as [ | y h2 IH] using rev_ind.
    - cbn. split; [lia | left; exact A].
    - apply Forall_app in H as [H1 H2]. inversion_clear H2 as [ | ? ? [Hn Ho] _].
      destruct (IH H1) as [N1 G]. rewrite fold_left_app. cbn [fold_left]. set (w := fold_left (step e) h2 w0) in *.
      destruct y as [o z]. cbn [fst snd] in *. subst z. unfold step. cbn [fst snd]. rewrite commands_app.
      assert (EI : commands e [(o, None)] = inc o).
      { unfold commands, inc. cbn. destruct o; try reflexivity. destruct (parse_command _ _); reflexivity. }
      rewrite EI. destruct G as [G | (G1 & G2 & G3)].
      + destruct (live_step o _ t w Ho G) as [N2 S2]. split; [lia | ].
        destruct S2 as [S2 | S2]; [left; rewrite Nat.add_comm; exact S2 | now right].
      + destruct (dead_step o w Ho G2) as (N2 & P2 & S2 & _). split; [lia | ]. right.
        split; [eapply Permutation_trans; eassumption | ]. split; [exact S2 | lia].
  Qed.
  Lemma dead_history w0 h2 : quiet h2 -> st w0 = stateful_clear ->
    st (fold_left (step e) h2 w0) = stateful_clear.
  Proof.
    intros H A. induction h2 as [ | y h2 IH] using rev_ind; [exact A | ].
    apply Forall_app in H as [H1 H2]. inversion_clear H2 as [ | ? ? [Hn Ho] _].
    rewrite fold_left_app. cbn [fold_left]. destruct y as [o z]. cbn [fst snd] in *. subst z. unfold step. cbn [fst snd].
    apply dead_step; auto.
  Qed.

  Lemma begin_message w : creds w = l ->
    let y := fst (process_parsed_command e x ch w) in
    let w' := snd (process_parsed_command e x ch w) in
    first_answer e x l y w' /\ creds w' = l /\
    (st w' = stateful_clear \/ exists t, (w_now w + 30000 <= t)%N /\ at_ e x l ch 0 t w').
  Proof.
    intro Hw. cbv zeta. rewrite split_message. destruct (preamble_same x ch w) as (w1 & Q & P1 & _ & N1 & _).
    pose proof (st_preamble x ch w w1 Q) as (_ & _ & C1). rewrite (bind_run _ _ _ _ _ Q).
    assert (BG : forall w', begun e l ch x w w' -> creds w' = l /\
      (st w' = stateful_clear \/ exists t, (w_now w + 30000 <= t)%N /\ at_ e x l ch 0 t w')).
    { intros w' [E [B | (t & c & B1 & B2 & B3)]]; (split; [exact E | ]); [now left | ]. right. exists t. split; [exact B2 | ].
      split; [now rewrite E | ]. exists c. auto. }
    destruct k, x as [ | p | | | | | p | | | ] eqn:Ex; cbn in Hb; try contradiction; cbn [process_fido_command].
    - assert (S1 : st w1 = stateful_clear).
      { destruct C1 as [C1 | (K & _)]; [exact C1 | ]. destruct (sf_cmd (st w)) as [[ | | | ] | ]; discriminate. }
      destruct (ga_begins e l p ch w Hl Hb w1) as [B1 B2].
      { split; [ | lia]. split; [now rewrite P1 | exact S1]. }
      split; [ | apply BG, B1]. intros r Hr. destruct (B2 r Hr) as (q & c & rest & i & g & H).
      exists q, c, rest, i, g. exact H.
    - rewrite cm_split. destruct (cm_front_run p w1) as (w2 & Q2 & P2 & _ & N2 & _ & _ & _ & C2).
      assert (S2 : st w2 = stateful_clear).
      { destruct C2 as [C2 | (_ & _ & k' & Hk' & _)]; [exact C2 | ]. destruct k'; cbn in Hk'; try contradiction; congruence. }
      rewrite (bind_run _ _ _ _ _ Q2).
      destruct (rps_begins e l p ch w Hb w2) as [B1 B2].
      { split; [ | lia]. split; [now rewrite P2, P1 | exact S2]. }
      split; [ | apply BG, B1]. intros r Hr. rewrite Hb. exact (B2 r Hr).
    - rewrite cm_split. destruct (cm_front_run p w1) as (w2 & Q2 & P2 & _ & N2 & _ & _ & _ & C2).
      assert (S2 : st w2 = stateful_clear).
      { destruct C2 as [C2 | (_ & _ & k' & Hk' & _)]; [exact C2 | ]. destruct k'; cbn in Hk'; try contradiction; congruence. }
      rewrite (bind_run _ _ _ _ _ Q2).
      destruct (creds_begins e l p ch w Hl Hb w2) as [B1 B2].
      { split; [ | lia]. split; [now rewrite P2, P1 | exact S2]. }
      split; [ | apply BG, B1]. intros r Hr. rewrite Hb. destruct (B2 r Hr) as (d & h & q & c & rest & z & H1 & H2 & H3 & H4 & H5 & H6).
      exists d, h, q, c, rest, z. repeat (split; [assumption | ]). split; [ | exact H6].
      unfold rp_creds, Nlen in *. now rewrite rev_length.
  Qed.
End Track.
