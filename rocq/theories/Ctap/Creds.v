(** Resident credentials: property C28. *)
From Verif Require Import Base Facts Hid.Model U2f.Model Cbor.Model Ctap.Crypto Ctap.Types Ctap.Machine
  Ctap.Commands Ctap.Parse Ctap.System Ctap.Logic Ctap.History Ctap.Track Ctap.Pin Ctap.PinChange
  Ctap.MinPin Ctap.TokenSpec Ctap.Token Ctap.Success Ctap.Auth Ctap.Gate Ctap.Answers Ctap.TokenUse.
From Coq Require Import Lia Permutation.

(** ** Lists of credentials *)
Definition account (x : N * cred) : bytes * bytes := (cr_rp (snd x), cr_user (snd x)).
(** The credentials that belong to another account than the given one. *)
Definition others (rp user : bytes) (l : list (N * cred)) : list (N * cred) :=
  filter (fun x => negb (bytes_eqb (cr_rp (snd x)) rp && bytes_eqb (cr_user (snd x)) user)) l.

Lemma nodup_snoc {A} (l : list A) x : NoDup l -> ~ In x l -> NoDup (l ++ [x]).
Proof.
  intros Hn Hi. apply (NoDup_Add (a := x) (l := l)); [ | auto].
  rewrite <- (app_nil_r l) at 1. apply Add_app.
Qed.

Section Lists.
  Variable e : env.
  Notation max := (c_max_rk (e_cfg e)).

  Record creds_ok (l : list (N * cred)) : Prop := {
    co_keys : NoDup (map fst l);
    co_range : Forall (fun x => key_in_range e (fst x) = true) l;
    co_accounts : NoDup (map account l)
  }.
  Lemma creds_nil : creds_ok [].
  Proof. split; constructor. Qed.
  Lemma nodup_filter {A B} (f : A -> B) p (l : list A) : NoDup (map f l) -> NoDup (map f (filter p l)).
  Proof.
    induction l as [ | x l IH]; cbn; auto. intro H. inversion_clear H as [ | ? ? N D].
    destruct (p x); cbn; auto. constructor; auto. intro H. apply N.
    apply in_map_iff in H as (y & <- & Hy). apply filter_In in Hy as [Hy _]. now apply in_map.
  Qed.
  Lemma creds_filter p l : creds_ok l -> creds_ok (filter p l).
  Proof.
    intros [H1 H2 H3]. split; [now apply nodup_filter | | now apply nodup_filter].
    apply Forall_forall. intros x Hx. apply filter_In in Hx as [Hx _].
    eapply Forall_forall in H2; eassumption.
  Qed.
  Lemma creds_perm l l' : Permutation l l' -> creds_ok l -> creds_ok l'.
  Proof.
    intros P [H1 H2 H3]. split.
    - eapply Permutation_NoDup; [apply Permutation_map, P | exact H1].
    - eapply Permutation_Forall; eassumption.
    - eapply Permutation_NoDup; [apply Permutation_map, P | exact H3].
  Qed.
  Lemma creds_snoc l k r : creds_ok l -> key_in_range e k = true -> ~ In k (map fst l) ->
    ~ In (cr_rp r, cr_user r) (map account l) -> creds_ok (l ++ [(k, r)]).
  Proof.
    intros [H1 H2 H3] K1 K2 K3. split.
    - rewrite map_app. cbn. now apply nodup_snoc.
    - apply Forall_app. split; [exact H2 | ]. constructor; [exact K1 | constructor].
    - rewrite map_app. cbn. now apply nodup_snoc.
  Qed.
  Lemma key_range_nat k : key_in_range e k = true <-> exists i, (i < max)%nat /\ k = key_of i.
  Proof.
    unfold key_in_range, key_of, CREDENTIALS_START. rewrite Bool.andb_true_iff. split.
    - intros [H1 H2]. exists (N.to_nat (k - 1700)). lia.
    - intros (i & Hi & ->). lia.
  Qed.
  Lemma creds_bound l : creds_ok l -> (length l <= max)%nat.
  Proof.
    intros [H1 H2 _].
    assert (I : incl (map fst l) (map key_of (seq 0 max))).
    { intros k Hk. apply in_map_iff in Hk as (x & <- & Hx). eapply Forall_forall in H2; [ | exact Hx].
      apply key_range_nat in H2 as (i & Hi & ->). apply in_map, in_seq. lia. }
    apply (NoDup_incl_length H1) in I. rewrite !map_length, seq_length in I. exact I.
  Qed.
  Lemma key_eq l x y : creds_ok l -> In x l -> In y l -> fst x = fst y -> x = y.
  Proof.
    intros [H1 _ _] Hx Hy E. clear - H1 Hx Hy E. induction l as [ | z l IH]; [destruct Hx | ].
    cbn in H1. inversion_clear H1 as [ | ? ? N D]. destruct Hx as [-> | Hx], Hy as [-> | Hy]; auto.
    - exfalso. apply N. rewrite E. now apply in_map.
    - exfalso. apply N. rewrite <- E. now apply in_map.
  Qed.
  Lemma account_eq l x y : creds_ok l -> In x l -> In y l -> account x = account y -> x = y.
  Proof.
    intros [_ _ H1] Hx Hy E. clear - H1 Hx Hy E. induction l as [ | z l IH]; [destruct Hx | ].
    cbn in H1. inversion_clear H1 as [ | ? ? N D]. destruct Hx as [-> | Hx], Hy as [-> | Hy]; auto.
    - exfalso. apply N. rewrite E. now apply in_map.
    - exfalso. apply N. rewrite <- E. now apply in_map.
  Qed.
  Definition is_account (rp user : bytes) (x : N * cred) : bool :=
    bytes_eqb (cr_rp (snd x)) rp && bytes_eqb (cr_user (snd x)) user.
  Lemma is_account_iff rp u x : is_account rp u x = true <-> account x = (rp, u).
  Proof.
    unfold is_account, account. rewrite Bool.andb_true_iff, !bytes_eqb_eq.
    split; [intros [-> ->]; reflexivity | intro H; injection H as -> ->; auto].
  Qed.
  Lemma others_not_in rp u l : ~ In (rp, u) (map account (others rp u l)).
  Proof.
    intro H. apply in_map_iff in H as (x & E & Hx). apply filter_In in Hx as [_ Hx].
    apply is_account_iff in E. unfold is_account in E. rewrite E in Hx. discriminate.
  Qed.

  (** ** The scan of store_credential *)
  Lemma scan_spec rp u l :
    forall used old, (forall k, old = Some k -> True) ->
    (forall r, fold_left (store_scan_step e rp u) l (Err r) = Err r) /\
    (forall used' old', fold_left (store_scan_step e rp u) l (Ok (used, old)) = Ok (used', old') ->
      used' = rev (map fst l) ++ used /\
      (forall x, In x l -> is_account rp u x = true -> old = None /\ old' = Some (fst x)) /\
      ((forall x, In x l -> is_account rp u x = false) -> old' = old)).
  Proof.
    induction l as [ | x l IH]; intros used old _.
    - split; [reflexivity | ]. intros used' old' H. injection H as <- <-. cbn. repeat split; contradiction.
    - cbn [fold_left]. split; [intro r; cbn; apply (IH used old); auto | ]. intros used' old'.
      unfold store_scan_step at 2. cbn [rbind].
      destruct (negb _ || _)%bool eqn:Ek; [intro H; rewrite (proj1 (IH used old ltac:(auto))) in H; discriminate | ].
      change (bytes_eqb (cr_rp (snd x)) rp && bytes_eqb (cr_user (snd x)) u) with (is_account rp u x).
      destruct (is_account rp u x) eqn:Ea.
      + destruct old as [k | ]; [intro H; rewrite (proj1 (IH used None ltac:(auto))) in H; discriminate | ].
        intro H. apply (IH (fst x :: used) (Some (fst x)) ltac:(auto)) in H as (H1 & H2 & H3).
        split; [cbn; rewrite <- app_assoc; exact H1 | ]. split.
        * intros y [<- | Hy] E; [split; [reflexivity | ] | ].
          -- destruct (existsb (is_account rp u) l) eqn:Ex.
             ++ apply existsb_exists in Ex as (y & Hy & Ey). destruct (H2 y Hy Ey). discriminate.
             ++ apply H3. intros y Hy. destruct (is_account rp u y) eqn:Ey; [ | reflexivity].
                assert (existsb (is_account rp u) l = true) by (apply existsb_exists; eauto). congruence.
          -- destruct (H2 y Hy E). discriminate.
        * intro H. specialize (H x (or_introl eq_refl)). congruence.
      + intro H. apply (IH (fst x :: used) old ltac:(auto)) in H as (H1 & H2 & H3).
        split; [cbn; rewrite <- app_assoc; exact H1 | ]. split.
        * intros y [<- | Hy] E; [congruence | auto].
        * intro H. apply H3. intros y Hy. apply H. now right.
  Qed.

  (** The new list after a credential was stored under the key that [store_credential] chooses. *)
  Lemma choose_key l r used old k :
    creds_ok l -> store_scan e (cr_rp r) (cr_user r) l = Ok (used, old) ->
    (match old with Some k' => Some k' | None => free_key e used end) = Some k ->
    filter (fun x => negb (fst x =? k)%N) l = others (cr_rp r) (cr_user r) l /\
    creds_ok (others (cr_rp r) (cr_user r) l ++ [(k, r)]).
  Proof.
    intros C HS HK. unfold store_scan in HS.
    destruct (scan_spec (cr_rp r) (cr_user r) l [] None ltac:(auto)) as [_ SP].
    destruct (SP _ _ HS) as (U & S1 & S2). rewrite app_nil_r in U.
    assert (KEY : key_in_range e k = true /\
                  forall x, In x l -> (fst x = k <-> is_account (cr_rp r) (cr_user r) x = true)).
    { destruct (existsb (is_account (cr_rp r) (cr_user r)) l) eqn:Ex.
      - apply existsb_exists in Ex as (y & Hy & Ey). destruct (S1 y Hy Ey) as [_ ->].
        injection HK as <-. split; [exact (proj1 (Forall_forall _ _) (co_range l C) y Hy) | ].
        intros x Hx. split.
        + intro E. rewrite (key_eq l x y C Hx Hy E). exact Ey.
        + intro E. apply is_account_iff in E, Ey. rewrite (account_eq l x y C Hx Hy); congruence.
      - assert (NA : forall x, In x l -> is_account (cr_rp r) (cr_user r) x = false).
        { intros x Hx. destruct (is_account (cr_rp r) (cr_user r) x) eqn:E; [ | reflexivity].
          assert (existsb (is_account (cr_rp r) (cr_user r)) l = true) by (apply existsb_exists; eauto). congruence. }
        rewrite (S2 NA) in HK. unfold free_key in HK. apply find_some in HK as [Hin Hfree].
        apply in_map_iff in Hin as (i & <- & Hi). apply in_seq in Hi.
        split; [apply key_range_nat; exists i; split; [lia | reflexivity] | ].
        intros x Hx. rewrite (NA x Hx). split; [ | discriminate]. intro E. exfalso.
        apply Bool.negb_true_iff in Hfree. assert (Q : existsb (N.eqb (key_of i)) used = true).
        { apply existsb_exists. exists (key_of i). split; [ | apply N.eqb_refl].
          rewrite U, <- in_rev, <- E. now apply in_map. }
        congruence. }
    destruct KEY as [K1 K2]. split.
    - apply filter_ext_in. intros x Hx. f_equal. specialize (K2 x Hx).
      destruct (fst x =? k)%N eqn:E; symmetry; [apply K2; lia | ].
      change (is_account (cr_rp r) (cr_user r) x = false).
      destruct (is_account (cr_rp r) (cr_user r) x); [ | reflexivity].
      assert (fst x = k) by (apply K2; reflexivity). lia.
    - apply creds_snoc; [now apply creds_filter | exact K1 | | apply others_not_in].
      intro H. apply in_map_iff in H as (x & E & Hx). apply filter_In in Hx as [Hx Ha].
      apply (K2 x Hx) in E. unfold is_account in E. rewrite E in Ha. discriminate.
  Qed.

  (** Replacing the user data of a credential keeps everything else. *)
  Lemma update_ok l k r u : creds_ok l -> In (k, r) l ->
    creds_ok (filter (fun x => negb (fst x =? k)%N) l ++ [(k, with_user u r)]).
  Proof.
    intros C Hin. apply creds_snoc.
    - now apply creds_filter.
    - destruct C as [_ C _]. eapply Forall_forall in C; [ | exact Hin]. exact C.
    - intro H. apply in_map_iff in H as (x & E & Hx). apply filter_In in Hx as [_ Hx].
      rewrite E, N.eqb_refl in Hx. discriminate.
    - intro H. apply in_map_iff in H as (x & E & Hx). apply filter_In in Hx as [Hx Hk].
      assert (x = (k, r)) by (apply (account_eq l); auto). subst x. cbn in Hk.
      rewrite N.eqb_refl in Hk. discriminate.
  Qed.
End Lists.

(** ** What a command may do to the credentials *)
Definition without (id : bytes) (l : list (N * cred)) : list (N * cred) :=
  filter (fun x => negb (bytes_eqb (cr_id (snd x)) id)) l.
(** The credential that a registration asks for; [l] are the credentials before. *)
Record cred_for (e : env) (p : mc_params) (l : list (N * cred)) (r : cred) : Prop := {
  cf_rp : cr_rp r = rp_id (mc_rp p);
  cf_user : cr_user r = us_id (mc_user p);
  cf_display : cr_display r = option_map (fun s => truncate s 64) (us_display (mc_user p));
  cf_name : cr_name r = option_map (fun s => truncate s 64) (us_name (mc_user p));
  cf_icon : cr_icon r = option_map (fun s => truncate s 64) (us_icon (mc_user p));
  cf_policy : cr_policy r = effective_policy e (mx_protect (mc_ext_ p));
  cf_order : cr_order r = ((max_order l + 1) mod 2 ^ 64)%N;
  cf_blob : cr_blob r = match mx_blob (mc_ext_ p) with
                        | Some b => if (length b <=? c_max_cred_blob (e_cfg e))%nat then Some b else None
                        | None => None
                        end;
  cf_id : exists n, cr_id r = e_rnd e n 32;
  cf_key : exists n q, find (supported e) (mc_algs p) = Some q /\ cp_alg q = Some (pk_alg (cr_key r)) /\
             pk_bytes (cr_key r) = e_rnd e n 32;
  cf_lbkey : match cr_lbkey r with
             | Some x => mx_lbkey (mc_ext_ p) = Some true /\ exists n, x = e_rnd e n 32
             | None => mx_lbkey (mc_ext_ p) <> Some true
             end
}.
(** The response names the credential: its ID, its public key and its largeBlobKey. *)
Definition reports (e : env) (p : mc_params) (r : cred) (y : response) : Prop :=
  exists mr pre pub post, y = RMakeCredential mr /\
    length pre = (length (sha256 (e_prims e) (rp_id (mc_rp p))) + 5)%nat /\
    cbor_write (cose_to_cbor (pub_of (e_prims e) (cr_key r))) = Some pub /\
    mr_auth_data mr = pre ++ c_aaguid (e_cfg e) ++ [0%N; Nlen (cr_id r)] ++ cr_id r ++ pub ++ post /\
    mr_lbkey mr = cr_lbkey r.
Definition registered (e : env) (p : mc_params) (l : list (N * cred)) (r : cred) (l' : list (N * cred)) : Prop :=
  cred_for e p l r /\
  exists k, l' = others (rp_id (mc_rp p)) (us_id (mc_user p)) l ++ [(k, r)].
Definition deleted (id : bytes) (l l' : list (N * cred)) : Prop :=
  (exists k r, filter (fun x => bytes_eqb (cr_id (snd x)) id) l = [(k, r)]) /\ l' = without id l.
Definition updated (id : bytes) (u : user) (l l' : list (N * cred)) : Prop :=
  exists k r, filter (fun x => bytes_eqb (cr_id (snd x)) id) l = [(k, r)] /\
              l' = without id l ++ [(k, with_user u r)].
Definition named_credential (p : cm_params) : option bytes :=
  match cm_data_ p with
  | Some d => option_map de_id (cd_cred d)
  | None => None
  end.
Definition cred_step (e : env) (x : command) (l l' : list (N * cred)) : Prop :=
  match x with
  | CMakeCredential p => mc_rk p = true /\ exists r, registered e p l r l'
  | CCredMgmt p =>
      match cm_sub_ p with
      | CmDelete => exists id, named_credential p = Some id /\ deleted id l l'
      | CmUpdate => exists id d u, named_credential p = Some id /\ cm_data_ p = Some d /\
                      cd_user d = Some u /\ updated id u l l'
      | _ => False
      end
  | CReset => l' = []
  | _ => False
  end.

Lemma without_key e l id k r :
  creds_ok e l -> filter (fun x => bytes_eqb (cr_id (snd x)) id) l = [(k, r)] ->
  In (k, r) l /\ filter (fun x => negb (fst x =? k)%N) l = without id l.
Proof.
  intros C F.
  assert (I : forall x, In x l -> (bytes_eqb (cr_id (snd x)) id = true <-> x = (k, r))).
  { intros x Hx. split; intro H.
    - assert (In x (filter (fun x => bytes_eqb (cr_id (snd x)) id) l)) by (apply filter_In; auto).
      rewrite F in H0. destruct H0 as [<- | []]. reflexivity.
    - assert (H0 : In (k, r) (filter (fun x => bytes_eqb (cr_id (snd x)) id) l)) by (rewrite F; now left).
      apply filter_In in H0. subst x. apply H0. }
  assert (K : In (k, r) l).
  { assert (H0 : In (k, r) (filter (fun x => bytes_eqb (cr_id (snd x)) id) l)) by (rewrite F; now left).
    apply filter_In in H0. apply H0. }
  split; [exact K | ]. apply filter_ext_in. intros x Hx. f_equal. specialize (I x Hx).
  destruct (fst x =? k)%N eqn:E; symmetry.
  - apply I. apply (key_eq e l); auto. cbn. lia.
  - destruct (bytes_eqb (cr_id (snd x)) id); [ | reflexivity].
    assert (x = (k, r)) by (apply I; reflexivity). subst x. cbn in E. lia.
Qed.

Section Changes.
  Variable e : env.
  Variable w0 : world.
  Notation old := (p_creds (w_p w0)).
  Hypothesis OLD : creds_ok e old.
  (** Which lists may be written. *)
  Variable P : list (N * cred) -> Prop.
  Hypothesis P_old : P old.

  Definition Acr (l : list item) (p : pers) : Prop := P (p_creds p).
  Definition Pcr : params := keep p_creds anyv anyE.
  Lemma Acr_mono l l' p : Acr l p -> Acr (l' ++ l) p.
  Proof. auto. Qed.
  Lemma Acr_frame l p q : Acr l p -> Rp Pcr p q -> Acr l q.
  Proof. unfold Acr. cbn. intros H ->. exact H. Qed.
  Notation T := (Tr Acr w0).
  Definition Icr (w : world) : Prop := T w /\ p_creds (w_p w) = old.
  Lemma Icr_T w : Icr w -> T w.
  Proof. intros [H _]. exact H. Qed.
  Lemma cr_T {E B} (m : M E B) : rel Pcr m -> hoare T m (fun _ => T).
  Proof. apply Tr_rel; [exact Acr_mono | exact Acr_frame]. Qed.
  Lemma cr_I {E B} (m : M E B) : rel Pcr m -> hoare Icr m (fun _ => Icr).
  Proof.
    intros R w [H1 H2]. split; [apply (cr_T m R w H1) | ].
    pose proof (fr_p _ _ _ (R w)) as F. cbn in F. congruence.
  Qed.
  Lemma cr_IT {E B} (m : M E B) : rel Pcr m -> hoare Icr m (fun _ => T).
  Proof. intros R w H. apply (cr_I m R w H). Qed.
  Lemma cr_pre {E B D} (m : M E B) (k : B -> M E D) :
    rel Pcr m -> (forall b, hoare Icr (k b) (fun _ => T)) -> hoare Icr (bind m k) (fun _ => T).
  Proof.
    intros R Hk. eapply hoare_bind with (Mid := fun _ => Icr); [ | exact Hk].
    eapply hoare_post; [apply (cr_I m R) | ]. intros [] w H; [exact H | apply H].
  Qed.
  Lemma cr_mid {B D} (m : M status B) (k : B -> M status D) (F : B -> Prop) :
    hoare Icr m (fun y w => Icr w /\ forall b, y = Ok b -> F b) ->
    (forall b, F b -> hoare Icr (k b) (fun _ => T)) -> hoare Icr (bind m k) (fun _ => T).
  Proof.
    intros Hm Hk. eapply hoare_bind with (Mid := fun b w => F b /\ Icr w).
    - eapply hoare_post; [exact Hm | ]. intros [b | s] w [H HF]; [auto | apply H].
    - intro b. apply hoare_fact. intro HF. apply Hk, HF.
  Qed.
  Lemma cr_iter : hoare Icr (iter_credentials e) (fun y w => Icr w /\ forall l, y = Ok l -> l = old).
  Proof.
    intros w Hw. split; [apply (cr_I (iter_credentials e)); [rel_walk | exact Hw] | ].
    intros l Hl. destruct (iter_credentials e w) as [y w'] eqn:E. cbn in Hl. subst y.
    unfold iter_credentials in E. apply bind_ok in E as (k & w1 & E1 & E).
    assert (R : rel Pcr (wrap_key e)) by rel_walk. specialize (R w). rewrite E1 in R.
    apply fr_p in R. cbn in R. apply load_ok in E as (-> & _). rewrite R. apply Hw.
  Qed.
  Lemma cr_find id : hoare Icr (find_credential_item e id) (fun y w => Icr w /\
    forall x, y = Ok x -> filter (fun x => bytes_eqb (cr_id (snd x)) id) old = [x]).
  Proof.
    unfold find_credential_item.
    eapply hoare_bind with (Mid := fun l w => Icr w /\ l = old).
    - eapply hoare_post; [apply cr_iter | ]. intros [l | s] w [H HF]; split; auto. discriminate.
    - intro l. apply hoare_fact_r. intros ->. destruct (filter _ old) as [ | x [ | y l]];
        intros w Hw; cbn; (split; [exact Hw | ]); try discriminate. intros z H. injection H as ->. reflexivity.
  Qed.

  Lemma cr_store_at k r l' :
    filter (fun x => negb (fst x =? k)%N) old ++ [(k, r)] = l' -> P l' ->
    hoare Icr (store e (insert_cred k r)) (fun y w => T w /\ forall u, y = Ok u -> p_creds (w_p w) = l').
  Proof.
    intros E HP w Hw. split.
    - revert w Hw. apply Tr_store; [exact Acr_mono | exact Icr_T | ].
      intros w l [_ H] _ _. unfold Acr. cbn. rewrite H, E. exact HP.
    - intros u H. destruct (store e (insert_cred k r) w) as [y w'] eqn:S. cbn in H |- *. subst y.
      apply store_ok in S as (-> & _). cbn. destruct Hw as [_ ->]. exact E.
  Qed.

  Definition stored (r : cred) (l' : list (N * cred)) : Prop :=
    exists k, l' = others (cr_rp r) (cr_user r) old ++ [(k, r)].
  Lemma cr_store_credential r :
    (forall l', stored r l' -> creds_ok e l' -> P l') ->
    hoare Icr (store_credential e r) (fun y w => T w /\ forall u, y = Ok u ->
      stored r (p_creds (w_p w))).
  Proof.
    intro HP. unfold store_credential.
    eapply hoare_bind with (Mid := fun l w => Icr w /\ l = old).
    { eapply hoare_post; [apply cr_iter | ]. intros [l | s] w [H HF]; split; auto; try apply H. discriminate. }
    intro l. apply hoare_fact_r. intros ->.
    eapply hoare_bind with (Mid := fun so w => store_scan e (cr_rp r) (cr_user r) old = Ok so /\ Icr w).
    { intros w Hw. unfold lift. cbn. destruct (store_scan e (cr_rp r) (cr_user r) old); cbn;
        [auto | split; [apply Hw | discriminate]]. }
    intros [used o]. apply hoare_fact. intro S.
    eapply hoare_bind with (Mid := fun _ => Icr).
    { intros w Hw. set (b := negb _). destruct b; cbn; [exact Hw | split; [apply Hw | discriminate]]. }
    intros _.
    eapply hoare_bind with (Mid := fun k w =>
      (match o with Some k' => Some k' | None => free_key e used end) = Some k /\ Icr w).
    { intros w Hw. destruct o as [k | ]; [cbn; auto | ].
      destruct (free_key e used); cbn; [auto | split; [apply Hw | discriminate]]. }
    intro k. apply hoare_fact. intro K.
    destruct (choose_key e old r used o k OLD S K) as [C1 C2].
    eapply hoare_bind with (Mid := fun _ => Icr).
    { eapply hoare_post; [apply cr_I; rel_walk | ]. intros [] w H; [exact H | split; [apply H | discriminate]]. }
    intro wk.
    eapply hoare_bind with (Mid := fun _ => Icr).
    { eapply hoare_post; [apply cr_I; rel_walk | ]. intros [] w H; [exact H | split; [apply H | discriminate]]. }
    intro iv.
    eapply hoare_bind with (Mid := fun _ => Icr).
    { eapply hoare_post; [apply cr_I; rel_walk | ]. intros [] w H; [exact H | split; [apply H | discriminate]]. }
    intros _.
    eapply hoare_post; [apply cr_store_at; [rewrite C1; reflexivity | ] | ].
    - apply HP; [exists k; reflexivity | exact C2].
    - intros y w [H H']. split; [exact H | ]. intros u Hu. exists k. apply (H' u Hu).
  Qed.
  Lemma new_order_is : hoare Icr (new_creation_order e) (fun y w => Icr w /\
    forall n, y = Ok n -> n = ((max_order old + 1) mod 2 ^ 64)%N).
  Proof.
    unfold new_creation_order.
    eapply hoare_bind with (Mid := fun l w => Icr w /\ l = old).
    { eapply hoare_post; [apply cr_iter | ]. intros [l | s] w [H HF]; split; auto; try apply H. discriminate. }
    intro l. apply hoare_fact_r. intros ->. apply hoare_ret. intros w Hw. split; [exact Hw | ].
    intros n H. injection H as <-. reflexivity.
  Qed.

  Lemma cr_draw (Q : status -> world -> Prop) n :
    hoare Icr (draw e n) (fun y w => match y with Ok a => (exists i, a = e_rnd e i n) /\ Icr w | Err s => Q s w end).
  Proof.
    intros w Hw. assert (R : rel Pcr (draw (E := status) e n)) by rel_walk. pose proof (cr_I _ R w Hw) as H.
    cbn in *. split; [eauto | exact H].
  Qed.
  Definition stored_blob (p : mc_params) : option bytes :=
    match mx_blob (mc_ext_ p) with
    | Some b => if (length b <=? c_max_cred_blob (e_cfg e))%nat then Some b else None
    | None => None
    end.
  Definition key_for (p : mc_params) (k : priv) : Prop :=
    exists n q, find (supported e) (mc_algs p) = Some q /\ cp_alg q = Some (pk_alg k) /\ pk_bytes k = e_rnd e n 32.
  Definition lbkey_for (p : mc_params) (o : option bytes) : Prop :=
    match o with
    | Some x => mx_lbkey (mc_ext_ p) = Some true /\ exists n, x = e_rnd e n 32
    | None => mx_lbkey (mc_ext_ p) <> Some true
    end.
  Lemma cr_create p h k lbkey :
    (mc_rk p = true -> forall r l', registered e p old r l' -> creds_ok e l' -> P l') ->
    key_for p k -> (mc_rk p = true -> lbkey_for p lbkey) ->
    hoare Icr (mc_create e p h k (effective_policy e (mx_protect (mc_ext_ p))) (stored_blob p) lbkey)
      (fun y w => T w /\ forall id, y = Ok id -> mc_rk p = true ->
         exists r, cr_id r = id /\ cr_key r = k /\ cr_lbkey r = lbkey /\ registered e p old r (p_creds (w_p w))).
  Proof.
    intros HP HK HL. unfold mc_create. destruct (mc_rk p).
    2:{ eapply hoare_post; [apply cr_IT; rel_walk | ]. intros y w H. split; [exact H | discriminate]. }
    specialize (HP eq_refl). specialize (HL eq_refl).
    eapply hoare_bind with (Mid := fun id w => (exists n, id = e_rnd e n 32) /\ Icr w).
    { apply (cr_draw (fun _ _ => _)). }
    intro id. apply hoare_fact. intro HI.
    eapply hoare_bind with (Mid := fun n w => n = ((max_order old + 1) mod 2 ^ 64)%N /\ Icr w).
    { eapply hoare_post; [apply new_order_is | ].
      intros [n | s] w [H H']; [auto | split; [apply H | discriminate]]. }
    intro n. apply hoare_fact. intros ->. cbv zeta.
    set (r := mkCred _ _ _ _ _ _ _ _ _ _ _).
    assert (CF : cred_for e p old r) by (split; first [reflexivity | assumption]).
    eapply hoare_bind with (Mid := fun _ w => T w /\ stored r (p_creds (w_p w))).
    { eapply hoare_post; [apply (cr_store_credential r) | ].
      - intros l' Hs Hc. apply (HP r); [ | exact Hc]. split; [exact CF | exact Hs].
      - intros [u | s] w [H H']; [ | split; [exact H | discriminate]]. split; [exact H | ]. apply (H' u eq_refl). }
    intros _. apply hoare_ret. intros w [H H']. split; [exact H | ]. intros x Hx _. injection Hx as <-.
    exists r. do 3 (split; [reflexivity | ]). split; [exact CF | exact H'].
  Qed.

  Lemma cr_make_credential p :
    (mc_rk p = true -> forall r l', registered e p old r l' -> creds_ok e l' -> P l') ->
    hoare Icr (process_make_credential e p) (fun y w => T w /\ forall x, y = Ok x ->
      (mc_rk p = true -> exists r, registered e p old r (p_creds (w_p w)) /\ reports e p r x)).
  Proof.
    intro HP. unfold process_make_credential.
    eapply hoare_bind with (Mid := fun _ => Icr);
      [eapply hoare_post; [apply cr_I; rel_walk | ];
       intros [] w H; [exact H | split; [apply H | discriminate]] | intro].
    eapply hoare_bind with (Mid := fun a w => (exists q, find (supported e) (mc_algs p) = Some q /\ cp_alg q = Some a) /\ Icr w).
    { intros w Hw. unfold preferred_alg. destruct (find _ _) as [q | ]; [ | split; [apply Hw | discriminate]].
      destruct (cp_alg q) as [al | ] eqn:Eq; [cbn; eauto | split; [apply Hw | discriminate]]. }
    intro al. apply hoare_fact. intro HA.
    do 4 (eapply hoare_bind with (Mid := fun _ => Icr);
      [eapply hoare_post; [apply cr_I; rel_walk | ];
       intros [] w H; [exact H | split; [apply H | discriminate]] | intro]).
    eapply hoare_bind with (Mid := fun _ => Icr);
      [eapply hoare_post; [apply cr_I; rel_walk | ];
       intros [] w H; [exact H | split; [apply H | discriminate]] | intros _].
    cbv zeta.
    eapply hoare_bind with (Mid := fun _ => Icr);
      [eapply hoare_post; [apply cr_I; rel_walk | ];
       intros [] w H; [exact H | split; [apply H | discriminate]] | intro mp].
    eapply hoare_bind with (Mid := fun o w => (mc_rk p = true -> lbkey_for p o) /\ Icr w).
    { unfold lbkey_for. destruct (mc_rk p); [ | intros w Hw; cbn; split; [discriminate | exact Hw]].
      destruct (mx_lbkey (mc_ext_ p)) as [[ | ] | ]; try (intros w Hw; cbn; split; [discriminate | exact Hw]).
      eapply hoare_bind with (Mid := fun b w => (exists n, b = e_rnd e n 32) /\ Icr w); [apply (cr_draw (fun _ _ => _)) | ].
      intro b. apply hoare_fact. intro Hb. apply hoare_ret. intros w Hw. split; [auto | exact Hw]. }
    intro lbkey. apply hoare_fact. intro HL.
    eapply hoare_bind with (Mid := fun k w => key_for p k /\ Icr w).
    { unfold new_key. eapply hoare_bind with (Mid := fun b w => (exists n, b = e_rnd e n 32) /\ Icr w); [apply (cr_draw (fun _ _ => _)) | ].
      intro b. apply hoare_fact. intros [n Hb]. apply hoare_ret. intros w Hw. split; [ | exact Hw].
      destruct HA as (q & A1 & A2). exists n, q. auto. }
    intro key. apply hoare_fact. intro HK.
    set (Q := fun id w => T w /\ (mc_rk p = true -> exists r, cr_id r = id /\ cr_key r = key /\ cr_lbkey r = lbkey /\
      registered e p old r (p_creds (w_p w)))).
    assert (QK : forall id B (m : M status B), rel Pcr m -> hoare (Q id) m (fun _ => Q id)).
    { intros id B m R w [H1 H2]. split; [apply (cr_T m R w H1) | ]. intro Hr. destruct (H2 Hr) as (r & I & K & L & G).
      exists r. do 3 (split; [assumption | ]). pose proof (fr_p _ _ _ (R w)) as F. cbn in F. rewrite F. exact G. }
    eapply hoare_bind with (Mid := Q).
    { eapply hoare_post; [apply (cr_create p _ _ _ HP HK HL) | ].
      intros [id | s] w [H H']; [ | split; [exact H | discriminate]]. split; [exact H | ]. intro Hr. apply (H' id eq_refl Hr). }
    intro id.
    assert (EE : forall (s : status) w, Q id w -> T w /\ forall x, (Err s : res status response) = Ok x ->
      (mc_rk p = true -> exists r, registered e p old r (p_creds (w_p w)) /\ reports e p r x)).
    { intros s w H. split; [apply H | discriminate]. }
    eapply hoare_bind with (Mid := fun ad w => length ad = (length (sha256 (e_prims e) (rp_id (mc_rp p))) + 5)%nat /\ Q id w).
    { intros w Hw.
      match goal with |- context [generate_auth_data e ?h ?f w] =>
        assert (R : hoare (Q id) (generate_auth_data e h f) (fun _ => Q id)) by (apply QK; rel_walk) end.
      specialize (R w Hw).
      match goal with |- context [generate_auth_data e ?h ?f w] => destruct (generate_auth_data e h f w) as [[ad | s] w'] eqn:G end;
        cbn [fst snd] in *; [ | apply (EE s w' R)].
      apply generate_auth_data_ok in G as [-> _]. split; [ | exact R]. rewrite !app_length. cbn [length be_bytes]. lia. }
    intro ad. apply hoare_fact. intro Had.
    eapply hoare_bind with (Mid := fun _ => Q id);
      [eapply hoare_post; [apply QK; rel_walk | ]; intros [? | ?] w H; [exact H | apply (EE _ w H)] | intros _].
    eapply hoare_bind with (Mid := fun pub w => pub = pub_of (e_prims e) key /\ Q id w).
    { intros w Hw. unfold get_pub_key. destruct (key_valid e key); cbn; [auto | apply (EE _ w Hw)]. }
    intro pub. apply hoare_fact. intros ->.
    eapply hoare_bind with (Mid := fun pub w => cbor_write (cose_to_cbor (pub_of (e_prims e) key)) = Some pub /\ Q id w).
    { intros w Hw. unfold write_cbor. destruct (cbor_write _); cbn; [auto | apply (EE _ w Hw)]. }
    intro pub. apply hoare_fact. intro Hpub.
    do 2 (eapply hoare_bind with (Mid := fun _ => Q id);
      [eapply hoare_post; [apply QK; rel_walk | ]; intros [? | ?] w H; [exact H | apply (EE _ w H)] | intro]).
    apply hoare_ret. intros w [H H']. split; [exact H | ]. intros x Hx Hr. injection Hx as <-.
    destruct (H' Hr) as (r & I & K & L & G). exists r. split; [exact G | ]. eexists _, ad, pub, _. split; [reflexivity | ].
    split; [exact Had | ]. rewrite K, I, L. split; [exact Hpub | ]. cbn [mr_auth_data mr_lbkey]. split; reflexivity.
  Qed.

  Lemma cr_check_rp id : rel Pcr (check_rp_id_permissions e id).
  Proof. rel_walk. Qed.
  Lemma delete_changes d id :
    option_map de_id (cd_cred d) = Some id -> (forall l', deleted id old l' -> creds_ok e l' -> P l') ->
    hoare Icr (cm_delete e d) (fun y w => T w /\ forall x, y = Ok x -> deleted id old (p_creds (w_p w))).
  Proof.
    intros Hd HP. unfold cm_delete.
    eapply hoare_bind with (Mid := fun x w => de_id x = id /\ Icr w).
    { intros w Hw. destruct (cd_cred d); [ | discriminate]. injection Hd as <-. cbn. auto. }
    intro x. apply hoare_fact. intros ->.
    eapply hoare_bind with (Mid := fun _ => Icr);
      [eapply hoare_post; [apply cr_I, cr_check_rp | ];
       intros [] w H; [exact H | split; [apply H | discriminate]] | intro].
    eapply hoare_bind with (Mid := fun _ w => T w /\ deleted id old (p_creds (w_p w)));
      [ | intros _; apply hoare_ret; intros w [H H']; auto].
    unfold delete_credential.
    eapply hoare_bind with (Mid := fun x w => filter (fun x => bytes_eqb (cr_id (snd x)) id) old = [x] /\ Icr w).
    { eapply hoare_post; [apply (cr_find id) | ].
      intros [y | s] w [H H']; [auto | split; [apply H | discriminate]]. }
    intros [k r]. apply hoare_fact. intro F. destruct (without_key e old id k r OLD F) as [Hin Hw].
    assert (D : deleted id old (without id old)) by (split; [eauto | reflexivity]).
    cbn [fst]. intros w Hw'.
    assert (HT : T (snd (store e (remove_cred k) w))).
    { revert w Hw'. apply Tr_store; [exact Acr_mono | exact Icr_T | ].
      intros w l [_ H] _ _. unfold Acr. cbn. rewrite H, Hw. apply HP; [exact D | ].
      rewrite <- Hw. apply creds_filter, OLD. }
    destruct (store e (remove_cred k) w) as [[u | s] w'] eqn:S; cbn [fst snd] in *.
    - split; [exact HT | ]. apply store_ok in S as (-> & _). cbn.
      destruct Hw' as [_ ->]. rewrite Hw. exact D.
    - split; [exact HT | discriminate].
  Qed.
  Lemma update_changes d id u :
    option_map de_id (cd_cred d) = Some id -> cd_user d = Some u ->
    (forall l', updated id u old l' -> creds_ok e l' -> P l') ->
    hoare Icr (cm_update e d) (fun y w => T w /\ forall x, y = Ok x -> updated id u old (p_creds (w_p w))).
  Proof.
    intros Hd Hu HP. unfold cm_update.
    eapply hoare_bind with (Mid := fun x w => de_id x = id /\ Icr w).
    { intros w Hw. destruct (cd_cred d); [ | discriminate]. injection Hd as <-. cbn. auto. }
    intro x. apply hoare_fact. intros ->.
    eapply hoare_bind with (Mid := fun v w => v = u /\ Icr w).
    { intros w Hw. rewrite Hu. cbn. auto. }
    intro v. apply hoare_fact. intros ->.
    eapply hoare_bind with (Mid := fun _ => Icr);
      [eapply hoare_post; [apply cr_I, cr_check_rp | ];
       intros [] w H; [exact H | split; [apply H | discriminate]] | intro].
    eapply hoare_bind with (Mid := fun _ w => T w /\ updated id u old (p_creds (w_p w)));
      [ | intros _; apply hoare_ret; intros w [H H']; auto].
    unfold update_credential.
    eapply hoare_bind with (Mid := fun x w => filter (fun x => bytes_eqb (cr_id (snd x)) id) old = [x] /\ Icr w).
    { eapply hoare_post; [apply (cr_find id) | ].
      intros [y | s] w [H H']; [auto | split; [apply H | discriminate]]. }
    intros [k r]. apply hoare_fact. intro F. destruct (without_key e old id k r OLD F) as [Hin Hw].
    cbv zeta. cbn [fst snd].
    do 3 (eapply hoare_bind with (Mid := fun _ => Icr);
      [eapply hoare_post; [apply cr_I; rel_walk | ];
       intros [] w H; [exact H | split; [apply H | discriminate]] | intro]).
    assert (D : updated id u old (without id old ++ [(k, with_user u r)])) by (exists k, r; auto).
    eapply hoare_post; [apply cr_store_at; [rewrite Hw; reflexivity | ] | ].
    - apply HP; [exact D | ]. rewrite <- Hw. now apply update_ok.
    - intros [y | s] w [H H']; (split; [exact H | ]); [ | discriminate]. rewrite (H' y eq_refl). exact D.
  Qed.

  Lemma cr_cred_mgmt p :
    (forall l', cred_step e (CCredMgmt p) old l' -> creds_ok e l' -> P l') ->
    forall ch, hoare Icr (process_cred_mgmt e p ch) (fun y w => T w /\ forall x, y = Ok x ->
      match cm_sub_ p with
      | CmDelete | CmUpdate => cred_step e (CCredMgmt p) old (p_creds (w_p w))
      | _ => True
      end).
  Proof.
    intros HP ch. unfold process_cred_mgmt, cred_step in *.
    eapply hoare_bind with (Mid := fun _ => Icr);
      [eapply hoare_post; [apply cr_I; rel_walk | ];
       intros [] w H; [exact H | split; [apply H | discriminate]] | intro s].
    eapply hoare_bind with (Mid := fun _ => Icr);
      [eapply hoare_post; [apply cr_I; destruct (cm_sub_ p); destruct s as [[] | ]; rel_walk | ];
       intros [] w H; [exact H | split; [apply H | discriminate]] | intros _].
    eapply hoare_bind with (Mid := fun _ => Icr);
      [eapply hoare_post; [apply cr_I; rel_walk | ];
       intros [] w H; [exact H | split; [apply H | discriminate]] | intros _].
    assert (Z : forall (m : M status (option cm_resp)), rel Pcr m ->
      hoare Icr (let* r := m in ret (RCredMgmt r)) (fun y w => T w /\ forall x, y = Ok x -> True)).
    { intros m R. eapply hoare_post; [apply cr_IT; apply rel_bind; [exact R | intro; rel_walk] | ]. auto. }
    unfold named_credential in *.
    destruct (cm_sub_ p); try (apply Z; rel_walk; fail).
    - destruct (cm_data_ p) as [d | ]; [ | intros w Hw; cbn; split; [apply Hw | discriminate]].
      destruct (cd_cred d) as [c | ] eqn:Ec.
      2:{ intros w Hw. unfold bind, lift. cbn [ok_or_missing]. unfold cm_delete, bind, lift. rewrite Ec. cbn. split; [apply Hw | discriminate]. }
      cbn [option_map] in HP |- *.
      eapply hoare_bind with (Mid := fun _ w => T w /\ deleted (de_id c) old (p_creds (w_p w)));
        [ | intro; apply hoare_ret; intros w [H H']; split; eauto].
      change (let* d0 := lift (ok_or_missing (Some d)) in cm_delete e d0) with (cm_delete e d).
      eapply hoare_post; [apply (delete_changes d (de_id c)); [now rewrite Ec | ] | ].
      + intros l' D C. apply HP; eauto.
      + intros [y | s'] w [H H']; split; auto; try discriminate. apply (H' y eq_refl).
    - destruct (cm_data_ p) as [d | ]; [ | intros w Hw; cbn; split; [apply Hw | discriminate]].
      destruct (cd_cred d) as [c | ] eqn:Ec.
      2:{ intros w Hw. unfold bind, lift. cbn [ok_or_missing]. unfold cm_update, bind, lift. rewrite Ec. cbn. split; [apply Hw | discriminate]. }
      destruct (cd_user d) as [u | ] eqn:Eu.
      2:{ intros w Hw. unfold bind, lift. cbn [ok_or_missing]. unfold cm_update, bind, lift. rewrite Ec, Eu. cbn. split; [apply Hw | discriminate]. }
      cbn [option_map] in HP |- *.
      eapply hoare_bind with (Mid := fun _ w => T w /\ updated (de_id c) u old (p_creds (w_p w)));
        [ | intro; apply hoare_ret; intros w [H H']; split; [exact H | exists (de_id c), d, u; auto]].
      change (let* d0 := lift (ok_or_missing (Some d)) in cm_update e d0) with (cm_update e d).
      eapply hoare_post; [apply (update_changes d (de_id c) u); [now rewrite Ec | exact Eu | ] | ].
      + intros l' D C. apply HP; [exists (de_id c), d, u; auto | exact C].
      + intros [y | s'] w [H H']; split; auto; try discriminate. apply (H' y eq_refl).
  Qed.
  Lemma cr_reset : P [] -> hoare Icr (process_reset e) (fun y w => T w /\ forall x, y = Ok x ->
    p_creds (w_p w) = []).
  Proof.
    intro HP. unfold process_reset.
    eapply hoare_bind with (Mid := fun _ => Icr);
      [eapply hoare_post; [apply cr_I; rel_walk | ];
       intros [] w H; [exact H | split; [apply H | discriminate]] | intros [[] | ]];
      try (intros w Hw; cbn; split; [apply Hw | discriminate]).
    eapply hoare_bind with (Mid := fun _ => Icr);
      [eapply hoare_post; [apply cr_I; rel_walk | ];
       intros [] w H; [exact H | split; [apply H | discriminate]] | intros _].
    set (Z := fun w => T w /\ p_creds (w_p w) = []).
    assert (ZK : forall B (m : M status B), rel Pcr m -> hoare Z m (fun _ => Z)).
    { intros B m R w [H1 H2]. split; [apply (cr_T m R w H1) | ].
      pose proof (fr_p _ _ _ (R w)) as F. cbn in F. congruence. }
    eapply hoare_bind with (Mid := fun _ => Z).
    { unfold storage_reset. eapply hoare_bind with (Mid := fun _ => Z).
      - intros w Hw. assert (HT : T (snd (store e clear_pers w))).
        { revert w Hw. apply Tr_store; [exact Acr_mono | exact Icr_T | ]. intros w l _ _ _. exact HP. }
        destruct (store e clear_pers w) as [[u | s] w'] eqn:S; cbn [fst snd] in *;
          (split; [exact HT | ]); [ | discriminate]. apply store_ok in S as (-> & _). reflexivity.
      - intros _. eapply hoare_post; [apply ZK; rel_walk | ].
        intros [] w H; [exact H | split; [apply H | discriminate]]. }
    intros _. eapply hoare_post; [apply ZK; rel_walk | ]. intros y w [H1 H2]. auto.
  Qed.
End Changes.

(** ** Commands and operations *)
Section Operations.
  Variable e : env.

  (** What a successful command has done to the credentials. *)
  Definition cred_done (x : command) (l : list (N * cred)) (y : response) (l' : list (N * cred)) : Prop :=
    match x with
    | CMakeCredential p =>
        if mc_rk p then
          exists r, registered e p l r l' /\ reports e p r y
        else l' = l
    | CCredMgmt p =>
        match cm_sub_ p with
        | CmDelete | CmUpdate => cred_step e x l l'
        | _ => l' = l
        end
    | CReset => l' = []
    | _ => l' = l
    end.

  Lemma creds_message x ch w :
    creds_ok e (p_creds (w_p w)) ->
    Tr (Acr (fun l => creds_ok e l /\ (l = p_creds (w_p w) \/ (exists cid, ch = MainHid cid) /\ cred_step e x (p_creds (w_p w)) l)))
       w (snd (process_parsed_command e x ch w)) /\
    (forall y, fst (process_parsed_command e x ch w) = Ok y -> (exists cid, ch = MainHid cid) ->
       cred_done x (p_creds (w_p w)) y (p_creds (w_p (snd (process_parsed_command e x ch w))))).
  Proof.
    intro C.
    set (P := fun l => _).
    assert (P0 : P (p_creds (w_p w))) by (split; [exact C | now left]).
    assert (I0 : Icr w P w) by (split; [apply Tr_start; exact P0 | reflexivity]).
    assert (HH : hoare (Icr w P) (process_parsed_command e x ch) (fun y w' =>
      Tr (Acr P) w w' /\ forall r, y = Ok r -> (exists cid, ch = MainHid cid) ->
        cred_done x (p_creds (w_p w)) r (p_creds (w_p w')))).
    2:{ specialize (HH w I0). destruct HH as [H1 H2]. split; [exact H1 | intros y Hy Hc; apply (H2 y Hy Hc)]. }
    unfold process_parsed_command.
    do 3 (eapply hoare_bind with (Mid := fun _ => Icr w P);
      [eapply hoare_post; [apply cr_I; rel_walk | ];
       intros [] w' H; [exact H | split; [apply H | discriminate]] | intro]).
    eapply hoare_bind with (Mid := fun _ => Icr w P);
      [eapply hoare_post; [apply cr_I; destruct (keeps x a1); rel_walk | ];
       intros [] w' H; [exact H | split; [apply H | discriminate]] | intros _].
    assert (K : forall (m : M status response), rel Pcr m -> hoare (Icr w P) m (fun y w' =>
      Tr (Acr P) w w' /\ forall r, y = Ok r -> p_creds (w_p w') = p_creds (w_p w))).
    { intros m R. eapply hoare_post; [apply cr_I; exact R | ]. intros y w' [H1 H2]. auto. }
    assert (V : forall m : M status response, rel Pcr m -> ch = VendorHid match ch with MainHid c | VendorHid c => c end ->
      hoare (Icr w P) m (fun y w' =>
      Tr (Acr P) w w' /\ forall r, y = Ok r -> (exists cid, ch = MainHid cid) ->
        cred_done x (p_creds (w_p w)) r (p_creds (w_p w')))).
    { intros m R Hv. eapply hoare_post; [apply cr_I; exact R | ]. intros y w' [H1 H2]. split; [exact H1 | ].
      intros r _ [cid E]. rewrite E in Hv. discriminate. }
    destruct ch as [cid | cid]; [ | apply V; [destruct x; rel_walk | reflexivity]]. clear V.
    assert (K' : forall m : M status response, rel Pcr m ->
       (forall r, cred_done x (p_creds (w_p w)) r (p_creds (w_p w))) ->
      hoare (Icr w P) m (fun y w' =>
      Tr (Acr P) w w' /\ forall r, y = Ok r -> (exists c, MainHid cid = MainHid c) ->
        cred_done x (p_creds (w_p w)) r (p_creds (w_p w')))).
    { intros m R Hd. eapply hoare_post; [apply K, R | ]. intros y w' [H1 H2]. split; [exact H1 | ].
      intros r Hr _. rewrite (H2 r Hr). apply Hd. }
    assert (M : exists c, MainHid cid = MainHid c) by eauto.
    destruct x as [p | p | | p | | | p | | p | p]; cbn [process_fido_command];
      try (apply K'; [rel_walk | intro; reflexivity]).
    - destruct (mc_rk p) eqn:Erk.
      2:{ apply K'; [unfold process_make_credential, mc_create; rewrite Erk; rel_walk | ].
          intro r. cbn [cred_done]. rewrite Erk. reflexivity. }
      eapply hoare_post; [apply (cr_make_credential e w C P p) | ].
      + intros _ r l' HR HC. split; [exact HC | ]. right. split; [exact M | ]. split; [exact Erk | eauto].
      + intros y w' [H1 H2]. split; [exact H1 | ]. intros r Hr _. cbn [cred_done].
        rewrite Erk. apply (H2 r Hr Erk).
    - eapply hoare_post; [apply (cr_reset e w P) | ].
      + split; [apply creds_nil | ]. right. split; [exact M | reflexivity].
      + intros y w' [H1 H2]. split; [exact H1 | ]. intros r Hr _. exact (H2 r Hr).
    - assert (D : (match cm_sub_ p with CmDelete | CmUpdate => true | _ => false end) = true \/
                  (match cm_sub_ p with CmDelete | CmUpdate => true | _ => false end) = false)
        by (destruct (cm_sub_ p); auto).
      destruct D as [D | D].
      + eapply hoare_post; [apply (cr_cred_mgmt e w C P p) | ].
        * intros l' HS HC. split; [exact HC | ]. right. split; [exact M | exact HS].
        * intros y w' [H1 H2]. split; [exact H1 | ]. intros r Hr _. specialize (H2 r Hr).
          unfold cred_done. destruct (cm_sub_ p) eqn:Es; try discriminate D; exact H2.
      + apply K'.
        * unfold process_cred_mgmt. destruct (cm_sub_ p); try discriminate D; rel_walk.
        * intro r. unfold cred_done. destruct (cm_sub_ p); try discriminate D; reflexivity.
  Qed.

  (** Every state that an operation writes. *)
  Definition op_step (o : op) (l l' : list (N * cred)) : Prop :=
    l' = l \/
    (exists n, o = OpCompact n /\ l' = skipn n l ++ firstn n l) \/
    (exists b cid x, o = OpMessage b (MainHid cid) /\ parse_command (e_cfg e) b = Ok x /\ cred_step e x l l').
  Lemma creds_op o w :
    creds_ok e (p_creds (w_p w)) ->
    Tr (Acr (fun l => creds_ok e l /\ op_step o (p_creds (w_p w)) l)) w (snd (run_op e o w)).
  Proof.
    intro C. set (P := fun l => _).
    assert (P0 : P (p_creds (w_p w))) by (split; [exact C | now left]).
    assert (T0 : Tr (Acr P) w w) by (apply Tr_start; exact P0).
    assert (TP : forall (Q : list (N * cred) -> Prop) w', (forall l, Q l -> P l) -> Tr (Acr Q) w w' -> Tr (Acr P) w w').
    { intros Q w' HQ (l & S & H1 & H2). exists l. split; [exact S | ]. split; [intros; eapply HQ, H1; eassumption | apply HQ, H2]. }
    destruct o as [b ch | b | ch b en | | d | n].
    - cbn [run_op]. unfold process_command, bind, lift.
      destruct (parse_command (e_cfg e) b) as [x | s] eqn:Ep; [ | exact T0].
      destruct (creds_message x ch w C) as [H _].
      destruct (process_parsed_command e x ch w) as [y w']. cbn [snd] in *.
      eapply TP; [ | exact H]. intros l [H1 H2]. split; [exact H1 | ].
      destruct H2 as [-> | [[cid ->] H2]]; [now left | right; right]. exists b, cid, x. auto.
    - cbn [run_op]. assert (R : rel Pcr (u2f_process e b)) by rel_walk.
      pose proof (cr_T w P (u2f_process e b) R w T0) as Q. destruct (u2f_process e b w). exact Q.
    - cbn [run_op]. assert (R : rel Pcr (after_vendor_response ch)) by rel_walk.
      apply (cr_T w P (after_vendor_response ch) R). apply Tr_write; [exact (Acr_mono P) | | exact T0].
      intros l _ H. exact H.
    - cbn [run_op]. eapply Tr_same; [ | | exact T0]; reflexivity.
    - cbn [run_op]. eapply Tr_same; [ | | exact T0]; reflexivity.
    - cbn [run_op snd]. apply Tr_write; [exact (Acr_mono P) | | exact T0].
      intros l _ _. unfold Acr. cbn. split.
      + eapply creds_perm; [ | exact C]. rewrite <- (firstn_skipn n (p_creds (w_p w))) at 1.
        apply Permutation_app_comm.
      + right. left. exists n. auto.
  Qed.

  Theorem creds_history h : all_writes (fun p => creds_ok e (p_creds p)) (w_log (run e h)).
  Proof.
    apply writes_invariant; [apply creds_nil | ]. intros o w C.
    destruct (creds_op o w C) as (l & S & H1 & H2). exists l. split; [exact S | ].
    split; [intros l1 p l2 E; apply (H1 l1 p l2 E) | apply H2].
  Qed.
  Lemma creds_now h : creds_ok e (p_creds (w_p (run e h))).
  Proof.
    pose proof (creds_history h) as H. exact (run_writes e _ h H).
  Qed.

  (** The state after an operation, complete or interrupted. *)
  Lemma last_write_cases l l' : (exists l1 p l2, l = l1 ++ LWrite p :: l2 /\ last_write (l ++ l') = p) \/
    last_write (l ++ l') = last_write l'.
  Proof.
    induction l as [ | [p | ev] l IH]; cbn; auto.
    - left. exists [], p, l. auto.
    - destruct IH as [(l1 & p & l2 & -> & E) | E]; [left | auto]. exists (LEv ev :: l1), p, l2. auto.
  Qed.
  Lemma step_writes (Q : pers -> Prop) w o k :
    wf w -> Q (w_p w) -> Tr (fun _ => Q) w (snd (run_op e o w)) -> Q (w_p (step e w (o, k))).
  Proof.
    intros W Q0 T. destruct k as [n | ]; cbn [step fst snd].
    2:{ destruct T as (l & _ & _ & H). exact H. }
    rewrite reboot_p. pose proof (lose_power_wf n w (snd (run_op e o w))) as Wl. rewrite Wl.
    destruct T as (l & S & H & _). destruct (lose_power_log n w (snd (run_op e o w))) as (l1 & E1).
    destruct (lose_power_ext n w (snd (run_op e o w))) as (l2 & E2); [exists l; exact S | ].
    rewrite E2. destruct (last_write_cases l2 (w_log w)) as [(k1 & p & k2 & -> & ->) | ->].
    - apply (H (l1 ++ k1) p k2). unfold since in S. rewrite S, E2 in E1.
      rewrite app_assoc in E1. apply app_inv_tail in E1. rewrite E1, <- app_assoc. reflexivity.
    - rewrite <- W. exact Q0.
  Qed.
  Theorem creds_change h o k :
    op_step o (p_creds (w_p (run e h))) (p_creds (w_p (run e (h ++ [(o, k)])))).
  Proof.
    rewrite run_app.
    apply (step_writes (fun p => op_step o (p_creds (w_p (run e h))) (p_creds p)) (run e h) o k).
    - apply run_wf.
    - now left.
    - destruct (creds_op o (run e h) (creds_now h)) as (l & S & H1 & H2). exists l. split; [exact S | ].
      split; [intros l1 p l2 E; apply (H1 l1 p l2 E) | apply H2].
  Qed.

  (** ** The creation order *)
  Definition order_of (x : N * cred) : N := cr_order (snd x).
  Lemma max_order_ge l x : In x l -> (order_of x <= max_order l)%N.
  Proof.
    induction l as [ | y l IH]; [intros [] | ].
    change (max_order (y :: l)) with (N.max (order_of y) (max_order l)).
    intros [-> | H]; [lia | ]. specialize (IH H). lia.
  Qed.
  Lemma max_order_le l n : (forall x, In x l -> (order_of x <= n)%N) -> (max_order l <= n)%N.
  Proof.
    induction l as [ | y l IH]; [cbn; lia | ]. intro H. pose proof (H y (or_introl eq_refl)).
    change (max_order (y :: l)) with (N.max (order_of y) (max_order l)).
    specialize (IH (fun x Hx => H x (or_intror Hx))). lia.
  Qed.
  Theorem orders h :
    let l := p_creds (w_p (run e h)) in
    (max_order l <= Nlen h)%N /\ ((Nlen h < 2 ^ 64)%N -> NoDup (map order_of l)).
  Proof.
    cbv zeta. induction h as [ | [o k] h IH] using rev_ind.
    - split; [reflexivity | intros _; constructor].
    - destruct IH as [M D]. pose proof (creds_change h o k) as S. pose proof (creds_now h) as C.
      set (l := p_creds (w_p (run e h))) in *. set (l' := p_creds (w_p (run e (h ++ [(o, k)])))) in *.
      assert (L : Nlen (h ++ [(o, k)]) = (Nlen h + 1)%N) by (unfold Nlen; rewrite app_length; cbn; lia).
      rewrite L.
      assert (B : forall x, In x l -> (order_of x <= Nlen h)%N).
      { intros x Hx. apply max_order_ge in Hx. lia. }
      assert (F : forall f l'', (forall x, In x l'' -> In x (filter f l)) -> forall x, In x l'' -> (order_of x <= Nlen h)%N).
      { intros f l'' H x Hx. apply H, filter_In in Hx as [Hx _]. auto. }
      destruct S as [-> | [(n & _ & ->) | (b & cid & x & _ & _ & S)]].
      + split; [lia | intro; apply D; lia].
      + assert (PM : Permutation l (skipn n l ++ firstn n l)).
        { rewrite <- (firstn_skipn n l) at 1. apply Permutation_app_comm. }
        split.
        * apply max_order_le. intros x Hx. apply (Permutation_in _ (Permutation_sym PM)), B in Hx. lia.
        * intro Hh. eapply Permutation_NoDup; [apply Permutation_map, PM | apply D; lia].
      + destruct x; cbn [cred_step] in S; try contradiction.
        * destruct S as (_ & r & CF & j & ->). destruct CF as [_ _ _ _ _ _ CO _].
          assert (O : (cr_order r <= Nlen h + 1)%N).
          { rewrite CO. pose proof (N.mod_le (max_order l + 1) (2 ^ 64) ltac:(lia)). lia. }
          split.
          -- apply max_order_le. intros x Hx. apply in_app_iff in Hx as [Hx | [<- | []]]; [ | exact O].
             apply filter_In in Hx as [Hx _]. apply B in Hx. lia.
          -- intro Hh. rewrite map_app. apply nodup_snoc; [apply nodup_filter, D; lia | ].
             intro H. apply in_map_iff in H as (y & E & Hy). apply filter_In in Hy as [Hy _].
             apply max_order_ge in Hy. rewrite E in Hy. unfold order_of in Hy. cbn in Hy.
             rewrite CO, N.mod_small in Hy by lia. lia.
        * rewrite S. split; [cbn; lia | constructor].
        * destruct (cm_sub_ p); try contradiction.
          -- destruct S as (id & _ & _ & ->). split; [ | intro; apply nodup_filter, D; lia].
             apply max_order_le. intros x Hx. apply filter_In in Hx as [Hx _]. apply B in Hx. lia.
          -- destruct S as (id & d & u & _ & _ & _ & j & r & F1 & ->).
             destruct (without_key e l id j r C F1) as [Hin Hw].
             split.
             ++ apply max_order_le. intros x Hx. apply in_app_iff in Hx as [Hx | [<- | []]].
                ** apply filter_In in Hx as [Hx _]. apply B in Hx. lia.
                ** apply B in Hin. unfold order_of in *. cbn in *. lia.
             ++ intro Hh. specialize (D ltac:(lia)). rewrite map_app. apply nodup_snoc; [apply nodup_filter, D | ].
                intro H. apply in_map_iff in H as (y & E & Hy).
                assert (Y : y = (j, r)).
                { apply filter_In in Hy as [Hy _]. change (order_of (j, with_user u r)) with (order_of (j, r)) in E.
                  clear - D Hy Hin E. induction l as [ | z l IH]; [destruct Hy | ].
                  cbn in D. inversion_clear D as [ | ? ? N D']. destruct Hy as [-> | Hy], Hin as [-> | Hin]; auto.
                  - exfalso. apply N. rewrite E. now apply in_map.
                  - exfalso. apply N. rewrite <- E. now apply in_map. }
                subst y. rewrite <- Hw in Hy. apply filter_In in Hy as [_ Hy]. cbn in Hy.
                rewrite N.eqb_refl in Hy. discriminate.
  Qed.
End Operations.
