(** PIN retries: the invariant behind properties C22 and C23. *)
From Verif Require Import Base Facts Hid.Model U2f.Model Cbor.Model Ctap.Crypto Ctap.Types Ctap.Machine
  Ctap.Commands Ctap.Parse Ctap.System Ctap.Logic Ctap.History Ctap.PinSpec.
From Coq Require Import Lia.

Definition pin_eqb (a b : option (bytes * N)) : bool :=
  match a, b with
  | None, None => true
  | Some (x, n), Some (y, m) => bytes_eqb x y && (n =? m)%N
  | _, _ => false
  end.
Lemma pin_eqb_spec a b : pin_eqb a b = true <-> a = b.
Proof.
  destruct a as [[x n] | ], b as [[y m] | ]; cbn; try (split; congruence).
  rewrite Bool.andb_true_iff, bytes_eqb_eq, N.eqb_eq. split; [intros [-> ->]; reflexivity | ].
  intro H. injection H as -> ->. auto.
Qed.
Lemma pin_eqb_refl a : pin_eqb a a = true.
Proof. now apply pin_eqb_spec. Qed.

(** Wrong guesses since the last success or change of the PIN; the log is newest first. *)
Fixpoint guesses (log : list item) : N :=
  match log with
  | [] => 0
  | LEv (EvCompare true) :: _ => 0
  | LEv (EvCompare false) :: l => guesses l + 1
  | LEv _ :: l => guesses l
  | LWrite p :: l => if pin_eqb (p_pin p) (p_pin (last_write l)) then guesses l else 0
  end%N.
(** The same, and also since the last power-up. *)
Fixpoint wrong (log : list item) : N :=
  match log with
  | [] => 0
  | LEv (EvCompare true) :: _ => 0
  | LEv (EvCompare false) :: l => wrong l + 1
  | LEv EvBoot :: l => 0
  | LEv _ :: l => wrong l
  | LWrite p :: l => if pin_eqb (p_pin p) (p_pin (last_write l)) then wrong l else 0
  end%N.

Section Pin.
  Variable e : env.
  Notation max := (c_max_retries (e_cfg e)).

  Definition nofault : Prop := forall i, e_fault e i = None.
  Definition ret_val (r : option N) : N := match r with None => max | Some n => n end.
  Lemma retries_ret p : retries_of e p = ret_val (p_retries p).
  Proof. reflexivity. Qed.

  Definition good (g x : N) (pin : option (bytes * N)) (r : option N) : Prop :=
    (g + ret_val r <= max)%N /\ (pin = None -> g = 0%N /\ x = 0%N /\ r = None) /\
    (nofault -> (x <= 3)%N).
  Definition here (log : list item) : Prop :=
    good (guesses log) (wrong log) (p_pin (last_write log)) (p_retries (last_write log)).
  Fixpoint L (log : list item) : Prop :=
    match log with [] => True | x :: l => here log /\ L l end.

  Lemma L_here log : L log -> here log.
  Proof.
    destruct log; cbn; [ | tauto]. intros _. unfold here, good, ret_val. cbn.
    split; [lia | split; [auto | intros; lia]].
  Qed.
  Lemma L_suffix l l' : L (l ++ l') -> L l'.
  Proof. induction l as [ | x l IH]; cbn; [auto | intros [_ H]; auto]. Qed.

  Definition St (g x m : N) (pin : option (bytes * N)) (r : option N) (w : world) : Prop :=
    wf w /\ L (w_log w) /\ guesses (w_log w) = g /\ wrong (w_log w) = x /\ v_mism (w_v w) = m /\
    p_pin (w_p w) = pin /\ p_retries (w_p w) = r.

  Lemma St_good g x m pin r w : St g x m pin r w -> good g x pin r.
  Proof.
    intros (W & H & Hg & Hx & _ & Hp & Hr). apply L_here in H. unfold here in H.
    rewrite <- W, Hg, Hx, Hp, Hr in H. exact H.
  Qed.
  Lemma St_intro w : wf w -> L (w_log w) ->
    St (guesses (w_log w)) (wrong (w_log w)) (v_mism (w_v w)) (p_pin (w_p w)) (p_retries (w_p w)) w.
  Proof. intros W H. repeat split; auto. Qed.

  (** At the boundaries of operations. *)
  Definition K (w : world) : Prop :=
    nofault ->
    (wrong (w_log w) <= v_mism (w_v w))%N \/
    retries_of e (w_p w) = 0%N /\ (wrong (w_log w) <= v_mism (w_v w) + 1)%N.
  Definition Inv (w : world) : Prop := wf w /\ L (w_log w) /\ K w.
  Lemma Inv_St g x m pin r w :
    St g x m pin r w -> (nofault -> (x <= m)%N \/ ret_val r = 0%N /\ (x <= m + 1)%N) -> Inv w.
  Proof.
    intros (W & H & <- & <- & <- & <- & <-) HK. split; [exact W | split; [exact H | exact HK]].
  Qed.
  Lemma St_Inv w : Inv w -> exists g x m pin r, St g x m pin r w /\
    (nofault -> (x <= m)%N \/ ret_val r = 0%N /\ (x <= m + 1)%N).
  Proof.
    intros (W & H & HK). do 5 eexists. split; [apply St_intro; assumption | exact HK].
  Qed.

  Definition quiet_ev (ev : event) : Prop :=
    match ev with EvCompare _ | EvBoot => False | _ => True end.
  Definition Pk : params := keep (fun p => (p_pin p, p_retries p)) v_mism quiet_ev.

  Lemma frame_log w l :
    wf w -> L (w_log w) -> Forall (item_ok Pk (w_p w)) l ->
    L (l ++ w_log w) /\ guesses (l ++ w_log w) = guesses (w_log w) /\
    wrong (l ++ w_log w) = wrong (w_log w) /\
    p_pin (last_write (l ++ w_log w)) = p_pin (w_p w) /\
    p_retries (last_write (l ++ w_log w)) = p_retries (w_p w).
  Proof.
    intros W H. induction l as [ | x l IH]; intro F; cbn [app].
    - rewrite <- W. auto.
    - inversion F as [ | ? ? Hx F']; subst. specialize (IH F') as (A & B & B' & C & D).
      assert (G : guesses (x :: l ++ w_log w) = guesses (w_log w) /\
                  wrong (x :: l ++ w_log w) = wrong (w_log w) /\
                  p_pin (last_write (x :: l ++ w_log w)) = p_pin (w_p w) /\
                  p_retries (last_write (x :: l ++ w_log w)) = p_retries (w_p w)).
      { destruct x as [q | ev]; cbn in Hx |- *.
        - apply pair_equal_spec in Hx as [Hp Hr]. rewrite C, Hp, pin_eqb_refl. auto.
        - destruct ev; cbn in Hx; try contradiction; auto. }
      destruct G as (G1 & G2 & G3 & G4). split; [ | auto].
      split; [ | exact A]. unfold here. rewrite G1, G2, G3, G4.
      apply L_here in H. unfold here in H. rewrite <- W in H. exact H.
  Qed.

  Lemma frame_St g x m pin r w w' : fr Pk w w' -> St g x m pin r w -> St g x m pin r w'.
  Proof.
    intros F (W & H & <- & <- & <- & <- & <-). pose proof (fr_wf _ _ _ F W) as W'.
    pose proof (fr_v _ _ _ F) as V. cbn in V.
    destruct (fr_log _ _ _ F) as (l & E & Fl).
    destruct (frame_log w l W H Fl) as (A & B & B' & C & D).
    unfold St. rewrite <- E in *. unfold wf in W'. rewrite <- W' in *. auto 10.
  Qed.
  Lemma frame_Inv w w' : fr Pk w w' -> Inv w -> Inv w'.
  Proof.
    intros F H. apply St_Inv in H as (g & x & m & pin & r & H & HK).
    eapply Inv_St; [eapply frame_St; eassumption | exact HK].
  Qed.
  Lemma hoare_frame {E A} (m : M E A) g x mi pin r :
    rel Pk m -> hoare (St g x mi pin r) m (fun _ => St g x mi pin r).
  Proof. intros H w Hw. eapply frame_St; [apply H | exact Hw]. Qed.
  Lemma hoare_load {A} (f : pers -> A) g x m pin r :
    hoare (St g x m pin r) (load e f)
      (fun y w => St g x m pin r w /\
                  match y with Ok a => a = f (w_p w) | Err _ => ~ nofault end).
  Proof.
    intros w Hw. split.
    - apply (hoare_frame (load e f)); [rel_walk | exact Hw].
    - unfold load. destruct (e_fault e (w_op w)) as [[s b] | ] eqn:E; cbn; [ | reflexivity].
      intro N. rewrite N in E. discriminate.
  Qed.

  (** A write of any new PIN and retry counter. *)
  Definition after_pin (pin pin' : option (bytes * N)) (n : N) : N :=
    if pin_eqb pin' pin then n else 0%N.
  Lemma St_write g x m pin r w p :
    St g x m pin r w ->
    good (after_pin pin (p_pin p) g) (after_pin pin (p_pin p) x) (p_pin p) (p_retries p) ->
    St (after_pin pin (p_pin p) g) (after_pin pin (p_pin p) x) m (p_pin p) (p_retries p)
       (write_world p w).
  Proof.
    intros (W & H & <- & <- & <- & <- & <-) G. split; [reflexivity | ].
    assert (Hg : guesses (LWrite p :: w_log w) = after_pin (p_pin (w_p w)) (p_pin p) (guesses (w_log w)))
      by (cbn; now rewrite <- W).
    assert (Hx : wrong (LWrite p :: w_log w) = after_pin (p_pin (w_p w)) (p_pin p) (wrong (w_log w)))
      by (cbn; now rewrite <- W).
    split; [split; [unfold here; rewrite Hg, Hx; exact G | exact H] | ].
    split; [exact Hg | split; [exact Hx | repeat split]].
  Qed.
  Lemma St_same w w' g x m pin r :
    w_p w' = w_p w -> w_log w' = w_log w -> v_mism (w_v w') = v_mism (w_v w) ->
    St g x m pin r w -> St g x m pin r w'.
  Proof. unfold St, wf. intros -> -> ->. auto. Qed.
  Lemma hoare_store (f : pers -> pers) g x m pin r (G X : N) PIN R :
    (forall p, p_pin p = pin -> p_retries p = r -> p_pin (f p) = PIN /\ p_retries (f p) = R) ->
    after_pin pin PIN g = G -> after_pin pin PIN x = X -> good G X PIN R ->
    hoare (St g x m pin r) (store e f)
      (fun y w => match y with
                  | Ok _ => St G X m PIN R w
                  | Err _ => ~ nofault /\ (St G X m PIN R w \/ St g x m pin r w)
                  end).
  Proof.
    intros Hf EG EX HG w Hw. unfold store.
    assert (D : St G X m PIN R (write_world (f (w_p w)) w)).
    { destruct (Hf (w_p w)) as [<- <-]; try apply Hw. subst G X. now apply St_write with (r := r). }
    destruct (e_fault e (w_op w)) as [[s [|]] | ] eqn:E; cbn [fst snd].
    - split; [intro N; rewrite N in E; discriminate | left].
      eapply St_same; [ | | | exact D]; reflexivity.
    - split; [intro N; rewrite N in E; discriminate | right].
      eapply St_same; [ | | | exact Hw]; reflexivity.
    - eapply St_same; [ | | | exact D]; reflexivity.
  Qed.
  (** A comparison. *)
  Lemma hoare_compare {E} (ok : bool) g x m pin r (G X : N) :
    (if ok then 0%N else (g + 1)%N) = G -> (if ok then 0%N else (x + 1)%N) = X ->
    good G X pin r ->
    hoare (E := E) (St g x m pin r) (emit (EvCompare ok))
      (fun y w => match y with Ok _ => St G X m pin r w | Err _ => False end).
  Proof.
    intros EG EX HG w (W & H & <- & <- & <- & <- & <-). cbn [fst snd emit].
    assert (Hg : guesses (LEv (EvCompare ok) :: w_log w) = G) by (destruct ok; exact EG).
    assert (Hx : wrong (LEv (EvCompare ok) :: w_log w) = X) by (destruct ok; exact EX).
    split; [exact W | ].
    split; [split; [unfold here; rewrite Hg, Hx; cbn [last_write]; rewrite <- W; exact HG
                   | exact H] | ].
    split; [exact Hg | split; [exact Hx | repeat split]].
  Qed.
  Lemma hoare_mism {E} (f : N -> N) g x m pin r :
    hoare (E := E) (St g x m pin r) (modify (fun v => set_mism (f (v_mism v)) v))
      (fun y w => match y with Ok _ => St g x (f m) pin r w | Err _ => False end).
  Proof.
    intros w (W & H & <- & <- & <- & <- & <-). repeat split; auto.
  Qed.
  Lemma hoare_gets_mism {E} g x m pin r :
    hoare (E := E) (St g x m pin r) (gets v_mism)
      (fun y w => match y with Ok a => a = m /\ St g x m pin r w | Err _ => False end).
  Proof. intros w H. cbn. split; [apply H | exact H]. Qed.
  Lemma hoare_guard {E} (I : world -> Prop) b (s : E) :
    hoare I (guard b s) (fun y w => match y with Ok _ => b = true /\ I w | Err _ => b = false /\ I w end).
  Proof. intros w H. destruct b; cbn; auto. Qed.
  Lemma hoare_fact {E A} (F : Prop) (I : world -> Prop) (m : M E A) Post :
    (F -> hoare I m Post) -> hoare (fun w => F /\ I w) m Post.
  Proof. intros H w [HF HI]. now apply H. Qed.
  Lemma hoare_and_l {E A} (F : Prop) (I : world -> Prop) (m : M E A) Post :
    (F -> hoare I m Post) -> hoare (fun w => I w /\ F) m Post.
  Proof. intros H w [HI HF]. now apply H. Qed.
  Lemma hoare_pre {E A} (I J : world -> Prop) (m : M E A) Post :
    hoare J m Post -> (forall w, I w -> J w) -> hoare I m Post.
  Proof. intros H HI w Hw. apply H, HI, Hw. Qed.
  Lemma hoare_fail {E A} (I : world -> Prop) (s : E) (Post : res E A -> world -> Prop) :
    (forall w, I w -> Post (Err s) w) -> hoare I (fail s) Post.
  Proof. intros H w Hw. apply H, Hw. Qed.
  Lemma hoare_ret {E A} (I : world -> Prop) (a : A) (Post : res E A -> world -> Prop) :
    (forall w, I w -> Post (Ok a) w) -> hoare I (ret a) Post.
  Proof. intros H w Hw. apply H, Hw. Qed.

  Lemma hoare_post {E A} (I : world -> Prop) (m : M E A) (Post Post' : res E A -> world -> Prop) :
    hoare I m Post' -> (forall y w, Post' y w -> Post y w) -> hoare I m Post.
  Proof. intros H HP w Hw. apply HP, H, Hw. Qed.
  Lemma hoare_regenerate p g x m pin r :
    hoare (St g x m pin r) (regenerate e p)
      (fun y w => match y with Ok _ => St g x m pin r w | Err _ => False end).
  Proof. intros w H. destruct p; exact H. Qed.

  (** client_pin.rs 177-214, called with retries left. *)
  Lemma verify_pin p s enc g x m pin r :
    ret_val r <> 0%N -> (nofault -> (x <= m)%N) ->
    hoare (St g x m pin r) (verify_pin_hash_enc e p s enc)
      (fun y w => match y with
                  | Ok _ => St 0 0 0 pin None w /\ pin <> None
                  | Err _ => Inv w
                  end).
  Proof.
    intros Hr Hx. unfold verify_pin_hash_enc.
    eapply hoare_bind with
      (Mid := fun h w => (h = None <-> pin = None) /\ St g x m pin r w).
    { eapply hoare_post; [apply hoare_load | ].
      intros [h | s0] w [HS H].
      - split; [ | exact HS]. subst h. destruct HS as (_ & _ & _ & _ & _ & -> & _).
        destruct pin; cbn; split; congruence.
      - eapply Inv_St; [exact HS | auto]. }
    intros [h | ]; [ | apply hoare_fail; intros w [_ HS]; eapply Inv_St; [exact HS | auto]].
    apply hoare_fact. intro Hp.
    assert (Pin : pin <> None) by (intro A; apply Hp in A; discriminate).
    eapply hoare_bind; [eapply hoare_post; [apply hoare_gets_mism | ] | ].
    { intros [a | s0] w H; [exact H | destruct H]. }
    intro a. apply hoare_fact. intros ->.
    eapply hoare_bind with (Mid := fun _ w => (m <? 3 = true)%N /\ St g x m pin r w).
    { eapply hoare_post; [apply hoare_guard | ].
      intros [a | s0] w [Hb HS]; [split; [lia | exact HS] | eapply Inv_St; [exact HS | auto]]. }
    intros _. apply hoare_fact. intro Hm.
    eapply hoare_bind with (Mid := fun _ w => St g x m pin (Some (ret_val r - 1)%N) w /\
                                              good g x pin r).
    { unfold decr_pin_retries.
      eapply hoare_bind with (Mid := fun n w => (n = ret_val r /\ good g x pin r) /\ St g x m pin r w).
      { eapply hoare_post; [apply hoare_load | ].
        intros [n | s0] w [HS H].
        - split; [ | exact HS]. split; [ | eapply St_good; exact HS].
          subst n. rewrite retries_ret.
          destruct HS as (_ & _ & _ & _ & _ & _ & <-). reflexivity.
        - eapply Inv_St; [exact HS | auto]. }
      intro n. apply hoare_fact. intros [-> HG].
      replace (ret_val r - 1 =? ret_val r)%N with false by lia.
      eapply hoare_post.
      - apply hoare_store with (g := g) (x := x) (m := m) (pin := pin) (r := r) (G := g) (X := x)
          (PIN := pin) (R := Some (ret_val r - 1)%N).
        + intros q E1 E2. cbn. auto.
        + unfold after_pin. now rewrite pin_eqb_refl.
        + unfold after_pin. now rewrite pin_eqb_refl.
        + destruct HG as (H1 & H2 & H3). split; [cbn; lia | split; [ | exact H3]]. tauto.
      - intros [u | s0] w H; [auto | ].
        destruct H as [NF [HS | HS]]; (eapply Inv_St; [exact HS | intro; contradiction]). }
    intros _. apply hoare_and_l. intro HG.
    set (r' := Some (ret_val r - 1)%N).
    assert (I1 : forall w, St g x m pin r' w -> Inv w)
      by (intros w HS; eapply Inv_St; [exact HS | auto]).
    eapply hoare_bind with (Mid := fun _ => St g x m pin r').
    { unfold shared_decrypt_m. destruct (shared_decrypt (e_prims e) s enc) as [d | ];
        [apply hoare_ret | apply hoare_fail]; auto. }
    intro d. destruct HG as (G1 & G2 & G3).
    eapply hoare_bind with
      (Mid := fun _ => St (if bytes_eqb h d then 0 else g + 1)%N (if bytes_eqb h d then 0 else x + 1)%N
                          m pin r').
    { eapply hoare_post; [apply hoare_compare; [reflexivity | reflexivity | ] | ].
      - split; [ | split; [tauto | ]].
        + cbn. destruct (bytes_eqb h d); lia.
        + intro N. specialize (Hx N). destruct (bytes_eqb h d); lia.
      - intros [u | s0] w H; [exact H | destruct H]. }
    intros _. destruct (bytes_eqb h d).
    - (* the right PIN *)
      eapply hoare_bind with (Mid := fun _ => St 0 0 m pin r'); [apply hoare_ret; auto | intros _].
      eapply hoare_bind with (Mid := fun _ => St 0 0 m pin None).
      { eapply hoare_post.
        - apply hoare_store with (g := 0%N) (x := 0%N) (m := m) (pin := pin) (r := r') (G := 0%N)
            (X := 0%N) (PIN := pin) (R := None).
          + intros q E1 E2. cbn. auto.
          + unfold after_pin. now rewrite pin_eqb_refl.
          + unfold after_pin. now rewrite pin_eqb_refl.
          + split; [cbn; lia | split; [tauto | intros; lia]].
        - intros [u | s0] w H; [auto | ].
          destruct H as [NF [HS | HS]]; (eapply Inv_St; [exact HS | intro; contradiction]). }
      intros _. eapply hoare_post; [apply (hoare_mism (fun _ => 0%N)) | ].
      intros [u | s0] w H; [split; [exact H | exact Pin] | destruct H].
    - (* a wrong PIN *)
      eapply hoare_bind with (Mid := fun _ _ => False); [ | intros _ w []].
      eapply hoare_bind with (Mid := fun _ => St (g + 1)%N (x + 1)%N m pin r').
      { eapply hoare_post; [apply hoare_regenerate | ].
        intros [u | s0] w H; [exact H | destruct H]. }
      intros _.
      eapply hoare_bind with (Mid := fun n w => n = (ret_val r - 1)%N /\ St (g + 1)%N (x + 1)%N m pin r' w).
      { eapply hoare_post; [apply hoare_load | ].
        intros [n | s0] w [HS H].
        - split; [ | exact HS]. subst n. rewrite retries_ret.
          destruct HS as (_ & _ & _ & _ & _ & _ & ->). reflexivity.
        - eapply Inv_St; [exact HS | intro; contradiction]. }
      intro n. apply hoare_fact. intros ->.
      eapply hoare_bind with (Mid := fun _ => St (g + 1)%N (x + 1)%N m pin r').
      { eapply hoare_post; [apply hoare_guard | ].
        intros [u | s0] w [Hb HS]; [exact HS | ].
        eapply Inv_St; [exact HS | ]. intro N. right. specialize (Hx N). cbn. lia. }
      intros _.
      eapply hoare_bind with (Mid := fun _ => St (g + 1)%N (x + 1)%N (m + 1)%N pin r').
      { eapply hoare_post; [apply (hoare_mism (fun n => n + 1)%N) | ].
        intros [u | s0] w H; [exact H | destruct H]. }
      intros _.
      assert (I2 : forall w, St (g + 1)%N (x + 1)%N (m + 1)%N pin r' w -> Inv w).
      { intros w HS. eapply Inv_St; [exact HS | ]. intro N. specialize (Hx N). left. lia. }
      eapply hoare_bind; [eapply hoare_post; [apply hoare_gets_mism | ] | ].
      { intros [a | s0] w H; [exact H | destruct H]. }
      intro a. apply hoare_fact. intros ->.
      eapply hoare_bind with (Mid := fun _ => St (g + 1)%N (x + 1)%N (m + 1)%N pin r').
      { eapply hoare_post; [apply hoare_guard | ].
        intros [u | s0] w [Hb HS]; [exact HS | auto]. }
      intros _. apply hoare_fail. auto.
  Qed.

  (** client_pin.rs 89-112: after a success or with no PIN set. *)
  Lemma store_new_pin s enc m pin r :
    hoare (St 0 0 m pin r) (check_and_store_new_pin e s enc)
      (fun y w => match y with
                  | Ok _ => exists pin', pin' <> None /\ St 0 0 m pin' r w
                  | Err _ => Inv w
                  end).
  Proof.
    assert (I0 : forall pin m r w, St 0 0 m pin r w -> Inv w)
      by (intros ? ? ? w HS; eapply Inv_St; [exact HS | intros; left; lia]).
    unfold check_and_store_new_pin.
    eapply hoare_bind with (Mid := fun _ => St 0 0 m pin r).
    { eapply hoare_post; [apply hoare_frame; rel_walk | ]. intros [u | s0] w H; eauto. }
    intro d.
    eapply hoare_bind with (Mid := fun _ => St 0 0 m pin r).
    { eapply hoare_post; [apply hoare_frame; rel_walk | ]. intros [u | s0] w H; eauto. }
    intro n.
    eapply hoare_bind with (Mid := fun _ => St 0 0 m pin r).
    { eapply hoare_post; [apply hoare_frame; rel_walk | ]. intros [u | s0] w H; eauto. }
    intros _.
    set (h := firstn 16 (sha256 (e_prims e) d)). clearbody h.
    intros w Hw. pose proof (St_good _ _ _ _ _ _ Hw) as (G1 & G2 & G3).
    refine (_ (hoare_store (fun p => set_force false (set_pin_props (Some (h, code_points d)) p))
      0%N 0%N m pin r 0%N 0%N (Some (h, code_points d)) r _ _ _ _ w Hw)).
    - unfold set_pin. destruct (store _ _ w) as [[u | s0] w']; cbn [fst snd].
      + intro HS. eexists. split; [ | exact HS]. discriminate.
      + intros [_ [HS | HS]]; eauto.
    - intros q E1 E2. cbn. auto.
    - unfold after_pin. destruct (pin_eqb _ _); reflexivity.
    - unfold after_pin. destruct (pin_eqb _ _); reflexivity.
    - split; [exact G1 | split; [discriminate | exact G3]].
  Qed.

  Lemma Inv0 m pin r w : St 0 0 m pin r w -> Inv w.
  Proof. intro HS. eapply Inv_St; [exact HS | intros; left; lia]. Qed.
  Lemma hoare_Inv {E A} (m : M E A) : rel Pk m -> hoare Inv m (fun _ => Inv).
  Proof. intros H w Hw. eapply frame_Inv; [apply H | exact Hw]. Qed.
  (** A prefix that keeps PIN, retries and mismatches. *)
  Lemma hoare_prefix {E A B} (m : M E A) (k : A -> M E B) (I : world -> Prop)
    (Post : res E B -> world -> Prop) :
    rel Pk m -> (forall w w', fr Pk w w' -> I w -> I w') -> (forall s w, I w -> Post (Err s) w) ->
    (forall a, hoare I (k a) Post) -> hoare I (bind m k) Post.
  Proof.
    intros Hm HI HE Hk. eapply hoare_bind with (Mid := fun _ => I); [ | exact Hk].
    intros w Hw. specialize (HI w _ (Hm w) Hw). destruct (fst (m w)); auto.
  Qed.
  Definition any_post : forall {A}, res status A -> world -> Prop := fun _ _ w => Inv w.
  Ltac prefix :=
    apply hoare_prefix; [rel_walk | eauto using frame_Inv | auto | intro].

  Lemma set_pin_inv p : hoare Inv (process_set_pin e p) (fun _ => Inv).
  Proof.
    unfold process_set_pin. do 3 prefix.
    eapply hoare_bind with (Mid := fun h w => (h = None -> p_pin (w_p w) = None) /\ Inv w).
    { intros w Hw. pose proof (hoare_Inv (pin_hash e) ltac:(rel_walk) w Hw) as H.
      destruct (pin_hash e w) as [[h | s] w'] eqn:E; cbn [fst snd] in *; [ | exact H].
      split; [ | exact H]. apply load_ok in E as (-> & -> & _).
      destruct (p_pin (w_p w)); [discriminate | auto]. }
    intros h.
    eapply hoare_bind with (Mid := fun _ w => p_pin (w_p w) = None /\ Inv w).
    { intros w [Hn Hw]. destruct h; cbn; auto. }
    intros _.
    set (I := fun w => p_pin (w_p w) = None /\ Inv w).
    assert (FI : forall w w', fr Pk w w' -> I w -> I w').
    { intros w w' F [Hn Hw]. split; [ | eapply frame_Inv; eassumption].
      pose proof (fr_p _ _ _ F) as Q. cbn in Q. congruence. }
    apply hoare_prefix; [rel_walk | exact FI | intros ? ? []; auto | intro s].
    apply hoare_prefix; [destruct (shared_verify _ _ _ _); rel_walk | exact FI | intros ? ? []; auto | intros _].
    eapply hoare_bind with (Mid := fun _ w => exists m pin r, pin <> None /\ St 0 0 m pin r w).
    { intros w [Hn Hw]. apply St_Inv in Hw as (g & x & m & pin & r & HS & _).
      assert (pin = None) by (destruct HS as (_ & _ & _ & _ & _ & ? & _); congruence). subst pin.
      destruct (St_good _ _ _ _ _ _ HS) as (_ & G & _). destruct (G eq_refl) as (-> & -> & ->).
      pose proof (store_new_pin s a1 m None None w HS) as Q.
      destruct (check_and_store_new_pin e s a1 w) as [[u | s0] w']; cbn [fst snd] in *; [ | exact Q].
      destruct Q as (pin' & Hp & Q). eauto 6. }
    intros _. unfold reset_pin_retries.
    eapply hoare_bind with (Mid := fun _ => Inv).
    { intros w (m & pin & r & Hp & HS).
      pose proof (hoare_store (set_retries None) 0%N 0%N m pin r 0%N 0%N pin None) as Q.
      refine (_ (Q _ _ _ _ w HS)).
      - destruct (store _ _ w) as [[u | s0] w']; cbn [fst snd].
        + apply Inv0.
        + intros [_ [H | H]]; eapply Inv0; exact H.
      - intros q E1 E2. cbn. auto.
      - unfold after_pin. now rewrite pin_eqb_refl.
      - unfold after_pin. now rewrite pin_eqb_refl.
      - split; [cbn; lia | split; [tauto | intros; lia]]. }
    intros _. apply hoare_ret. auto.
  Qed.

  (** The retry check that precedes every comparison. *)
  Lemma with_retries {B} (k : N -> M status B) (Post : res status B -> world -> Prop) :
    (forall s w, Inv w -> Post (Err s) w) ->
    (forall r g x m pin re, r = ret_val re ->
       (nofault -> (x <= m)%N \/ ret_val re = 0%N /\ (x <= m + 1)%N) ->
       hoare (St g x m pin re) (k r) Post) ->
    hoare Inv (bind (pin_retries e) k) Post.
  Proof.
    intros HE Hk w Hw. apply St_Inv in Hw as (g & x & m & pin & re & HS & HK).
    refine (hoare_bind (St g x m pin re) _ _ (fun r w => r = ret_val re /\ St g x m pin re w)
              _ _ _ w HS).
    - eapply hoare_post; [apply hoare_load | ].
      intros [n | s] w1 [HS1 H].
      + split; [ | exact HS1]. subst n. rewrite retries_ret.
        destruct HS1 as (_ & _ & _ & _ & _ & _ & ->). reflexivity.
      + apply HE. eapply Inv_St; [exact HS1 | exact HK].
    - intro a. apply hoare_fact. intro E. apply Hk; [exact E | exact HK].
  Qed.

  Definition Ready (w : world) : Prop :=
    exists g x m pin re, ret_val re <> 0%N /\ (nofault -> (x <= m)%N) /\ St g x m pin re w.
  Lemma frame_Ready w w' : fr Pk w w' -> Ready w -> Ready w'.
  Proof.
    intros F (g & x & m & pin & re & H1 & H2 & H3). exists g, x, m, pin, re.
    eauto using frame_St.
  Qed.
  Lemma Ready_Inv w : Ready w -> Inv w.
  Proof.
    intros (g & x & m & pin & re & H1 & H2 & H3). eapply Inv_St; [exact H3 | auto].
  Qed.
  Lemma retries_guard {B} (k : M status B) (Post : res status B -> world -> Prop) :
    (forall s w, Inv w -> Post (Err s) w) -> hoare Ready k Post ->
    hoare Inv (bind (pin_retries e) (fun r => bind (guard (negb (r =? 0)%N) PIN_BLOCKED) (fun _ => k)))
      Post.
  Proof.
    intros HE Hk. apply with_retries; [exact HE | ].
    intros r g x m pin re -> HK.
    eapply hoare_bind with (Mid := fun _ => Ready); [ | intros _; exact Hk].
    intros w HS. destruct (ret_val re =? 0)%N eqn:E0; cbn.
    - apply HE. eapply Inv_St; [exact HS | exact HK].
    - exists g, x, m, pin, re. split; [lia | split; [ | exact HS]].
      intro N. destruct (HK N); [assumption | lia].
  Qed.

  (** What holds after the PIN was entered correctly. *)
  Definition Entered (w : world) : Prop := exists m pin r, pin <> None /\ St 0 0 m pin r w.
  Lemma frame_Entered w w' : fr Pk w w' -> Entered w -> Entered w'.
  Proof.
    intros F (m & pin & r & H1 & H2). exists m, pin, r. eauto using frame_St.
  Qed.
  Lemma Entered_Inv w : Entered w -> Inv w.
  Proof. intros (m & pin & r & H1 & H2). eapply Inv0. exact H2. Qed.
  Lemma verify_ready p s enc :
    hoare Ready (verify_pin_hash_enc e p s enc)
      (fun y w => match y with Ok _ => Entered w | Err _ => Inv w end).
  Proof.
    intros w (g & x & m & pin & re & H1 & H2 & H3).
    pose proof (verify_pin p s enc g x m pin re H1 H2 w H3) as Q.
    destruct (verify_pin_hash_enc e p s enc w) as [[u | s0] w']; cbn [fst snd] in *; [ | exact Q].
    destruct Q as [Q Hp]. unfold Entered. eauto.
  Qed.
  Lemma entered_new_pin s enc :
    hoare Entered (check_and_store_new_pin e s enc) (fun _ => Inv).
  Proof.
    intros w (m & pin & re & H1 & H2).
    pose proof (store_new_pin s enc m pin re w H2) as Q.
    destruct (check_and_store_new_pin e s enc w) as [[u | s0] w']; cbn [fst snd] in *; [ | exact Q].
    destruct Q as (pin' & Hp & Q). eapply Inv0. exact Q.
  Qed.

  Ltac ready := apply hoare_prefix;
    [rel_walk | eauto using frame_Ready | auto using Ready_Inv | intro].

  Lemma change_pin_inv p : hoare Inv (process_change_pin e p) (fun _ => Inv).
  Proof.
    unfold process_change_pin. do 4 prefix. apply retries_guard; [auto | ].
    ready.
    apply hoare_prefix; [destruct (shared_verify _ _ _ _); rel_walk | eauto using frame_Ready
                        | auto using Ready_Inv | intros _].
    eapply hoare_bind with (Mid := fun _ => Entered); [apply verify_ready | intros _].
    eapply hoare_bind with (Mid := fun _ => Inv).
    { eapply hoare_post; [apply entered_new_pin | ]. intros [u | s0] w H; exact H. }
    intros _. do 5 prefix. apply hoare_ret. auto.
  Qed.
  Lemma get_token_inv p : hoare Inv (process_get_pin_token e p) (fun _ => Inv).
  Proof.
    unfold process_get_pin_token. do 2 prefix.
    apply hoare_prefix; [destruct (pi_perms p), (pi_rp p); rel_walk | eauto using frame_Inv | auto | intros _].
    apply retries_guard; [auto | ].
    ready.
    eapply hoare_bind with (Mid := fun _ => Inv).
    { eapply hoare_post; [apply verify_ready | ].
      intros [u | s0] w H; [now apply Entered_Inv | exact H]. }
    intros _. apply hoare_Inv. rel_walk.
  Qed.
  Lemma token_permissions_inv p : hoare Inv (process_token_with_permissions e p) (fun _ => Inv).
  Proof.
    unfold process_token_with_permissions. do 3 prefix.
    eapply hoare_bind with (Mid := fun _ => Inv).
    { eapply hoare_post; [apply get_token_inv | ]. intros [u | s0] w H; exact H. }
    intro. apply hoare_Inv. rel_walk.
  Qed.
  Lemma client_pin_inv p : hoare Inv (process_client_pin e p) (fun _ => Inv).
  Proof.
    unfold process_client_pin. prefix.
    eapply hoare_bind with (Mid := fun _ => Inv); [ | intro; apply hoare_ret; auto].
    assert (H : forall m : M status (option pin_resp), hoare Inv m (fun _ => Inv) ->
      hoare Inv m (fun y w => match y with Ok _ => Inv w | Err _ => Inv w end)).
    { intros m H. eapply hoare_post; [exact H | ]. intros [u | s0] w Hw; exact Hw. }
    destruct (pi_sub p); apply H; auto using set_pin_inv, change_pin_inv, get_token_inv,
      token_permissions_inv; apply hoare_Inv; rel_walk.
  Qed.

  Lemma clear_inv : hoare Inv (store e clear_pers)
    (fun y w => match y with Ok _ => wrong (w_log w) = 0%N /\ Inv w | Err _ => Inv w end).
  Proof.
    intros w Hw. apply St_Inv in Hw as (g & x & m & pin & r & HS & HK).
    pose proof (St_good _ _ _ _ _ _ HS) as (G1 & G2 & G3).
    assert (Z : after_pin pin None g = 0%N /\ after_pin pin None x = 0%N).
    { unfold after_pin. destruct pin as [[h n] | ]; cbn; [auto | ]. destruct (G2 eq_refl) as (-> & -> & _). auto. }
    refine (_ (hoare_store clear_pers g x m pin r 0%N 0%N None None _ _ _ _ w HS)); try apply Z.
    - destruct (store _ _ w) as [[u | s0] w']; cbn [fst snd].
      + intro H. split; [apply H | eapply Inv0; exact H].
      + intros [NF [H | H]]; [eapply Inv0; exact H | eapply Inv_St; [exact H | exact HK]].
    - intros q E1 E2. cbn. auto.
    - split; [cbn; lia | split; [auto | intros; lia]].
  Qed.

  Definition Zero (w : world) : Prop := wrong (w_log w) = 0%N /\ Inv w.
  Lemma frame_Zero w w' : fr Pk w w' -> Zero w -> Zero w'.
  Proof.
    intros F [H Hw]. split; [ | eapply frame_Inv; eassumption].
    destruct Hw as (W & HL & _). destruct (fr_log _ _ _ F) as (l & E & Fl).
    destruct (frame_log w l W HL Fl) as (_ & _ & B & _). rewrite E, B. exact H.
  Qed.
  Lemma reset_inv : hoare Inv (process_reset e) (fun _ => Inv).
  Proof.
    unfold process_reset. prefix. destruct a as [[] | ]; try (apply hoare_fail; auto).
    prefix.
    eapply hoare_bind with (Mid := fun _ => Zero).
    { unfold storage_reset. eapply hoare_bind with (Mid := fun _ => Zero); [exact clear_inv | ].
      intros _ w Hw. assert (R : rel Pk (internal (store e (set_master None)))) by rel_walk.
      pose proof (frame_Zero w _ (R w) Hw) as Q.
      destruct (fst (internal (store e (set_master None)) w)); [exact Q | apply Q]. }
    intros _.
    eapply hoare_bind with (Mid := fun _ => Inv); [ | intros _; apply hoare_Inv; rel_walk].
    unfold client_pin_reset.
    do 4 (apply hoare_prefix; [rel_walk | exact frame_Zero | intros ? ? []; auto | intros _]).
    eapply hoare_bind with (Mid := fun _ => Zero).
    { intros w [Hz (W & HL & HK)]. split; [exact Hz | ].
      split; [exact W | split; [exact HL | ]]. intro N. left. cbn. rewrite Hz. lia. }
    intros _ w [_ Hw].
    assert (Q : Inv (snd (mod_token (fun _ => token_init) w))) by (apply hoare_Inv; [rel_walk | exact Hw]).
    exact Q.
  Qed.

  (** Every operation. *)
  Lemma message_inv b ch : hoare Inv (process_command e b ch) (fun _ => Inv).
  Proof.
    unfold process_command. prefix. unfold process_parsed_command. do 3 prefix.
    apply hoare_prefix; [destruct (keeps a a2); rel_walk | eauto using frame_Inv | auto | intros _].
    destruct ch; [ | apply hoare_Inv; rel_walk].
    destruct a; cbn [process_fido_command]; try apply client_pin_inv; try apply reset_inv;
      apply hoare_Inv; rel_walk.
  Qed.
  Lemma run_op_inv o w : Inv w -> Inv (snd (run_op e o w)).
  Proof.
    intro H. destruct o as [b ch | b | ch b en | | d | n]; cbn [run_op].
    - pose proof (message_inv b ch w H) as Q. destruct (process_command e b ch w); exact Q.
    - assert (R : rel Pk (u2f_process e b)) by rel_walk.
      pose proof (frame_Inv _ _ (R w) H) as Q. destruct (u2f_process e b w); exact Q.
    - assert (R : rel Pk (after_vendor_response ch)) by rel_walk. cbn [snd].
      eapply frame_Inv; [apply R | ]. eapply frame_Inv; [ | exact H]. apply fr_write. reflexivity.
    - eapply frame_Inv; [ | exact H]. cbn [snd]. apply (rel_modify (E := status) Pk). reflexivity.
    - exact H.
    - cbn [snd]. eapply frame_Inv; [ | exact H]. apply fr_write. reflexivity.
  Qed.
  Lemma L_boot log : L log -> L (LEv EvBoot :: log).
  Proof.
    intro H. split; [ | exact H]. apply L_here in H. unfold here in *. cbn.
    destruct H as (A & B & C). split; [exact A | split; [ | intros; lia]]. intro Q.
    destruct (B Q) as (? & _ & ?). auto.
  Qed.
  Theorem run_inv h : Inv (run e h).
  Proof.
    apply (history_invariant e L K).
    - exact L_suffix.
    - apply L_boot. exact I.
    - exact L_boot.
    - intros w W H N. left. cbn. lia.
    - intros o w W H HK. destruct (run_op_inv o w) as (_ & A & B); [split; auto | auto].
  Qed.

  (** ** From the invariant to traces *)
  Lemma guesses_quiet l : forall log,
    Forall (fun i => match i with
                     | LEv (EvCompare ok) => ok = false
                     | LEv _ => True
                     | LWrite p => p_pin p = p_pin (last_write log)
                     end) l ->
    guesses (l ++ log) = (guesses log + N.of_nat (compares l))%N /\
    p_pin (last_write (l ++ log)) = p_pin (last_write log).
  Proof.
    induction l as [ | i l IH]; intros log F; cbn [app]; [cbn; split; [lia | auto] | ].
    inversion F as [ | ? ? Hi F']; subst. destruct (IH log F') as [A B].
    destruct i as [p | [ok | t a b | a b | | | ]]; cbn in Hi |- *.
    - rewrite B, Hi, pin_eqb_refl. auto.
    - subst ok. rewrite A. unfold compares. cbn. split; [lia | exact B].
    - auto.
    - auto.
    - auto.
    - auto.
    - auto.
  Qed.
  Lemma wrong_quiet l : forall log,
    Forall (fun i => match i with
                     | LEv (EvCompare ok) => ok = false
                     | LEv EvBoot => False
                     | LEv _ => True
                     | LWrite p => p_pin p = p_pin (last_write log)
                     end) l ->
    wrong (l ++ log) = (wrong log + N.of_nat (compares l))%N /\
    p_pin (last_write (l ++ log)) = p_pin (last_write log).
  Proof.
    induction l as [ | i l IH]; intros log F; cbn [app]; [cbn; split; [lia | auto] | ].
    inversion F as [ | ? ? Hi F']; subst. destruct (IH log F') as [A B].
    destruct i as [p | [ok | t a b | a b | | | ]]; cbn in Hi |- *.
    - rewrite B, Hi, pin_eqb_refl. auto.
    - subst ok. rewrite A. unfold compares. cbn. split; [lia | exact B].
    - auto.
    - auto.
    - auto.
    - auto.
    - contradiction.
  Qed.
  Lemma compares_rev l : compares (rev l) = compares l.
  Proof.
    unfold compares. induction l as [ | i l IH]; cbn; [reflexivity | ].
    rewrite filter_app, app_length, IH. cbn. destruct (is_compare i); cbn; lia.
  Qed.
  Lemma trace_split h t1 t2 t3 :
    trace e h = t1 ++ t2 ++ t3 -> w_log (run e h) = rev t3 ++ rev t2 ++ rev t1.
  Proof.
    unfold trace. intro H. rewrite <- (rev_involutive (w_log (run e h))), H, !rev_app_distr.
    now rewrite app_assoc.
  Qed.
  Theorem guesses_bounded h t1 t2 t3 :
    trace e h = t1 ++ t2 ++ t3 -> pin_quiet (p_pin (stored t1)) t2 ->
    (N.of_nat (compares t2) <= max)%N.
  Proof.
    intros E Q. apply trace_split in E. destruct (run_inv h) as (_ & H & _). rewrite E in H.
    apply L_suffix in H. apply L_here in H. destruct H as (H & _).
    destruct (guesses_quiet (rev t2) (rev t1)) as [A _].
    { apply Forall_rev. exact Q. }
    rewrite A, compares_rev in H. lia.
  Qed.
  Theorem mismatches_bounded h t1 t2 t3 :
    nofault -> trace e h = t1 ++ t2 ++ t3 -> one_cycle t2 -> pin_quiet (p_pin (stored t1)) t2 ->
    (compares t2 <= 3)%nat.
  Proof.
    intros N E O Q. apply trace_split in E. destruct (run_inv h) as (_ & H & _). rewrite E in H.
    apply L_suffix in H. apply L_here in H. destruct H as (_ & _ & H). specialize (H N).
    destruct (wrong_quiet (rev t2) (rev t1)) as [A _].
    { apply Forall_rev. unfold pin_quiet in Q. rewrite Forall_forall in *.
      intros i Hi. specialize (Q i Hi). destruct i as [p | []]; auto. }
    rewrite A, compares_rev in H. lia.
  Qed.
End Pin.
