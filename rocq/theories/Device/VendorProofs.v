(** The vendor command configure. *)
From Verif Require Import Base Facts Hid.Model U2f.Model Cbor.Model Cbor.Spec Cbor.Proofs4 Ctap.Crypto Ctap.Types Ctap.Machine
  Ctap.Commands Ctap.Parse Ctap.System Ctap.Logic Ctap.History Ctap.MinPin Ctap.NoPanic Cbor.Props U2f.Proofs Device.Vendor Device.VendorSpec.
From Coq Require Import Lia.

(** ** What the message says *)
Definition parse_message (W : N) (b : bytes) : res status (bool * option (bytes * bytes)) :=
  match b with
  | [] => Err INVALID_COMMAND
  | _ :: rest => v <- (match cbor_read W rest with Some v => Ok v | None => Err INVALID_CBOR end) ;; parse_configure v
  end.

Lemma fields2 W m : (W <= 64)%N -> value_ok W (VMap m) ->
  (forall v, fields m [vint 1; vint 2] 0 = Some v <-> In (VUnsigned 1, v) m) /\
  (forall v, fields m [vint 1; vint 2] 1 = Some v <-> In (VUnsigned 2, v) m).
Proof.
  intros HW Hm.
  assert (K : Forall (value_ok W) [vint 1; vint 2]).
  { repeat constructor; reflexivity. }
  assert (S : keys_sorted (map (fun k => (k, k)) [vint 1; vint 2])).
  { cbn. repeat constructor. }
  destruct (C05_destructure W m [vint 1; vint 2] HW Hm K S) as [L H].
  unfold fields. destruct (destructure m [vint 1; vint 2]) as [ | x [ | y [ | z l]]] eqn:E; try discriminate L.
  split; intro v; cbn [nth].
  - exact (H 0%nat (vint 1) x eq_refl eq_refl v).
  - exact (H 1%nat (vint 2) y eq_refl eq_refl v).
Qed.

(** What a well-formed message of the command stands for. *)
Lemma parse_message_spec W b lockdown material :
  (0 < W <= 64)%N -> bytes_ok b = true -> hd 0%N b = 0x40%N ->
  parse_message W b = Ok (lockdown, material) ->
  (lockdown = true <-> demands_lock W b) /\
  (forall key cert, material = Some (key, cert) <-> carries W b key cert).
Proof.
  intros [HW0 HW] Hb H0 H. destruct b as [ | c rest]; [discriminate | ]. cbn in H0. subst c.
  unfold parse_message in H. destruct (cbor_read W rest) as [v | ] eqn:Ev; [ | discriminate]. cbn [rbind] in H.
  assert (V : value_ok W v).
  { unfold cbor_read in Ev. destruct (read_nested W rest _) as [x | ] eqn:Er; [ | discriminate]. injection Ev as ->.
    cbn in Hb. apply andb_prop in Hb as [_ Hb]. exact (C03_reader_sorted W rest _ v (conj HW0 HW) Hb Er). }
  unfold parse_configure in H. destruct v as [ | | | | | m | | ]; try discriminate. cbn [extract_map rbind] in H. cbv zeta in H.
  destruct (fields2 W m HW V) as [F1 F2].
  assert (CF : forall m', configures W (0x40%N :: rest) m' -> m' = m).
  { intros m' (rest' & Er & Em). injection Er as <-. rewrite Ev in Em. injection Em as <-. reflexivity. }
  assert (CM : configures W (0x40%N :: rest) m) by (exists rest; auto).
  destruct (map_or false extract_bool (fields m [vint 1; vint 2] 0)) as [lk | ] eqn:EL; [ | discriminate]. cbn [rbind] in H.
  destruct (map_opt parse_material (fields m [vint 1; vint 2] 1)) as [mt | ] eqn:EM; [ | discriminate]. cbn [rbind] in H.
  injection H as <- <-. split.
  - split.
    + intros ->. exists m. split; [exact CM | ]. apply F1. unfold map_or in EL.
      destruct (fields m _ 0) as [[ | | | | | | | []] | ]; try discriminate. reflexivity.
    + intros (m' & Cm' & I). apply CF in Cm' as ->. apply F1 in I. rewrite I in EL. cbn in EL. congruence.
  - intros key cert. unfold map_opt in EM. destruct (fields m _ 1) as [v | ] eqn:Ef.
    + pose proof (proj1 (F2 v) eq_refl) as Iv.
      unfold parse_material in EM. destruct v as [ | | | | | a | | ]; try discriminate EM. cbn [extract_map rbind] in EM. cbv zeta in EM.
      assert (Va : value_ok W (VMap a)).
      { inversion V as [ | | | | | ? _ Fm _ | | ]; subst. rewrite Forall_forall in Fm. exact (proj2 (Fm _ Iv)). }
      destruct (fields2 W a HW Va) as [G1 G2].
      destruct (fields a [vint 1; vint 2] 0) as [x | ]; [ | discriminate]. cbn [ok_or_missing rbind] in EM.
      destruct x as [ | | x | | | | | ]; try discriminate EM. cbn [extract_byte_string rbind] in EM.
      destruct (fields a [vint 1; vint 2] 1) as [y | ]; [ | discriminate]. cbn [ok_or_missing rbind] in EM.
      destruct y as [ | | y | | | | | ]; try discriminate EM. cbn [extract_byte_string rbind] in EM.
      destruct (N.eqb_spec (Nlen y) 32) as [L | L]; [ | discriminate]. cbn [rbind] in EM. injection EM as <-.
      split.
      * intro E. injection E as -> ->. exists m, a. split; [exact CM | ]. split; [exact Iv | ].
        split; [now apply G1 | ]. split; [now apply G2 | ]. unfold Nlen in L. lia.
      * intros (m' & a' & Cm' & I1 & I2 & I3 & _). apply CF in Cm' as ->. apply F2 in I1. injection I1 as <-.
        apply G1 in I2. apply G2 in I3. congruence.
    + injection EM as <-. split; [discriminate | ]. intros (m' & a' & Cm' & I1 & _). apply CF in Cm' as ->.
      apply F2 in I1. discriminate.
Qed.

Section Proofs.
  Variable bd : board.
  Notation e := (b_env bd).
  Notation W := (c_width (e_cfg (b_env bd))).

  (** ** The effect of the command on the authenticator *)
  Lemma configure_world lockdown material w :
    let w' := snd ((let* r := configure bd lockdown material in lock_down lockdown r) w) in
    w_v w' = w_v w /\ (wf w -> wf w') /\
    exists l, w_log w' = l ++ w_log w /\
      ((l = [] \/ l = [LEv EvPresence]) /\ w_p w' = w_p w \/
       exists a, material = Some a /\ p_batch (w_p w) = None /\
         w_p w' = set_atts (Some a) (p_ent (w_p w)) (w_p w) /\ l = [LWrite (w_p w'); LEv EvPresence]).
  Proof.
    cbv zeta. unfold configure, lock_down, set_attestation, get_attestation, bind, check_user_presence, map_status, load, store, ret, guard, fail, emit.
    destruct material as [a | ]; destruct lockdown; cbn [orb];
      try (destruct (e_up e (w_up w)) as [[] d]; cbn [up_status snd fst]);
      cbn [w_op w_p w_v w_now w_rng w_up w_log];
      repeat (match goal with
              | |- context [e_fault e ?n] => destruct (e_fault e n) as [[[] []] | ]
              | |- context [p_batch ?p] => destruct (p_batch p) as [? | ] eqn:?
              end; cbn [fault_status attestation_status fst snd andb orb negb w_op w_p w_v w_now w_rng w_up w_log lock_firmware_protection]);
      (split; [reflexivity | split; [intro H; solve [exact H | reflexivity] | ]]);
      first [ exists []; split; [reflexivity | left; split; [left; reflexivity | reflexivity]]
            | exists [LEv EvPresence]; split; [reflexivity | left; split; [right; reflexivity | reflexivity]]
            | eexists [_; LEv EvPresence]; split; [reflexivity | right; exists a; repeat split; auto] ].
  Qed.

  (** ** One step *)
  Definition gives (d : deed) (a : bytes * bytes) : Prop :=
    exists b ch lockdown, d = Message b ch /\ takes_vendor bd ch /\ hd 0%N b = 0x40%N /\
      parse_message W b = Ok (lockdown, Some a).

  (** How a step changes the attestations. *)
  Definition moves (d : deed) (w w' : world) : Prop :=
    (wf w -> wf w') /\
    exists l, w_log w' = l ++ w_log w /\
      (Forall (fun i => match i with LWrite q => p_batch q = p_batch (w_p w) /\ p_ent q = p_ent (w_p w) | LEv _ => True end) l \/
       exists a q, gives d a /\ p_batch (w_p w) = None /\ q = set_atts (Some a) (p_ent (w_p w)) (w_p w) /\
         l = [LWrite q; LEv EvPresence]).
  Lemma moves_frame d w w' : fr Patt w w' -> moves d w w'.
  Proof.
    intro F. split; [exact (fr_wf _ _ _ F) | ]. destruct (fr_log _ _ _ F) as (l & E & Fl).
    exists l. split; [exact E | ]. left. eapply Forall_impl; [ | exact Fl].
    intros [q | ev]; cbn; [ | auto]. intro H. apply pair_equal_spec in H. exact H.
  Qed.

  Lemma att_process x ch : rel Patt (process_parsed_command e x ch).
  Proof. rel_walk; try (intro v; destruct (pi_proto _); cbn; auto). Qed.
  Lemma att_vendor ch : rel Patt (after_vendor_response ch).
  Proof. rel_walk. Qed.
  Lemma att_u2f b : rel Patt (u2f_process e b).
  Proof. rel_walk. Qed.
  Lemma att_message b ch w : fr Patt w (snd (run_op e (OpMessage b ch) w)).
  Proof.
    cbn [run_op]. unfold process_command, bind, lift.
    destruct (parse_command (e_cfg e) b) as [x | s]; [ | apply fr_refl].
    pose proof (att_process x ch w) as R. destruct (process_parsed_command e x ch w) as [r w']. exact R.
  Qed.

  Lemma world_with t w : t_world (with_world t w) = w.
  Proof. reflexivity. Qed.
  Lemma world_dead t : t_world (dead t) = t_world t.
  Proof. reflexivity. Qed.

  (** The hook. *)
  Lemma vendor_moves t b ch t' r : vendor_command bd t b ch = (t', r) ->
    moves (Message b ch) (t_world t) (t_world t') /\ w_v (t_world t') = w_v (t_world t) /\
    (r = None -> t_world t' = t_world t) /\ t_live t' = t_live t.
  Proof.
    unfold vendor_command.
    assert (Q : forall o, (t, o) = (t', r) ->
      moves (Message b ch) (t_world t) (t_world t') /\ w_v (t_world t') = w_v (t_world t) /\
      (r = None -> t_world t' = t_world t) /\ t_live t' = t_live t).
    { intros o E. injection E as <- _. split; [apply moves_frame, fr_refl | auto]. }
    assert (TV : (b_hid bd = false \/ exists c, ch = VendorHid c) -> takes_vendor bd ch).
    { intros [H | H] H'; [congruence | exact H]. }
    assert (M : takes_vendor bd ch ->
      (match b with
        | [] => (t, Some None)
        | cmd :: rest =>
            if (cmd =? 0x40)%N then
              match (v <- (match cbor_read W rest with Some v => Ok v | None => Err INVALID_CBOR end) ;;
                     parse_configure v) with
              | Err s => (t, Some (Some [status_code s]))
              | Ok (lockdown, material) =>
                  let '(r, w) := (let* r := configure bd lockdown material in lock_down lockdown r) (t_world t) in
                  (mkTock w (t_live t) (t_mem t) (t_n t),
                   Some (Some (match r with Ok r => configure_response r | Err s => [status_code s] end)))
              end
            else
              let '(m, r) := Upgrade.Model.vendor_message (b_prims bd) (b_flash bd (t_n t)) (t_mem t) (b_upgrade bd) b in
              (mkTock (t_world t) (t_live t) m (S (t_n t)), match r with Some x => Some (Some x) | None => None end)
        end) = (t', r) ->
      moves (Message b ch) (t_world t) (t_world t') /\ w_v (t_world t') = w_v (t_world t) /\
      (r = None -> t_world t' = t_world t) /\ t_live t' = t_live t).
    { intros T E. destruct b as [ | cmd rest]; [apply (Q _ E) | ].
      destruct (N.eqb_spec cmd 0x40) as [-> | _].
      - destruct (v <- _ ;; _) as [[lockdown material] | s] eqn:Ep; [ | apply (Q _ E)].
        destruct (configure_world lockdown material (t_world t)) as (V & Wf & l & El & D).
        destruct ((let* r := configure bd lockdown material in lock_down lockdown r) (t_world t)) as [x w'] eqn:Er.
        injection E as <- <-. cbn [snd] in *. cbn [t_world t_live].
        split; [ | split; [exact V | split; [discriminate | reflexivity]]].
        split; [exact Wf | ]. exists l. split; [exact El | ].
        destruct D as [[[-> | ->] _] | (a & -> & B & P & ->)].
        + left. constructor.
        + left. repeat constructor.
        + right. exists a, (w_p w'). split; [ | auto].
          exists (0x40%N :: rest), ch, lockdown. repeat split; auto.
      - destruct (Upgrade.Model.vendor_message _ _ _ _ _) as [m o]. injection E as <- <-. cbn [t_world t_live].
        split; [apply moves_frame, fr_refl | ]. split; [reflexivity | ]. split; reflexivity. }
    intro E. destruct (b_hid bd) eqn:Eh; [ | apply M; auto].
    destruct ch as [c | c]; [apply (Q _ E) | apply M; eauto].
  Qed.

  Lemma moves_after d w w1 w2 : moves d w w1 -> w_log w2 = w_log w1 -> (wf w1 -> wf w2) -> moves d w w2.
  Proof.
    intros (Wf & l & E & D) L Wf'. split; [auto | ]. exists l. rewrite L. auto.
  Qed.

  Lemma act_moves t d t' o : act bd t d = (t', o) -> moves d (t_world t) (t_world t').
  Proof.
    destruct d as [b ch | b | | d | n]; cbn [act].
    - unfold tock_message. destruct (vendor_command bd t b ch) as [t1 r] eqn:Ev.
      destruct (vendor_moves _ _ _ _ _ Ev) as (Mv & _ & N & _). destruct r as [[r | ] | ].
      + intro E. injection E as <- _. rewrite world_with. apply (moves_after _ _ _ _ Mv).
        * reflexivity.
        * exact (fr_wf _ _ _ (att_vendor ch (t_world t1))).
      + intro E. injection E as <- _. exact Mv.
      + rewrite (N eq_refl). pose proof (att_message b ch (t_world t)) as R.
        destruct (run_op e (OpMessage b ch) (t_world t)) as [o' w'] eqn:Eo. cbn [snd] in R.
        intro E. apply moves_frame.
        destruct o'; [destruct (response_bytes _ _) | | ]; injection E as <- _;
          rewrite ?world_dead, world_with; exact R.
    - pose proof (att_u2f b (t_world t)) as R. cbn [run_op].
      destruct (u2f_process e b (t_world t)) as [r w']. cbn [snd] in R. intro E. apply moves_frame.
      destruct r as [r | []]; injection E as <- _; rewrite ?world_dead, world_with; exact R.
    - intro E. injection E as <- _. rewrite world_with. apply moves_frame.
      apply (rel_modify (E := status) Patt). reflexivity.
    - intro E. injection E as <- _. rewrite world_with. apply moves_frame. cbn [run_op snd].
      split; cbn; auto; try lia. exists []; split; [reflexivity | constructor].
    - intro E. injection E as <- _. rewrite world_with. apply moves_frame. cbn [run_op snd].
      apply fr_write. reflexivity.
  Qed.

  (** Writes of a suffix of the log. *)
  Lemma last_write_app (Q : pers -> Prop) l log :
    Forall (fun i => match i with LWrite q => Q q | LEv _ => True end) l -> Q (last_write log) -> Q (last_write (l ++ log)).
  Proof.
    intros F H. induction F as [ | [q | ev] l Hi F IH]; cbn; auto.
  Qed.

  Lemma step_atts t x : wf (t_world t) ->
    let t' := tock_step bd t x in
    wf (t_world t') /\ p_ent (w_p (t_world t')) = p_ent (w_p (t_world t)) /\
    (p_batch (w_p (t_world t')) = p_batch (w_p (t_world t)) \/
     exists a l, t_live t = true /\ gives (fst x) a /\ p_batch (w_p (t_world t)) = None /\ p_batch (w_p (t_world t')) = Some a /\
       w_log (t_world t') = l ++ w_log (t_world t) /\ In (LEv EvPresence) l).
  Proof.
    intro Wt. cbv zeta. unfold tock_step.
    assert (A : exists t1, (if t_live t then fst (act bd t (fst x)) else t) = t1 /\
      (moves (fst x) (t_world t) (t_world t1)) /\ (t_live t = true \/ t1 = t)).
    { destruct (t_live t).
      - destruct (act bd t (fst x)) as [t1 o] eqn:E. exists t1. split; [reflexivity | ]. split; [exact (act_moves _ _ _ _ E) | auto].
      - exists t. split; [reflexivity | ]. split; [apply moves_frame, fr_refl | auto]. }
    destruct A as (t1 & -> & (Wf & l & El & D) & Lv).
    assert (LV : forall a q, l = [LWrite q; LEv EvPresence] -> gives (fst x) a -> t_live t = true).
    { intros a q E _. destruct Lv as [Lv | ->]; [exact Lv | ]. exfalso. subst l. apply (f_equal (@length item)) in El. cbn in El. lia. }
    assert (S : forall w', wf w' -> forall l1 l2 l3, l = l1 ++ l2 -> w_log w' = l3 ++ l2 ++ w_log (t_world t) ->
      (l3 = [] \/ l3 = [LEv EvBoot]) ->
      p_ent (w_p w') = p_ent (w_p (t_world t)) /\
      (p_batch (w_p w') = p_batch (w_p (t_world t)) \/
       exists a l', t_live t = true /\ gives (fst x) a /\ p_batch (w_p (t_world t)) = None /\ p_batch (w_p w') = Some a /\
         w_log w' = l' ++ w_log (t_world t) /\ In (LEv EvPresence) l')).
    { intros w' W' l1 l2 l3 E2 Ew E3. rewrite W', Ew.
      assert (LW : last_write (l3 ++ l2 ++ w_log (t_world t)) = last_write (l2 ++ w_log (t_world t)))
        by (destruct E3 as [-> | ->]; reflexivity).
      rewrite LW. destruct D as [F | (a & q & G & B & Eq & E)].
      - rewrite E2 in F. apply Forall_app in F as [_ F].
        assert (H : p_batch (last_write (l2 ++ w_log (t_world t))) = p_batch (w_p (t_world t)) /\
                    p_ent (last_write (l2 ++ w_log (t_world t))) = p_ent (w_p (t_world t))).
        { apply (last_write_app (fun q => p_batch q = p_batch (w_p (t_world t)) /\ p_ent q = p_ent (w_p (t_world t)))); [exact F | ].
          rewrite <- Wt. auto. }
        destruct H; auto.
      - pose proof (LV a q E G) as L1. rewrite E in E2.
        assert (l2 = [LWrite q; LEv EvPresence] \/ l2 = [LEv EvPresence] \/ l2 = []) as [-> | [-> | ->]].
        { destruct l1 as [ | i1 [ | i2 [ | i3 l1]]]; cbn in E2.
          - auto.
          - injection E2 as _ <-. auto.
          - injection E2 as _ _ <-. auto.
          - apply (f_equal (@length item)) in E2. cbn in E2. rewrite app_length in E2. cbn in E2. lia. }
        + cbn [app last_write]. subst q. split; [reflexivity | ]. right.
          exists a, (l3 ++ [LWrite (set_atts (Some a) (p_ent (w_p (t_world t))) (w_p (t_world t))); LEv EvPresence]).
          split; [exact L1 | ]. split; [exact G | ]. split; [exact B | ]. split; [reflexivity | ].
          split; [now rewrite <- app_assoc | ]. apply in_or_app. right. right. left. reflexivity.
        + cbn [app last_write]. rewrite <- Wt. auto.
        + cbn [app]. rewrite <- Wt. auto. }
    destruct (snd x) as [[n m] | ].
    - cbn [t_world]. split; [apply reboot_wf, lose_power_wf | ].
      set (k := Nat.min n (length (w_log (t_world t1)) - length (w_log (t_world t)))).
      apply (S _ (reboot_wf e _ (lose_power_wf n (t_world t) (t_world t1))) (firstn k l) (skipn k l) [LEv EvBoot]).
      + symmetry. apply firstn_skipn.
      + rewrite reboot_log. cbn [app]. f_equal. cbn [lose_power w_log]. fold k. rewrite El. rewrite skipn_app.
        assert (k <= length l)%nat as Hk by (unfold k; rewrite El, app_length; lia).
        replace (k - length l)%nat with 0%nat by lia. reflexivity.
      + auto.
    - split; [exact (Wf Wt) | ]. apply (S _ (Wf Wt) [] l []); auto.
  Qed.

  (** ** Histories *)
  Lemma tock_run_app m h h' : tock_run bd m (h ++ h') = fold_left (tock_step bd) h' (tock_run bd m h).
  Proof. apply fold_left_app. Qed.
  Lemma tock_run_snoc m h x : tock_run bd m (h ++ [x]) = tock_step bd (tock_run bd m h) x.
  Proof. apply tock_run_app. Qed.
  Lemma tock_wf m h : wf (t_world (tock_run bd m h)) /\ p_ent (w_p (t_world (tock_run bd m h))) = None.
  Proof.
    induction h as [ | x h IH] using rev_ind; [split; reflexivity | ].
    rewrite tock_run_snoc. destruct IH as [W0 E0].
    destruct (step_atts (tock_run bd m h) x W0) as (W1 & E1 & _). split; [exact W1 | congruence].
  Qed.
  Lemma batch_stays m h h' a : p_batch (w_p (t_world (tock_run bd m h))) = Some a ->
    p_batch (w_p (t_world (tock_run bd m (h ++ h')))) = Some a.
  Proof.
    intro H. induction h' as [ | x h' IH] using rev_ind; [now rewrite app_nil_r | ].
    rewrite app_assoc, tock_run_snoc.
    destruct (step_atts (tock_run bd m (h ++ h')) x (proj1 (tock_wf m _))) as (_ & _ & [E | (a' & l & _ & _ & B & _)]); congruence.
  Qed.

  (** ** Answers *)

  (** A CTAP1 message panics at most because of an attestation key that is no private key. *)
  Lemma u2f_calm b w : bytes_ok b = true -> keys_fit e (w_p w) -> fst (u2f_process e b w) <> Err SW_PANIC.
  Proof.
    intros Hb K. unfold u2f_process.
    assert (S : forall A B (m : M sw A) (k : A -> M sw B) w, never SW_PANIC m -> rel Patt m ->
              keys_fit e (w_p w) -> (forall a w1, keys_fit e (w_p w1) -> fst (k a w1) <> Err SW_PANIC) ->
              fst (bind m k w) <> Err SW_PANIC).
    { intros A B m k w0 N R K0 H. unfold bind. specialize (N w0). pose proof (fr_p _ _ _ (R w0)) as F.
      cbn in F. apply pair_equal_spec in F as [F1 F2].
      destruct (m w0) as [[a | s] w1]; cbn [fst snd] in *; [ | congruence].
      apply H. unfold keys_fit. rewrite F1, F2. exact K0. }
    apply S; [never_walk | rel_walk | exact K | ]. clear w K. intros always w K.
    apply S; [never_walk | rel_walk | exact K | ]. clear w K. intros _ w K.
    apply S; [ | rel_walk | exact K | ].
    { intros w0. cbn. apply U2f.Proofs.u2f_no_panic, Hb. }
    clear w K. intros x w K. destruct x as [challenge application | challenge application kh flags | | ].
    - apply S; [never_walk | rel_walk | exact K | ]. clear w K. intros ok w K.
      apply S; [never_walk | rel_walk | exact K | ]. clear w K. intros _ w K.
      unfold u2f_register. cbv zeta.
      apply S; [never_walk | rel_walk | exact K | ]. clear w K. intros k w K.
      apply S; [never_walk | rel_walk | exact K | ]. clear w K. intros _ w K.
      apply S; [never_walk | rel_walk | exact K | ]. clear w K. intros h w K.
      apply S; [never_walk | rel_walk | exact K | ]. clear w K. intros _ w K.
      unfold bind. assert (N : never SW_PANIC (map_status SW_PANIC attestation_sw (load e p_batch))) by never_walk.
      specialize (N w).
      destruct (map_status SW_PANIC attestation_sw (load e p_batch) w) as [[[[ak cert] | ] | s] w1] eqn:E;
        cbn [fst] in *; [ | discriminate | congruence].
      apply map_status_ok in E. apply load_ok in E as (E & _).
      assert (V : ecdsa_valid (e_prims e) ak = true) by (apply (K (ak, cert)); auto).
      rewrite V. discriminate.
    - apply S; [destruct flags; never_walk | destruct flags; rel_walk | exact K | ]. clear w K. intros _ w K.
      match goal with |- fst (?m w) <> _ => assert (N : never SW_PANIC m) by never_walk end. apply N.
    - discriminate.
    - discriminate.
  Qed.

  (** The messages that the firmware can take: not empty where vendor commands are taken, and with attestation keys that are
      private keys. *)
  Definition fit_message (b : bytes) (ch : channel) : Prop :=
    (takes_vendor bd ch -> b <> []) /\
    forall lockdown a, takes_vendor bd ch -> hd 0%N b = 0x40%N -> parse_message W b = Ok (lockdown, Some a) ->
      ecdsa_valid (e_prims e) (fst a) = true.
  Definition fit (d : deed) : Prop :=
    match d with Message b ch => fit_message b ch | U2f b => bytes_ok b = true | _ => True end.
  Definition good (t : tock) : Prop :=
    wf (t_world t) /\ all_writes (keys_fit e) (w_log (t_world t)) /\ blob_ok (w_v (t_world t)) /\ t_live t = true.

  Lemma calm_writes d w w' : fit d -> moves d w w' -> all_writes (keys_fit e) (w_log w) -> wf w -> all_writes (keys_fit e) (w_log w').
  Proof.
    intros Fd (_ & l & E & D) A Wf. rewrite E. apply all_writes_app; [ | exact A].
    assert (K : keys_fit e (w_p w)) by (rewrite Wf; apply all_writes_last, A).
    intros l1 q l2 El. destruct D as [F | (a & q' & (b & ch & lockdown & -> & T & H & P) & B & -> & E')].
    - rewrite El in F. apply Forall_elt in F. destruct F as [F1 F2]. unfold keys_fit. rewrite F1, F2. exact K.
    - rewrite E' in El. destruct l1 as [ | i1 [ | i2 l1]]; try discriminate El; [ | destruct l1; discriminate El].
      injection El as <- _. destruct Fd as [_ Fd]. intros x [Ex | Ex].
      + cbn in Ex. injection Ex as <-. exact (Fd _ _ T H P).
      + cbn in Ex. apply (K x). auto.
  Qed.

  Lemma vendor_answers t b ch t' : takes_vendor bd ch -> b <> [] -> vendor_command bd t b ch <> (t', Some None).
  Proof.
    intros T N E. unfold vendor_command in E.
    assert (M : match b with
        | [] => (t, Some None)
        | cmd :: rest =>
            if (cmd =? 0x40)%N then
              match (v <- (match cbor_read W rest with Some v => Ok v | None => Err INVALID_CBOR end) ;;
                     parse_configure v) with
              | Err s => (t, Some (Some [status_code s]))
              | Ok (lockdown, material) =>
                  let '(r, w) := (let* r := configure bd lockdown material in lock_down lockdown r) (t_world t) in
                  (mkTock w (t_live t) (t_mem t) (t_n t),
                   Some (Some (match r with Ok r => configure_response r | Err s => [status_code s] end)))
              end
            else
              let '(m, r) := Upgrade.Model.vendor_message (b_prims bd) (b_flash bd (t_n t)) (t_mem t) (b_upgrade bd) b in
              (mkTock (t_world t) (t_live t) m (S (t_n t)), match r with Some x => Some (Some x) | None => None end)
        end = (t', Some None)).
    { destruct (b_hid bd); [ | exact E]. destruct ch; [discriminate | exact E]. }
    clear E. destruct b as [ | cmd rest]; [congruence | ]. destruct (cmd =? 0x40)%N.
    - destruct (v <- _ ;; _) as [[lockdown material] | s]; [ | discriminate].
      destruct (bind _ _ _) as [r w]. discriminate.
    - destruct (Upgrade.Model.vendor_message _ _ _ _ _) as [m [o | ]]; discriminate.
  Qed.

  Lemma act_good t d : good t -> fit d ->
    good (fst (act bd t d)) /\ (forall b ch, d = Message b ch -> exists r, snd (act bd t d) = Some r).
  Proof.
    intros (Wf & A & B & L) Fd.
    assert (K : keys_fit e (w_p (t_world t))) by (rewrite Wf; apply all_writes_last, A).
    destruct (act bd t d) as [t' o] eqn:E. pose proof (act_moves _ _ _ _ E) as Mv. cbn [fst snd].
    assert (WA : wf (t_world t') /\ all_writes (keys_fit e) (w_log (t_world t'))).
    { split; [exact (proj1 Mv Wf) | exact (calm_writes _ _ _ Fd Mv A Wf)]. }
    assert (R : blob_ok (w_v (t_world t')) /\ t_live t' = true /\ (forall b ch, d = Message b ch -> exists r, o = Some r)).
    { clear Mv WA. destruct d as [b ch | b | | d | n]; cbn [act] in E.
      - unfold tock_message in E. destruct (vendor_command bd t b ch) as [t1 r] eqn:Ev.
        destruct (vendor_moves _ _ _ _ _ Ev) as (_ & V & N & L1). destruct r as [[r | ] | ].
        + injection E as <- <-. split; [unfold blob_ok; cbn; rewrite V; exact B | ]. cbn [with_world t_live].
          split; [congruence | eauto].
        + exfalso. destruct Fd as [Fd _]. destruct (b_hid bd) eqn:Eh.
          * destruct ch as [c | c]; [unfold vendor_command in Ev; rewrite Eh in Ev; discriminate | ].
            assert (T : takes_vendor bd (VendorHid c)) by (intro; eauto). exact (vendor_answers _ _ _ _ T (Fd T) Ev).
          * assert (T : takes_vendor bd ch) by (intro; congruence). exact (vendor_answers _ _ _ _ T (Fd T) Ev).
        + rewrite (N eq_refl) in E.
          destruct (op_calm e (OpMessage b ch) (t_world t) Logic.I K B) as (_ & B' & C). specialize (C b ch eq_refl).
          cbn [run_op] in *. destruct (process_command e b ch (t_world t)) as [r w']. cbn [fst snd] in *.
          assert (RB : exists x, response_bytes (e_cfg e) r = Some x).
          { unfold response_bytes. destruct r as [r | s].
            - destruct (response_value _ r) as [v | ]; [destruct (cbor_write v) | ]; eauto.
            - destruct s; try (eexists; reflexivity). congruence. }
          destruct RB as [x RB]. rewrite RB in E. injection E as <- <-. rewrite world_with. split; [exact B' | ].
          split; [cbn; congruence | eauto].
      - pose proof (u2f_calm b (t_world t) Fd K) as C.
        destruct (op_calm e (OpU2f b) (t_world t) Logic.I K B) as (_ & B' & _). cbn [run_op] in *.
        destruct (u2f_process e b (t_world t)) as [r w']. cbn [fst snd] in *.
        destruct r as [r | []]; try congruence; injection E as <- <-; rewrite world_with;
          (split; [exact B' | split; [exact L | discriminate]]).
      - injection E as <- <-. split; [exact B | split; [exact L | discriminate]].
      - injection E as <- <-. split; [exact B | split; [exact L | discriminate]].
      - injection E as <- <-. split; [exact B | split; [exact L | discriminate]]. }
    destruct WA, R as (? & ? & ?). split; [split; auto | assumption].
  Qed.

  Lemma step_good t x : good t -> fit (fst x) -> good (tock_step bd t x).
  Proof.
    intros G Fx. destruct (act_good t (fst x) G Fx) as [G1 _]. unfold tock_step.
    rewrite (proj2 (proj2 (proj2 G))). destruct (act bd t (fst x)) as [t1 o]. cbn [fst] in G1.
    destruct (snd x) as [[n m] | ]; [ | exact G1]. destruct G1 as (W1 & A1 & B1 & L1). split; [apply reboot_wf, lose_power_wf | ].
    cbn [t_world t_live]. split; [ | split; [left; reflexivity | reflexivity]].
    rewrite reboot_log. cbn [all_writes].
    destruct (lose_power_log n (t_world t) (t_world t1)) as (l' & E'). rewrite E' in A1.
    exact (all_writes_suffix _ _ _ A1).
  Qed.
  Lemma run_good m h : Forall (fun x => fit (fst x)) h -> good (tock_run bd m h).
  Proof.
    induction h as [ | x h IH] using rev_ind; intro F.
    - split; [reflexivity | ]. split; [ | split; [left; reflexivity | reflexivity]]. cbn. intros a [H | H]; discriminate.
    - apply Forall_app in F as [F Fx]. rewrite tock_run_snoc. apply step_good; [exact (IH F) | exact (Forall_inv Fx)].
  Qed.

  (** The answers of the command. *)
  Lemma configure_answers b ch t : takes_vendor bd ch -> hd 0%N b = 0x40%N -> t_live t = true ->
    match act bd t (Message b ch) with
    | (t', Some r) =>
        t_live t' = true /\ t_mem t' = t_mem t /\
        ((exists s, s <> 0%N /\ r = [s]) \/
         exists lockdown material, parse_message W b = Ok (lockdown, material) /\ lockdown = false /\
           r = let x := match p_batch (w_p (t_world t')) with Some _ => 0xF5%N | None => 0xF4%N end in [0; 0xA2; 1; x; 2; x]%N)
    | (_, None) => False
    end.
  Proof.
    intros T H0 L. destruct b as [ | c rest]; [discriminate | ]. cbn in H0. subst c.
    cbn [act]. unfold tock_message.
    assert (E : vendor_command bd t (0x40%N :: rest) ch =
      match parse_message W (0x40%N :: rest) with
      | Err s => (t, Some (Some [status_code s]))
      | Ok (lockdown, material) =>
          let '(r, w) := (let* r := configure bd lockdown material in lock_down lockdown r) (t_world t) in
          (mkTock w (t_live t) (t_mem t) (t_n t),
           Some (Some (match r with Ok r => configure_response r | Err s => [status_code s] end)))
      end).
    { unfold vendor_command. destruct (b_hid bd) eqn:Eh; [ | reflexivity]. destruct (T Eh) as [c ->]. reflexivity. }
    rewrite E. clear E. destruct (parse_message W (0x40%N :: rest)) as [[lockdown material] | s] eqn:Ep.
    2: { split; [exact L | ]. split; [reflexivity | ]. left. exists (status_code s). split; [ | reflexivity].
         assert (s <> Panic) as Hs.
         { intros ->. unfold parse_message in Ep.
           assert (C : calmly (v <- (match cbor_read W rest with Some v => Ok v | None => Err INVALID_CBOR end) ;; parse_configure v))
             by calmly_walk. exact (C Ep). }
         destruct s; try discriminate; congruence. }
    destruct ((let* r := configure bd lockdown material in lock_down lockdown r) (t_world t)) as [r w'] eqn:Er.
    cbn [t_live with_world t_mem]. split; [exact L | ]. split; [reflexivity | ].
    destruct r as [[x y] | s].
    2: { left. exists (status_code s). split; [ | reflexivity].
         assert (N : never Panic (let* r := configure bd lockdown material in lock_down lockdown r)) by never_walk.
         specialize (N (t_world t)). rewrite Er in N. cbn in N. destruct s; try discriminate; congruence. }
    right. exists lockdown, material. split; [reflexivity | ]. apply bind_ok in Er as (r & w1 & Ec & El).
    unfold lock_down in El. apply bind_ok in El as (u & w2 & Eg & El). apply guard_ok in Eg as [Eg ->].
    apply ret_ok in El as [<- ->]. unfold lock_firmware_protection in Eg. cbn [negb] in Eg. rewrite orb_true_r, andb_true_r in Eg.
    apply negb_true_iff in Eg. split; [exact Eg | ]. cbn [t_world].
    assert (X : x = y /\ x = match p_batch (w_p w1) with Some _ => true | None => false end).
    { unfold configure in Ec. apply bind_ok in Ec as (u1 & wa & Ea & Ec). apply bind_ok in Ec as (cur & wb & Eb & Ec).
      unfold get_attestation in Eb. apply map_status_ok in Eb. apply load_ok in Eb as (-> & Pb & _).
      destruct material as [a | ].
      - apply bind_ok in Ec as (u2 & wc & Es & Ec). apply ret_ok in Ec as [Ec ->]. injection Ec as -> ->.
        split; [reflexivity | ]. destruct (p_batch (w_p wa)) as [cur | ] eqn:Ec.
        + apply ret_ok in Es as [_ ->]. rewrite Pb, Ec. reflexivity.
        + unfold set_attestation in Es. apply map_status_ok in Es. apply store_ok in Es as (-> & _). reflexivity.
      - apply ret_ok in Ec as [Ec ->]. injection Ec as -> ->. rewrite Pb. auto. }
    destruct X as [<- X].
    replace (p_batch (w_p (t_world _))) with (p_batch (w_p w1)) by reflexivity.
    destruct (p_batch (w_p w1)); subst x; reflexivity.
  Qed.
End Proofs.
