(** Operations that do not emit certain events. *)
From Verif Require Import Base Facts Hid.Model U2f.Model Cbor.Model Ctap.Crypto Ctap.Types Ctap.Machine
  Ctap.Commands Ctap.Parse Ctap.System Ctap.Logic Ctap.History Ctap.Track Ctap.PinSpec Ctap.PinChange.
From Coq Require Import Lia.

(** Only events [ok] are emitted. *)
Definition only (ok : event -> Prop) : params := keep anyp anyv ok.

Lemma only_frame (ok : event -> Prop) P w w' : (forall ev, okE P ev -> ok ev) -> fr P w w' -> fr (only ok) w w'.
Proof.
  intros HP [(l & E & F) p v n u r W]. split; try reflexivity; auto.
  exists l. split; [exact E | ]. eapply Forall_impl; [ | exact F]. intros [q | ev]; cbn; auto.
Qed.

(** A prefix of a computation that keeps a fact [J] of the persistent state. *)
Section Prefix.
  Context {X : Type}.
  Variables (f : pers -> X) (J : X -> Prop) (ok : event -> Prop) (w0 : world).
  Definition Pre (w : world) : Prop := fr (only ok) w0 w /\ J (f (w_p w)).
  Lemma pre_keep {E B} (m : M E B) : rel (keep f anyv ok) m -> hoare Pre m (fun _ => Pre).
  Proof.
    intros R w [H1 H2]. split.
    - eapply fr_trans; [exact H1 | ]. eapply only_frame; [ | apply R]. auto.
    - pose proof (fr_p _ _ _ (R w)) as F. cbn in F. now rewrite F.
  Qed.
  Lemma pre_bind {E B D} (m : M E B) (k : B -> M E D) :
    rel (keep f anyv ok) m -> (forall b, hoare Pre (k b) (fun _ => fr (only ok) w0)) ->
    hoare Pre (bind m k) (fun _ => fr (only ok) w0).
  Proof.
    intros R Hk. eapply hoare_bind with (Mid := fun _ => Pre); [ | exact Hk].
    eapply hoare_post; [apply (pre_keep m R) | ]. intros [] w H; [exact H | apply H].
  Qed.
  Lemma pre_rel {E B} (m : M E B) : rel (only ok) m -> hoare Pre m (fun _ => fr (only ok) w0).
  Proof. intros R w [H _]. eapply fr_trans; [exact H | apply R]. Qed.
  Lemma after_rel {E B} (m : M E B) :
    rel (only ok) m -> hoare (fr (only ok) w0) m (fun _ => fr (only ok) w0).
  Proof. intros R w H. eapply fr_trans; [exact H | apply R]. Qed.
End Prefix.

(** ** At zero retries nothing is compared *)
Definition no_compare (ev : event) : Prop := match ev with EvCompare _ => False | _ => True end.

Section Zero.
  Variable e : env.
  Variable w0 : world.
  Notation I := (Pre (retries_of e) (fun n => n = 0%N) no_compare w0).
  Notation O := (fr (only no_compare) w0).

  Lemma zero_guard {B} (k : M status B) :
    hoare I (bind (pin_retries e) (fun r => bind (guard (negb (r =? 0)%N) PIN_BLOCKED) (fun _ => k)))
      (fun _ => O).
  Proof.
    eapply hoare_bind with (Mid := fun r w => I w /\ r = 0%N).
    { intros w Hw. pose proof (pre_keep _ _ _ w0 (pin_retries e) ltac:(rel_walk) w Hw) as Q.
      destruct (pin_retries e w) as [[r | s] w'] eqn:E; cbn [fst snd] in *; [ | apply Q].
      split; [exact Q | ]. apply load_ok in E as (-> & _). apply Hw. }
    intro r. apply hoare_fact_r. intros ->.
    eapply hoare_bind with (Mid := fun _ _ => False); [ | intros _ w []].
    intros w Hw. apply Hw.
  Qed.
  Lemma zero_token p : hoare I (process_get_pin_token e p) (fun _ => O).
  Proof.
    unfold process_get_pin_token.
    do 2 (apply pre_bind; [rel_walk | intro]).
    apply pre_bind; [destruct (pi_perms p), (pi_rp p); rel_walk | intro].
    apply zero_guard.
  Qed.
  Lemma zero_client_pin p : hoare I (process_client_pin e p) (fun _ => O).
  Proof.
    unfold process_client_pin. apply pre_bind; [rel_walk | intros _].
    eapply hoare_bind with (Mid := fun _ => O); [ | intro; apply after_rel; rel_walk].
    assert (H : hoare I (match pi_sub p with
              | PsRetries => get_pin_retries e
              | PsKeyAgreement => get_key_agreement e p
              | PsSetPin => process_set_pin e p
              | PsChangePin => process_change_pin e p
              | PsGetToken => process_get_pin_token e p
              | PsUvToken => fail INVALID_SUBCOMMAND
              | PsUvRetries => fail INVALID_SUBCOMMAND
              | PsTokenWithPermissions => process_token_with_permissions e p
              end) (fun _ => O)).
    { destruct (pi_sub p); try (apply pre_rel; rel_walk; fail).
      - unfold process_change_pin. do 4 (apply pre_bind; [rel_walk | intro]). apply zero_guard.
      - apply zero_token.
      - unfold process_token_with_permissions. do 3 (apply pre_bind; [rel_walk | intro]).
        eapply hoare_bind with (Mid := fun _ => O); [ | intro; apply after_rel; rel_walk].
        eapply hoare_post; [apply zero_token | ]. intros [] w H; exact H. }
    eapply hoare_post; [exact H | ]. intros [] w Hw; exact Hw.
  Qed.
End Zero.

Theorem zero_retries_no_compare e o w :
  retries_of e (w_p w) = 0%N -> fr (only no_compare) w (snd (run_op e o w)).
Proof.
  intro Hz.
  assert (OF : other_frame e (only no_compare)) by (split; try reflexivity; intros; rel_walk).
  destruct (run_op_other e _ o w OF) as [(b & ch & -> & ER) | F]; [ | exact F].
  rewrite ER. unfold process_command, bind, lift.
  destruct (parse_command (e_cfg e) b) as [x | s] eqn:Ep; [ | apply fr_refl].
  cbn [fst snd]. rewrite split_message. unfold bind.
  destruct (preamble_same x ch w) as (w1 & Q & Qp & Ql & Qn). 
  assert (Fp : fr (only no_compare) w w1).
  { assert (R : rel (only no_compare) (preamble x ch)).
    { unfold preamble. do 3 (apply rel_bind; [rel_walk | intro]).
      destruct (keeps x a1); rel_walk. }
    specialize (R w). rewrite Q in R. exact R. }
  rewrite Q. eapply fr_trans; [exact Fp | ].
  destruct ch; cbn [snd].
  2: { assert (R : rel (only no_compare) (process_vendor_command e x)) by (destruct x; rel_walk). apply R. }
  destruct x; cbn [process_fido_command];
    try (match goal with |- fr _ _ (snd (?m _)) => assert (R : rel (only no_compare) m) by rel_walk; apply R end).
  apply (zero_client_pin e w1). split; [apply fr_refl | rewrite Qp; exact Hz].
Qed.
Lemma only_compares w w' : fr (only no_compare) w w' -> compares (w_log w') = compares (w_log w).
Proof.
  intro F. destruct (fr_log _ _ _ F) as (l & E & H). rewrite E. unfold compares.
  rewrite filter_app, app_length. replace (filter is_compare l) with (@nil item); [reflexivity | ].
  symmetry. clear E. induction H as [ | i l Hi H IH]; [reflexivity | ].
  cbn. destruct i as [q | ev]; [exact IH | ]. destruct ev; cbn in *; try exact IH. destruct Hi.
Qed.
