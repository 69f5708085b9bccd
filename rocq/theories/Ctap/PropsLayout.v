(** Property theorems C29: storage keys. *)
From Verif Require Import Base Facts Hid.Model U2f.Model Cbor.Model Ctap.Crypto Ctap.Types Ctap.Machine
  Ctap.Commands Ctap.Parse Ctap.System Ctap.Seal Ctap.Layout Ctap.Toy.
From Verif Require Kv.Model Kv.Spec.
From Coq Require Import String List Lia.
Import ListNotations.
Open Scope list_scope.

(** No key belongs to two entries of the table of keys. *)
Theorem C29_disjoint : forall i j n1 r1 n2 r2 k,
  nth_error KEY_RANGES i = Some (n1, r1) -> nth_error KEY_RANGES j = Some (n2, r2) ->
  Kv.Spec.in_range r1 k -> Kv.Spec.in_range r2 k -> i = j.
Proof.
  intros i j n1 r1 n2 r2 k Hi Hj H1 H2.
  assert (Q : forallb (fun i => forallb (fun j => match nth_error KEY_RANGES i, nth_error KEY_RANGES j with
      | Some (_, a), Some (_, b) => (i =? j)%nat || (Kv.Model.r_end a <=? Kv.Model.r_start b)%N || (Kv.Model.r_end b <=? Kv.Model.r_start a)%N
      | _, _ => true end) (seq 0 (List.length KEY_RANGES))) (seq 0 (List.length KEY_RANGES)) = true) by (vm_compute; reflexivity).
  rewrite forallb_forall in Q. specialize (Q i). rewrite forallb_forall in Q.
  assert (Li : In i (seq 0 (List.length KEY_RANGES))).
  { apply in_seq. assert (i < List.length KEY_RANGES)%nat by (apply nth_error_Some; congruence). lia. }
  assert (Lj : In j (seq 0 (List.length KEY_RANGES))).
  { apply in_seq. assert (j < List.length KEY_RANGES)%nat by (apply nth_error_Some; congruence). lia. }
  specialize (Q Li j Lj). rewrite Hi, Hj in Q. destruct H1, H2. apply orb_true_iff in Q as [Q | Q]; [ | lia].
  apply orb_true_iff in Q as [Q | Q]; [now apply Nat.eqb_eq | lia].
Qed.
Print Assumptions C29_disjoint.

(** All keys are within the reserved part of the key space of the store. *)
Theorem C29_space : forall n r k, In (n, r) KEY_RANGES -> Kv.Spec.in_range r k ->
  Kv.Spec.in_range KEY_SPACE k /\ (k <= Kv.Model.MAX_KEY)%N.
Proof.
  intros n r k H [A B]. unfold Kv.Spec.in_range, Kv.Model.MAX_KEY. cbn in H.
  repeat destruct H as [H | H]; try contradiction; injection H as <- <-; cbn in *; lia.
Qed.
Print Assumptions C29_space.

(** Exactly the attestation, and what is left of the former AAGUID, survive a reset. *)
Theorem C29_survive : forall n r k m, In (n, r) KEY_RANGES -> Kv.Spec.in_range r k ->
  Kv.Model.kv_get (kv_clear NUM_PERSISTENT_KEYS m) k =
  if (String.eqb n "_RESERVED_ATTESTATION_STORE" || String.eqb n "_AAGUID")%bool then Kv.Model.kv_get m k else None.
Proof.
  intros n r k m H [A B]. rewrite clear_get. unfold NUM_PERSISTENT_KEYS. cbn in H.
  repeat destruct H as [H | H]; try contradiction; injection H as <- <-; cbn in A, B |- *;
    destruct (N.ltb_spec k 20); try reflexivity; lia.
Qed.
Print Assumptions C29_survive.

(** Whatever is written is written under keys of the table. *)
Theorem C29_named : forall c ed25519 W p w u, write_ok c ed25519 W p w -> In u (updates w) ->
  exists n r, In (n, r) KEY_RANGES /\ Kv.Spec.in_range r (Kv.Model.update_key u).
Proof.
  intros c ed25519 W p w u O H.
  assert (G : forall i x, nth_error KEY_RANGES i = Some x -> Kv.Spec.in_range (snd x) (Kv.Model.update_key u) ->
    exists n r, In (n, r) KEY_RANGES /\ Kv.Spec.in_range r (Kv.Model.update_key u)).
  { intros i [n r] Hi Hr. exists n, r. split; [eapply nth_error_In; eauto | exact Hr]. }
  destruct w as [h0 n | n | | n | l | b | | | [ | ] | n | k r b | k | x | | [[k x] | ] | ]; cbn [updates In] in H; cbn [write_ok] in O;
    repeat destruct H as [H | H]; try contradiction; subst u.
  - apply (G 12%nat _ eq_refl). cbn. split; vm_compute; [discriminate | reflexivity].
  - apply (G 7%nat _ eq_refl). cbn. split; vm_compute; [discriminate | reflexivity].
  - apply (G 11%nat _ eq_refl). cbn. split; vm_compute; [discriminate | reflexivity].
  - apply (G 11%nat _ eq_refl). cbn. split; vm_compute; [discriminate | reflexivity].
  - apply (G 10%nat _ eq_refl). cbn. split; vm_compute; [discriminate | reflexivity].
  - apply (G 9%nat _ eq_refl). cbn. split; vm_compute; [discriminate | reflexivity].
  - apply (G 7%nat _ eq_refl). cbn. split; vm_compute; [discriminate | reflexivity].
  - apply (G 6%nat _ eq_refl). cbn. split; vm_compute; [discriminate | reflexivity].
  - apply (G 5%nat _ eq_refl). cbn. split; vm_compute; [discriminate | reflexivity].
  - apply (G 5%nat _ eq_refl). cbn. split; vm_compute; [discriminate | reflexivity].
  - apply (G 14%nat _ eq_refl). cbn. split; vm_compute; [discriminate | reflexivity].
  - destruct O as [O _]. apply (G 3%nat _ eq_refl). unfold in_credentials in O. cbn. split; cbn; lia.
  - apply (G 3%nat _ eq_refl). unfold in_credentials in O. cbn. split; cbn; lia.
  - apply (G 13%nat _ eq_refl). cbn. split; vm_compute; [discriminate | reflexivity].
  - apply (G 13%nat _ eq_refl). cbn. split; vm_compute; [discriminate | reflexivity].
  - apply (G 0%nat _ eq_refl). cbn. split; vm_compute; [discriminate | reflexivity].
  - apply (G 0%nat _ eq_refl). cbn. split; vm_compute; [discriminate | reflexivity].
  - apply (G 0%nat _ eq_refl). cbn. split; vm_compute; [discriminate | reflexivity].
  - apply (G 0%nat _ eq_refl). cbn. split; vm_compute; [discriminate | reflexivity].
Qed.
Print Assumptions C29_named.

(** No field of the state disturbs another: each write of the authenticator changes what is read back
    by exactly that write.  A failed write changes nothing. *)
Fixpoint writes_ok (c : prims) (ed25519 : bool) (W : N) (p : pers) (l : list write) : Prop :=
  match l with
  | [] => True
  | w :: l' => write_ok c ed25519 W p w /\ writes_ok c ed25519 W (pers_write w p) l'
  end.
Fixpoint kv_writes (L : Kv.Model.limits) (m : Kv.Model.kv) (l : list write) : res Kv.Model.store_error Kv.Model.kv :=
  match l with
  | [] => Ok m
  | w :: l' => m' <- kv_write L None m w ;; kv_writes L m' l'
  end.
Theorem C29_fields : forall c ed25519 W L l m p m',
  prims_ok c -> W = 32%N \/ W = 64%N -> (1 <= Kv.Model.max_value_len L)%N ->
  reads_as c ed25519 W m p -> writes_ok c ed25519 W p l ->
  kv_writes L m l = Ok m' ->
  reads_as c ed25519 W m' (fold_left (fun p w => pers_write w p) l p).
Proof.
  intros c ed W L l. induction l as [ | w l IH]; intros m p m' K HW HL R O T; cbn in *; [injection T as <-; exact R | ].
  destruct (kv_write L None m w) as [m1 | ] eqn:E; [ | discriminate]. cbn in T. destruct O as [O1 O2].
  eapply IH; eauto. eapply write_refines; eauto.
Qed.
Print Assumptions C29_fields.

(** From an empty store: attestation, PIN, flags, a credential, a large blob array in two fragments,
    then a reset. *)
Definition toy_mk : bytes := repeat 3%N 128.
Definition toy_cred : cred :=
  mkCred [1%N] (mkPriv Es256 (repeat 9%N 32)) (str "rp") [2%N] (Some (str "d")) None 7 None None None None.
Definition toy_value : bytes :=
  match serialize_credential toy_prims (mk_encryption toy_mk) (repeat 4%N 16) toy_cred with Ok b => b | Err _ => [] end.
Definition toy_writes : list write :=
  [WAttestation (Some (repeat 1%N 32, [2%N])); WPin (repeat 5%N 16) 4; WForce; WRetries 7; WRpIds [str "a"; str "b"];
   WMaster toy_mk; WCred 1700 toy_cred toy_value; WBlob (repeat 6%N 300); WCounter 70000; WAlwaysUv true].
Example C29_nonvacuous :
  writes_ok toy_prims true 32 pers_init toy_writes /\
  reads_as toy_prims true 32 [] pers_init /\
  exists m, kv_writes (Kv.Model.mkLimits 200 1000) [] toy_writes = Ok m /\
    rd_creds toy_prims true 32 (mk_encryption toy_mk) m = Some [(1700%N, toy_cred)] /\
    map fst m = [1; 2; 2045; 2040; 2044; 2042; 2046; 1700; 2000; 2001; 2047; 2038]%N /\
    map fst (kv_clear NUM_PERSISTENT_KEYS m) = [1; 2]%N.
Proof.
  split; [ | split].
  - cbn [writes_ok toy_writes write_ok].
    assert (T0 : forall b, bytes_ok b = true -> utf8_valid b = true -> (List.length b < 100)%nat -> text_ok 32 b).
    { intros b B U L. repeat split; auto. unfold Nlen. change (2 ^ 32)%N with 4294967296%N. lia. }
    assert (B0 : forall b, bytes_ok b = true -> (List.length b < 100)%nat -> blob_ok 32 b).
    { intros b O L. split; auto. unfold Nlen. change (2 ^ 32)%N with 4294967296%N. lia. }
    assert (C : cred_ok 32 true toy_cred).
    { split; cbn [toy_cred cr_id cr_key cr_rp cr_user cr_display cr_policy cr_order cr_name cr_icon cr_blob cr_lbkey];
        try (intros a E; first [discriminate E | injection E as <-]); try apply T0; try apply B0; try reflexivity;
        try (vm_compute; lia); repeat split; discriminate. }
    split; [reflexivity | ]. split; [reflexivity | ]. split; [exact Logic.I | ]. split; [exact Logic.I | ].
    split. { split; [ | reflexivity]. repeat constructor; try reflexivity. }
    split; [split; reflexivity | ]. split.
    { split; [reflexivity | ]. exists toy_mk, (repeat 4%N 16). split; [reflexivity | ]. split; [reflexivity | ].
      split; [reflexivity | ]. split; [exact C | ]. vm_compute. reflexivity. }
    split; [discriminate | ]. split; [reflexivity | ]. split; exact Logic.I.
  - split; try reflexivity; [constructor | ]. cbn. auto.
  - eexists. split; [vm_compute; reflexivity | ]. split; [vm_compute; reflexivity | ]. split; reflexivity.
Qed.
