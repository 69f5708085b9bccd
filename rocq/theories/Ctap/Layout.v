(** Where the authenticator keeps its persistent state: storage.rs, key_store.rs and
    attestation_store.rs on the key-value store. *)
From Verif Require Import Base Facts Hid.Model U2f.Model Cbor.Model Cbor.Spec Cbor.Proofs Cbor.Proofs2
  Cbor.Proofs3 Cbor.Proofs4 Cbor.Props Ctap.Crypto Ctap.Types Ctap.Machine.
From Verif Require Kv.Model Kv.Spec Kv.Proofs Kv.Props.
From Verif.Ctap Require Import Seal.
From Coq Require Import String List Lia.
Import ListNotations.
Open Scope list_scope.

(** ** The keys (storage/key.rs) *)

(** key.rs 17: the keys below survive a reset. *)
Definition NUM_PERSISTENT_KEYS : N := 20.
(** key.rs 54-128: make_partition, with all features compiled in; a single key is a range of one. *)
Definition KEY_RANGES : list (string * Kv.Model.range) :=
  [ ("_RESERVED_ATTESTATION_STORE", Kv.Model.mkRange 1 3);
    ("_AAGUID", Kv.Model.mkRange 3 4);
    ("_RESERVED_CREDENTIALS", Kv.Model.mkRange 1000 1700);
    ("CREDENTIALS", Kv.Model.mkRange 1700 2000);
    ("LARGE_BLOB_SHARDS", Kv.Model.mkRange 2000 2004);
    ("ALWAYS_UV", Kv.Model.mkRange 2038 2039);
    ("ENTERPRISE_ATTESTATION", Kv.Model.mkRange 2039 2040);
    ("FORCE_PIN_CHANGE", Kv.Model.mkRange 2040 2041);
    ("_CRED_RANDOM_SECRET", Kv.Model.mkRange 2041 2042);
    ("MIN_PIN_LENGTH_RP_IDS", Kv.Model.mkRange 2042 2043);
    ("MIN_PIN_LENGTH", Kv.Model.mkRange 2043 2044);
    ("PIN_RETRIES", Kv.Model.mkRange 2044 2045);
    ("PIN_PROPERTIES", Kv.Model.mkRange 2045 2046);
    ("_RESERVED_KEY_STORE", Kv.Model.mkRange 2046 2047);
    ("GLOBAL_SIGNATURE_COUNTER", Kv.Model.mkRange 2047 2048) ]%string%N.
Definition KEY_SPACE : Kv.Model.range := Kv.Model.mkRange 1 2048.

Definition CREDENTIALS : Kv.Model.range := Kv.Model.mkRange 1700 2000.
Definition LARGE_BLOB_SHARDS : Kv.Model.range := Kv.Model.mkRange 2000 2004.
Definition ALWAYS_UV : N := 2038.
Definition ENTERPRISE_ATTESTATION : N := 2039.
Definition FORCE_PIN_CHANGE : N := 2040.
Definition MIN_PIN_LENGTH_RP_IDS : N := 2042.
Definition MIN_PIN_LENGTH : N := 2043.
Definition PIN_RETRIES : N := 2044.
Definition PIN_PROPERTIES : N := 2045.
Definition KEY_STORE : N := 2046.                   (* key_store.rs 126: STORAGE_KEY *)
Definition GLOBAL_SIGNATURE_COUNTER : N := 2047.
Definition PRIVATE_KEY_STORAGE_KEY : N := 1.        (* attestation_store.rs 58, 100-101 *)
Definition CERTIFICATE_STORAGE_KEY : N := 2.

(** ** Reading *)
Section Layout.
  Variable c : prims.
  Variable ed25519 : bool.
  Variable W : N.

  (** storage.rs 433-439, 456-462, 485-489: flags. *)
  Definition rd_flag (m : Kv.Model.kv) (k : N) : res status bool :=
    match Kv.Model.kv_get m k with
    | None => Ok false
    | Some [] => Ok true
    | Some _ => Err VENDOR_INTERNAL_ERROR
    end.
  (** storage.rs 313-319, 337-343: one byte; [None] stands for the default. *)
  Definition rd_byte (m : Kv.Model.kv) (k : N) : res status (option N) :=
    match Kv.Model.kv_get m k with
    | None => Ok None
    | Some [n] => Ok (Some n)
    | Some _ => Err VENDOR_INTERNAL_ERROR
    end.
  (** storage.rs 261-275: pin_properties. *)
  Definition rd_pin (m : Kv.Model.kv) : res status (option (bytes * N)) :=
    match Kv.Model.kv_get m PIN_PROPERTIES with
    | None => Ok None
    | Some v => if Nat.eqb (List.length v) 17 then Ok (Some (tl v, hd 0%N v)) else Err VENDOR_INTERNAL_ERROR
    end.
  (** storage.rs 239-245: global_signature_counter; the targets are little-endian. *)
  Definition rd_counter (m : Kv.Model.kv) : res status (option N) :=
    match Kv.Model.kv_get m GLOBAL_SIGNATURE_COUNTER with
    | None => Ok None
    | Some v => if Nat.eqb (List.length v) 4 then Ok (Some (of_be (rev v))) else Err VENDOR_INTERNAL_ERROR
    end.
  (** storage.rs 353-360, 616-624: min_pin_length_rp_ids. *)
  Definition rpids_of_bytes (b : bytes) : option (list bytes) :=
    match cbor_read W b with
    | None => None
    | Some v =>
        match extract_array v with
        | Err _ => None
        | Ok l =>
            fold_right (fun x acc => match extract_text_string x, acc with Ok t, Some r => Some (t :: r) | _, _ => None end)
              (Some []) l
        end
    end.
  Definition rd_rpids (m : Kv.Model.kv) : option (list bytes) :=
    match Kv.Model.kv_get m MIN_PIN_LENGTH_RP_IDS with
    | None => None
    | Some b => Some (match rpids_of_bytes b with Some l => l | None => [] end)
    end.
  (** key_store.rs 260-270: get_master_keys. *)
  Definition rd_master (m : Kv.Model.kv) : res status (option bytes) :=
    match Kv.Model.kv_get m KEY_STORE with
    | None => Ok None
    | Some v => if (Nlen v =? 128)%N then Ok (Some v) else Err VENDOR_INTERNAL_ERROR
    end.
  (** attestation_store.rs 60-76: helper_get. *)
  Definition rd_attestation (m : Kv.Model.kv) : res status (option (bytes * bytes)) :=
    match Kv.Model.kv_get m PRIVATE_KEY_STORAGE_KEY, Kv.Model.kv_get m CERTIFICATE_STORAGE_KEY with
    | None, None => Ok None
    | Some k, Some x => if (Nlen k =? 32)%N then Ok (Some (k, x)) else Err VENDOR_INTERNAL_ERROR
    | _, _ => Err VENDOR_INTERNAL_ERROR
    end.
  (** storage.rs 565-591: IterCredentials::next, all items; [None] when a value does not read. *)
  Definition in_credentials (k : N) : bool := ((1700 <=? k) && (k <? 2000))%N.
  Fixpoint rd_creds (wk : bytes) (m : Kv.Model.kv) : option (list (N * cred)) :=
    match m with
    | [] => Some []
    | (k, v) :: m' =>
        if in_credentials k then
          match deserialize_credential c ed25519 W wk v, rd_creds wk m' with
          | Some r, Some l => Some ((k, r) :: l)
          | _, _ => None
          end
        else rd_creds wk m'
    end.

  (** The content [m] of the store reads as the state [p].  The attestation of [p_ent] belongs to the
      environment. *)
  Record reads_as (m : Kv.Model.kv) (p : pers) : Prop := mkReadsAs {
    ra_wf : Kv.Spec.kv_wf m;
    ra_pin : rd_pin m = Ok (p_pin p);
    ra_retries : rd_byte m PIN_RETRIES = Ok (p_retries p);
    ra_force : rd_flag m FORCE_PIN_CHANGE = Ok (p_force p);
    ra_minlen : rd_byte m MIN_PIN_LENGTH = Ok (p_minlen p);
    ra_rpids : rd_rpids m = p_rpids p;
    ra_ep : rd_flag m ENTERPRISE_ATTESTATION = Ok (p_ep p);
    ra_uv : rd_flag m ALWAYS_UV = Ok (p_uv p);
    ra_counter : rd_counter m = Ok (p_counter p);
    ra_blob : Kv.Model.frag_read m LARGE_BLOB_SHARDS = Ok (p_blob p);
    ra_master : rd_master m = Ok (p_master p);
    ra_batch : rd_attestation m = Ok (p_batch p);
    ra_creds : match p_master p with
               | Some mk => rd_creds (mk_encryption mk) m = Some (p_creds p)
               | None => p_creds p = [] /\ forall wk, rd_creds wk m = Some []
               end
  }.

  (** ** Writing *)

  (** What storage.rs, key_store.rs and attestation_store.rs write. *)
  Inductive write :=
  | WPin (h : bytes) (n : N)              (* storage.rs 294-310: set_pin *)
  | WRetries (n : N)                      (* 322-329: decr_pin_retries *)
  | WResetRetries                         (* 332-334: reset_pin_retries *)
  | WMinLen (n : N)                       (* 347-349: set_min_pin_length *)
  | WRpIds (l : list bytes)               (* 364-372: set_min_pin_length_rp_ids, the insertion *)
  | WBlob (b : bytes)                     (* 409-420: commit_large_blob_array *)
  | WForce                                (* 443-445: force_pin_change *)
  | WEnterprise                           (* 467-478: enable_enterprise_attestation *)
  | WAlwaysUv (on : bool)                 (* 494-503: toggle_always_uv *)
  | WCounter (n : N)                      (* 248-258: incr_global_signature_counter *)
  | WCred (k : N) (r : cred) (b : bytes)  (* 121-165, 182-194: a credential, serialised *)
  | WRemoveCred (k : N)                   (* 172-175: delete_credential *)
  | WMaster (x : bytes)                   (* key_store.rs 264-269: new master keys *)
  | WMasterReset                          (* key_store.rs 238-241: reset *)
  | WAttestation (a : option (bytes * bytes))  (* attestation_store.rs 78-98: helper_set *)
  | WReset.                               (* storage.rs 425-426: Store::clear *)

  Definition rpids_to_bytes (l : list bytes) : bytes :=
    match cbor_write (VArray (map VText l)) with Some b => b | None => [] end.

  (** store.rs 351-371: clear, on the content. *)
  Definition kv_clear (min_key : N) (m : Kv.Model.kv) : Kv.Model.kv := filter (fun x => (fst x <? min_key)%N) m.

  Definition updates (w : write) : list Kv.Model.update :=
    match w with
    | WPin h n => [Kv.Model.UInsert PIN_PROPERTIES (n :: h); Kv.Model.URemove FORCE_PIN_CHANGE]
    | WRetries n => [Kv.Model.UInsert PIN_RETRIES [n]]
    | WResetRetries => [Kv.Model.URemove PIN_RETRIES]
    | WMinLen n => [Kv.Model.UInsert MIN_PIN_LENGTH [n]]
    | WRpIds l => [Kv.Model.UInsert MIN_PIN_LENGTH_RP_IDS (rpids_to_bytes l)]
    | WForce => [Kv.Model.UInsert FORCE_PIN_CHANGE []]
    | WEnterprise => [Kv.Model.UInsert ENTERPRISE_ATTESTATION []]
    | WAlwaysUv true => [Kv.Model.UInsert ALWAYS_UV []]
    | WAlwaysUv false => [Kv.Model.URemove ALWAYS_UV]
    | WCounter n => [Kv.Model.UInsert GLOBAL_SIGNATURE_COUNTER (rev (be_bytes 4 n))]
    | WCred k r b => [Kv.Model.UInsert k b]
    | WRemoveCred k => [Kv.Model.URemove k]
    | WMaster x => [Kv.Model.UInsert KEY_STORE x]
    | WMasterReset => [Kv.Model.URemove KEY_STORE]
    | WAttestation None => [Kv.Model.URemove PRIVATE_KEY_STORAGE_KEY; Kv.Model.URemove CERTIFICATE_STORAGE_KEY]
    | WAttestation (Some (k, x)) =>
        [Kv.Model.UInsert PRIVATE_KEY_STORAGE_KEY k; Kv.Model.UInsert CERTIFICATE_STORAGE_KEY x]
    | WBlob _ | WReset => []
    end.
  Definition kv_write (L : Kv.Model.limits) (fault : option Kv.Model.store_error) (m : Kv.Model.kv) (w : write) : res Kv.Model.store_error Kv.Model.kv :=
    match w with
    | WBlob b => Kv.Model.frag_write L fault m LARGE_BLOB_SHARDS b
    | WReset => match fault with Some x => Err x | None => Ok (kv_clear NUM_PERSISTENT_KEYS m) end
    | _ => Kv.Model.transaction L fault m (updates w)
    end.
  (** The same on the state of the authenticator (Machine.v). *)
  Definition pers_write (w : write) (p : pers) : pers :=
    match w with
    | WPin h n => set_force false (set_pin_props (Some (h, n)) p)
    | WRetries n => set_retries (Some n) p
    | WResetRetries => set_retries None p
    | WMinLen n => set_minlen (Some n) p
    | WRpIds l => set_rpids (Some l) p
    | WBlob b => set_blob (Some b) p
    | WForce => set_force true p
    | WEnterprise => set_ep true p
    | WAlwaysUv on => set_uv on p
    | WCounter n => set_counter (Some n) p
    | WCred k r _ => insert_cred k r p
    | WRemoveCred k => remove_cred k p
    | WMaster x => set_master (Some x) p
    | WMasterReset => set_master None p
    | WAttestation a => set_atts a (p_ent p) p
    | WReset => clear_pers p
    end.
  (** What the authenticator writes: values of the types and lengths of the source, credentials under
      keys of their range and sealed with the current master keys, no other master keys while there
      are credentials. *)
  Definition write_ok (p : pers) (w : write) : Prop :=
    match w with
    | WPin h n => List.length h = 16%nat
    | WRpIds l => Forall (text_ok W) l /\ (Nlen l < 2 ^ 64)%N
    | WBlob b => b <> []
    | WCounter n => (n < 2 ^ 32)%N
    | WCred k r b => in_credentials k = true /\ exists mk iv, p_master p = Some mk /\ List.length iv = 16%nat /\
        bytes_ok iv = true /\ cred_ok W ed25519 r /\ serialize_credential c (mk_encryption mk) iv r = Ok b
    | WRemoveCred k => in_credentials k = true
    | WMaster x => p_master p = None /\ Nlen x = 128%N
    | WMasterReset => p_creds p = []
    | WAttestation (Some (k, x)) => Nlen k = 32%N
    | _ => True
    end.

  (** ** Proofs *)
  Hypothesis ok : prims_ok c.
  Hypothesis HW : W = 32%N \/ W = 64%N.

  Notation get := Kv.Model.kv_get.
  Lemma creds_remove_other m k wk : in_credentials k = false -> rd_creds wk (Kv.Model.kv_remove m k) = rd_creds wk m.
  Proof.
    intro H. unfold Kv.Model.kv_remove. induction m as [ | [k' v] m IH]; [reflexivity | ].
    cbn [filter fst rd_creds]. destruct (N.eqb_spec k' k) as [-> | Nk]; cbn [negb].
    - rewrite H. exact IH.
    - cbn [rd_creds]. now rewrite IH.
  Qed.
  Lemma creds_remove m k wk : forall l, rd_creds wk m = Some l ->
    rd_creds wk (Kv.Model.kv_remove m k) = Some (filter (fun x => negb (fst x =? k)%N) l).
  Proof.
    unfold Kv.Model.kv_remove. induction m as [ | [k' v] m IH]; intros l H; cbn [rd_creds] in H; [injection H as <-; reflexivity | ].
    cbn [filter fst]. destruct (in_credentials k') eqn:I.
    - destruct (deserialize_credential c ed25519 W wk v) as [r | ] eqn:D; [ | discriminate].
      destruct (rd_creds wk m) as [l' | ]; [ | discriminate]. injection H as <-. cbn [filter fst].
      destruct (negb (k' =? k)%N); [ | now apply IH]. cbn [rd_creds]. rewrite I, D, (IH l' eq_refl). reflexivity.
    - specialize (IH l H). destruct (negb (k' =? k)%N); [ | exact IH]. cbn [rd_creds]. now rewrite I.
  Qed.
  Lemma creds_app m1 m2 wk l1 l2 : rd_creds wk m1 = Some l1 -> rd_creds wk m2 = Some l2 ->
    rd_creds wk (m1 ++ m2) = Some (l1 ++ l2).
  Proof.
    intros H1 H2. revert l1 H1. induction m1 as [ | [k v] m IH]; intros l1 H1; cbn [rd_creds app] in *; [injection H1 as <-; exact H2 | ].
    destruct (in_credentials k); [ | now apply IH].
    destruct (deserialize_credential c ed25519 W wk v); [ | discriminate].
    destruct (rd_creds wk m) as [l' | ]; [ | discriminate]. injection H1 as <-. now rewrite (IH l' eq_refl).
  Qed.
  Lemma creds_app_out m k v wk : in_credentials k = false -> rd_creds wk (m ++ [(k, v)]) = rd_creds wk m.
  Proof.
    intro H. induction m as [ | [k' v'] m IH]; cbn [rd_creds app]; [now rewrite H | ]. now rewrite IH.
  Qed.
  Lemma creds_insert_other m k v wk : in_credentials k = false -> rd_creds wk (Kv.Model.kv_insert m k v) = rd_creds wk m.
  Proof. intro H. unfold Kv.Model.kv_insert. rewrite creds_app_out by exact H. now apply creds_remove_other. Qed.
  Lemma creds_ext wk m m' : map (fun x => x) (filter (fun x => in_credentials (fst x)) m) = filter (fun x => in_credentials (fst x)) m' ->
    rd_creds wk m = rd_creds wk m'.
  Proof.
    rewrite map_id.
    assert (Q : forall m, rd_creds wk (filter (fun x => in_credentials (fst x)) m) = rd_creds wk m).
    { clear. induction m as [ | [k v] m IH]; [reflexivity | ]. cbn [filter fst rd_creds].
      destruct (in_credentials k) eqn:E; [cbn [rd_creds]; now rewrite E, IH | exact IH]. }
    intro H. now rewrite <- (Q m), <- (Q m'), H.
  Qed.

  Lemma creds_nil m wk : rd_creds wk m = Some [] -> forall wk', rd_creds wk' m = Some [].
  Proof.
    induction m as [ | [k v] m IH]; [reflexivity | ]. cbn [rd_creds]. destruct (in_credentials k); [ | exact IH].
    destruct (deserialize_credential c ed25519 W wk v); [ | discriminate]. destruct (rd_creds wk m); discriminate.
  Qed.
  Lemma creds_updates wk us : forall m, Forall (fun u => in_credentials (Kv.Model.update_key u) = false) us ->
    rd_creds wk (fold_left Kv.Model.apply_update us m) = rd_creds wk m.
  Proof.
    induction us as [ | u us IH]; intros m F; [reflexivity | ]. inversion F; subst. cbn [fold_left]. rewrite IH by assumption.
    destruct u; cbn [Kv.Model.apply_update Kv.Model.update_key] in *; [now apply creds_insert_other | now apply creds_remove_other].
  Qed.
  Lemma blob_updates r todo : forall pos hs cs us rest, Kv.Model.write_loop r todo pos hs cs = (us, rest) ->
    Forall (fun u => (Kv.Model.r_start r <= Kv.Model.update_key u < Kv.Model.r_start r + N.of_nat (pos + todo))%N) us.
  Proof.
    induction todo as [ | todo IH]; intros pos hs cs us rest H; cbn [Kv.Model.write_loop] in H; [injection H as <- _; constructor | ].
    destruct (Kv.Model.write_loop r todo (S pos) (tl hs) (tl cs)) as [us' rest'] eqn:E. injection H as <- _.
    apply Forall_app. split.
    - assert (K : (Kv.Model.r_start r <= Kv.Model.keys_key r pos < Kv.Model.r_start r + N.of_nat (pos + S todo))%N)
        by (unfold Kv.Model.keys_key; lia).
      unfold Kv.Model.write_step. destruct (hd_error hs) as [[k v] | ], (hd_error cs) as [x | ];
        repeat match goal with |- context [if ?b then _ else _] => destruct b end; repeat constructor; cbn [Kv.Model.update_key]; lia.
    - specialize (IH _ _ _ _ _ E). eapply Forall_impl; [ | exact IH]. cbv beta. intros u Hu. lia.
  Qed.

  (** The large blob array depends on its keys only. *)
  Lemma blob_frame m m' x : Kv.Spec.kv_wf m -> Kv.Spec.kv_wf m' ->
    (forall k, Kv.Spec.in_range LARGE_BLOB_SHARDS k -> get m' k = get m k) ->
    Kv.Model.frag_read m LARGE_BLOB_SHARDS = Ok x -> Kv.Model.frag_read m' LARGE_BLOB_SHARDS = Ok x.
  Proof.
    intros H H' E R. assert (Q : exists hs, Kv.Model.get_handles m LARGE_BLOB_SHARDS = Ok hs).
    { unfold Kv.Model.frag_read in R. destruct (Kv.Model.get_handles m LARGE_BLOB_SHARDS); [eauto | discriminate]. }
    destruct Q as [hs Q]. destruct (Kv.Proofs.get_handles_inv _ _ _ H Q) as (cs & Hc & _).
    rewrite (Kv.Proofs.read_holds _ _ _ H Hc) in R. rewrite (Kv.Proofs.read_holds m' LARGE_BLOB_SHARDS cs H'); [exact R | ].
    destruct Hc as [H1 H2]. split; [exact H1 | ]. intros i Hi. rewrite <- H2 by exact Hi. apply E.
    unfold Kv.Spec.in_range. lia.
  Qed.
  Lemma apply_wf us m : Kv.Spec.kv_wf m -> Kv.Spec.kv_wf (fold_left Kv.Model.apply_update us m).
  Proof. apply Kv.Proofs.apply_updates_wf. Qed.
  Lemma clear_wf n m : Kv.Spec.kv_wf m -> Kv.Spec.kv_wf (kv_clear n m).
  Proof.
    unfold Kv.Spec.kv_wf, Kv.Model.kv_keys, kv_clear. induction m as [ | [k v] m IH]; cbn; [auto | ]. intro H. inversion H; subst.
    destruct (k <? n)%N; [ | auto]. cbn. constructor; [ | auto]. rewrite in_map_iff in *. intros ([k' v'] & A & B).
    apply H2. exists (k', v'). split; [exact A | ]. now apply filter_In in B.
  Qed.
  Lemma clear_get n m k : get (kv_clear n m) k = if (k <? n)%N then get m k else None.
  Proof.
    unfold kv_clear. induction m as [ | [k' v] m IH]; cbn [filter Kv.Model.kv_get fst]; [now destruct (k <? n)%N | ].
    destruct (k' <? n)%N eqn:L; cbn [Kv.Model.kv_get]; destruct (N.eqb_spec k' k) as [-> | Nk]; try exact IH.
    - now rewrite L.
    - rewrite L in *. exact IH.
  Qed.
  Lemma clear_creds n m wk : (n <= 1700)%N -> rd_creds wk (kv_clear n m) = Some [].
  Proof.
    intro H. unfold kv_clear. induction m as [ | [k v] m IH]; [reflexivity | ]. cbn [filter fst].
    destruct (N.ltb_spec k n); [ | exact IH]. cbn [rd_creds]. unfold in_credentials at 1.
    destruct (N.leb_spec 1700 k); [lia | exact IH].
  Qed.

  Lemma rpids_rt l : Forall (text_ok W) l -> (Nlen l < 2 ^ 64)%N -> rpids_of_bytes (rpids_to_bytes l) = Some l.
  Proof.
    intros F L. assert (V : value_ok W (VArray (map VText l))).
    { apply ok_array; [unfold Nlen in *; now rewrite map_length | ]. rewrite Forall_map. eapply Forall_impl; [ | exact F].
      intros t [[A B] D]. now constructor. }
    assert (W64 : (W <= 64)%N) by (destruct HW as [-> | ->]; lia).
    assert (D : within (VArray (map VText l)) (Some 4%Z)).
    { unfold within. cbn [depth]. rewrite map_map. cbn [depth]. clear. induction l as [ | t l IH]; cbn [map max_list fold_right] in *; unfold max_list in *; cbn [map fold_right] in *; lia. }
    destruct (C01_writer_accepts W _ (Some 4%Z) W64 V) as [A _]. specialize (A D).
    destruct (C01_roundtrip W _ (Some 4%Z) _ W64 V A) as [R _].
    unfold rpids_to_bytes, cbor_write. change MAX_CBOR_NESTING_DEPTH with 4%Z. rewrite A.
    unfold rpids_of_bytes, cbor_read. change MAX_CBOR_NESTING_DEPTH with 4%Z. rewrite R. cbn [extract_array].
    clear. induction l as [ | t l IH]; [reflexivity | ]. cbn [map fold_right extract_text_string]. now rewrite IH.
  Qed.

  (** All readers but those of credentials and blobs look at single keys. *)
  Lemma reads_frame m m' p : reads_as m p -> Kv.Spec.kv_wf m' ->
    (forall k, in_credentials k = false -> get m' k = get m k) ->
    forall l,
    match p_master p with
    | Some mk => rd_creds (mk_encryption mk) m' = Some l
    | None => l = [] /\ forall wk, rd_creds wk m' = Some []
    end ->
    reads_as m' (set_creds l p).
  Proof.
    intros [] H' E l C.
    split; cbn [set_creds p_pin p_retries p_force p_minlen p_rpids p_ep p_uv p_creds p_counter p_blob p_master p_batch p_ent]; auto;
      try (unfold rd_pin, rd_byte, rd_flag, rd_rpids, rd_counter, rd_master, rd_attestation in *; rewrite !E by reflexivity; assumption).
    - apply (blob_frame m); auto. intros k Hk. apply E. unfold Kv.Spec.in_range, LARGE_BLOB_SHARDS, in_credentials in *. cbn in Hk. lia.
  Qed.

  Local Ltac eval_keys :=
    repeat match goal with
    | |- context [N.eqb ?a ?b] =>
        let v := eval vm_compute in (N.eqb a b) in
        match v with true => idtac | false => idtac end; change (N.eqb a b) with v
    end; cbv iota.
  Local Ltac field :=
    unfold rd_pin, rd_byte, rd_flag, rd_rpids, rd_counter, rd_master, rd_attestation in *;
    rewrite ?Kv.Proofs.kv_get_insert, ?Kv.Proofs.kv_get_remove, ?Kv.Proofs.kv_get_insert, ?Kv.Proofs.kv_get_remove;
    eval_keys; first [assumption | reflexivity | idtac].
  Local Ltac blob m :=
    apply (blob_frame m); [assumption | assumption | | assumption];
    let k := fresh "k" in let Hk := fresh "Hk" in intros k Hk;
    rewrite ?Kv.Proofs.kv_get_insert, ?Kv.Proofs.kv_get_remove, ?Kv.Proofs.kv_get_insert, ?Kv.Proofs.kv_get_remove;
    unfold Kv.Spec.in_range in Hk; cbn in Hk;
    repeat match goal with |- context [N.eqb k ?b] => rewrite (proj2 (N.eqb_neq k b)) by (unfold b; lia) end;
    reflexivity.
  Local Ltac creds :=
    match goal with
    | |- match ?o with Some _ => _ | None => _ end => destruct o
    end;
    [rewrite ?creds_insert_other, ?creds_remove_other, ?creds_insert_other by reflexivity; assumption
    | match goal with H : p_creds _ = [] /\ _ |- _ => destruct H as [? ?] end; split; [assumption | ];
      intro; rewrite ?creds_insert_other, ?creds_remove_other, ?creds_insert_other by reflexivity; auto].
  Local Ltac proj :=
    cbn [set_creds set_pin_props set_retries set_force set_minlen set_rpids set_ep set_uv set_counter set_blob set_master set_atts
      clear_pers p_pin p_retries p_force p_minlen p_rpids p_ep p_uv p_creds p_counter p_blob p_master p_batch p_ent].
  Local Ltac simple m T :=
    cbn [updates fold_left Kv.Model.apply_update] in T; subst;
    split; proj; [assumption | ..]; first [assumption | solve [field] | solve [blob m] | solve [creds] | idtac]; try field.

  Theorem write_refines L fault m p w m' :
    reads_as m p -> (1 <= Kv.Model.max_value_len L)%N -> write_ok p w -> kv_write L fault m w = Ok m' ->
    reads_as m' (pers_write w p).
  Proof.
    intros R HL O T.
    assert (G : forall us, Kv.Model.transaction L fault m us = Ok m' ->
        m' = fold_left Kv.Model.apply_update us m /\ Kv.Spec.kv_wf m').
    { intros us H. apply Kv.Proofs.transaction_ok in H. split; [exact H | ]. rewrite H. apply apply_wf, (ra_wf _ _ R). }
    destruct w; cbn [kv_write] in T; cbn [write_ok] in O;
      try (apply G in T as [T Wf]; clear G); cbn [pers_write].
    - (* WPin *) destruct R. simple m T. cbn [List.length tl hd]. now rewrite O.
    - (* WRetries *) destruct R. simple m T.
    - destruct R. simple m T.
    - (* WMinLen *) destruct R. simple m T.
    - (* WRpIds *) destruct R. simple m T. now rewrite rpids_rt by apply O.
    - (* WBlob *) destruct R as [Wf0]. destruct (Kv.Props.C19_write _ _ _ _ _ _ Wf0 HL T) as (Wf & Rd & _ & Fr).
      assert (E : forall k, Kv.Spec.in_range LARGE_BLOB_SHARDS k \/ get m' k = get m k).
      { intro k. destruct (N.leb_spec 2000 k); [ | right; apply Fr; unfold Kv.Spec.in_range; cbn; lia].
        destruct (N.ltb_spec k 2004); [left; split; cbn; lia | right; apply Fr; unfold Kv.Spec.in_range; cbn; lia]. }
      assert (E' : forall k, (k < 2000 \/ 2004 <= k)%N -> get m' k = get m k).
      { intros k Hk. destruct (E k) as [[A B] | A]; [cbn in A, B; lia | exact A]. }
      assert (Cr : forall wk, rd_creds wk m' = rd_creds wk m).
      { intro wk. unfold Kv.Model.frag_write in T. destruct (Kv.Model.get_handles m LARGE_BLOB_SHARDS) as [hs | ]; [ | discriminate].
        cbn [rbind] in T. destruct (Kv.Model.write_loop _ _ _ _ _) as [us rest] eqn:Lp. apply blob_updates in Lp.
        destruct rest; [ | discriminate]. apply Kv.Proofs.transaction_ok in T. rewrite T. apply creds_updates.
        eapply Forall_impl; [ | exact Lp]. cbv beta. intros u Hu. unfold in_credentials. change (Kv.Model.r_start LARGE_BLOB_SHARDS) with 2000%N in Hu. lia. }
      split; proj; auto;
        try (unfold rd_pin, rd_byte, rd_flag, rd_rpids, rd_counter, rd_master, rd_attestation in *; rewrite !E' by first [left; reflexivity | right; vm_compute; discriminate]; assumption).
      + rewrite Rd. destruct b; [congruence | reflexivity].
      + destruct (p_master p); [now rewrite Cr | ]. destruct ra_creds0 as [A B]. split; [exact A | ]. intro wk. now rewrite Cr.
    - (* WForce *) destruct R. simple m T.
    - destruct R. simple m T.
    - (* WAlwaysUv *) destruct R. destruct on; simple m T.
    - (* WCounter *) destruct R. simple m T.
      rewrite rev_length, be_bytes_length, Nat.eqb_refl, rev_involutive, of_be_be_bytes. f_equal. f_equal. apply N.mod_small, O.
    - (* WCred *) destruct O as (I & mk & iv & M & Li & Oi & Cr & S). unfold insert_cred.
      cbn [updates fold_left Kv.Model.apply_update] in T. subst m'. eapply reads_frame; [exact R | exact Wf | | ].
      + intros k' Hk. rewrite Kv.Proofs.kv_get_insert. destruct (N.eqb_spec k' k) as [-> | ]; [congruence | reflexivity].
      + rewrite M. pose proof (ra_creds _ _ R) as Q. rewrite M in Q.
        unfold Kv.Model.kv_insert. apply creds_app; [now apply creds_remove | ]. cbn [rd_creds]. rewrite I.
        destruct (cred_roundtrip c ed25519 W ok ltac:(destruct HW; lia) (mk_encryption mk) iv r Li Oi Cr) as (b' & S' & D).
        rewrite S in S'. injection S' as <-. now rewrite D.
    - (* WRemoveCred *) unfold remove_cred. cbn [updates fold_left Kv.Model.apply_update] in T. subst m'.
      eapply reads_frame; [exact R | exact Wf | | ].
      + intros k' Hk. rewrite Kv.Proofs.kv_get_remove. destruct (N.eqb_spec k' k) as [-> | ]; [congruence | reflexivity].
      + pose proof (ra_creds _ _ R) as Q. destruct (p_master p) as [mk | ]; [now apply creds_remove | ].
        destruct Q as [-> Q]. split; [reflexivity | ]. intro wk. apply (creds_remove m k wk []), Q.
    - (* WMaster *) destruct O as [M Lx]. destruct R. rewrite M in ra_creds0. destruct ra_creds0 as [C0 C1].
      simple m T.
      + now rewrite (proj2 (N.eqb_eq _ _) Lx).
      + rewrite creds_insert_other by reflexivity. rewrite C0. apply C1.
    - (* WMasterReset *) destruct R. simple m T. split; [exact O | ]. intro wk. rewrite creds_remove_other by reflexivity.
      destruct (p_master p); [ | apply ra_creds0]. rewrite O in ra_creds0. exact (creds_nil _ _ ra_creds0 wk).
    - (* WAttestation *) destruct R. destruct a as [[k x] | ]; simple m T. now rewrite (proj2 (N.eqb_eq _ _) O).
    - (* WReset *) destruct fault; [discriminate | ]. injection T as <-. pose proof (clear_wf NUM_PERSISTENT_KEYS m (ra_wf _ _ R)) as Wf.
      assert (Cr : forall wk, rd_creds wk (kv_clear NUM_PERSISTENT_KEYS m) = Some []) by (intro wk; apply clear_creds; vm_compute; discriminate).
      destruct R. split; proj; auto;
        try (unfold rd_pin, rd_byte, rd_flag, rd_rpids, rd_counter, rd_master, rd_attestation in *; rewrite ?clear_get; first [assumption | reflexivity]).
      rewrite (Kv.Proofs.read_holds _ LARGE_BLOB_SHARDS [] Wf); [reflexivity | ]. split; [vm_compute; discriminate | ].
      intros i Hi. rewrite clear_get. change (Kv.Model.r_start LARGE_BLOB_SHARDS) with 2000%N. unfold NUM_PERSISTENT_KEYS.
      destruct (N.ltb_spec (2000 + i) 20); [lia | ]. now destruct (N.to_nat i).
  Qed.
End Layout.
