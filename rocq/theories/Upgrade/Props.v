(** Property theorems C49 and C50. *)
From Verif Require Import Base Facts Hid.Model U2f.Model Cbor.Model Cbor.Spec Cbor.Proofs Cbor.Proofs2
  Cbor.Proofs3 Cbor.Proofs4 Cbor.Props Ctap.Crypto Ctap.Types Ctap.Machine
  Ctap.Commands Ctap.Parse Ctap.Seal Ctap.Stored Upgrade.Model Upgrade.Spec Upgrade.Proofs.
Local Open Scope N_scope.
Notation within := Upgrade.Spec.within.

(** ** C49: upgrades *)

Definition messages (c : uprims) (u : upgrade) (m : mem) (l : list (bytes * (nat -> fault))) : mem :=
  fold_left (fun m x => fst (vendor_message c (snd x) m (Some u) (fst x))) l m.

(** Whatever messages arrive, and whichever calls of the flash driver fail or are interrupted: only the
    metadata page that belongs to the listed partition, and the listed partition, are written. *)
Theorem C49_confined : forall c ps locs u l m x,
  upgrade_new ps locs = Ok u ->
  ~ within x (mr_start (u_metadata u)) ps -> ~ listed locs x ->
  messages c u m l x = m x.
Proof.
  intros c ps locs u l m x N O1 O2. destruct (new_layout _ _ _ N) as (Hp & fw & L).
  revert m. induction l as [ | [b flt] l IH]; intro m; [reflexivity | ]. cbn [messages fold_left]. unfold messages in IH. rewrite IH. cbn [fst snd].
  destruct (vendor_message c flt m (Some u) b) as [m' r] eqn:E. cbn [fst].
  apply message_cases in E as [-> | (rest & kvs & u' & offset & data & _ & Eu & _ & _ & _ & r' & W & _)]; [reflexivity | ].
  injection Eu as <-. eapply bundle_frame; eauto. intros [H | H]; [rewrite Hp in H; contradiction | ].
  apply O2, (la_listed _ _ _ L), H.
Qed.
Print Assumptions C49_confined.

(** On the boards: the running firmware, its metadata, and everything else below the credential store except
    the other partition and its metadata stay as they are. *)
Theorem C49_running : forall c p u l m x,
  p = partition_a \/ p = partition_b -> upgrade_new PAGE_SIZE (board p) = Ok u ->
  ~ within x (b_metadata (other p)) 0x1000 -> ~ within x (b_firmware (other p)) 0x40000 ->
  messages c u m l x = m x.
Proof.
  intros c p u l m x P N O1 O2. destruct (board_new p P) as (u' & fw & E' & L & Hp & H1 & H2 & H3 & _). rewrite N in E'. injection E' as <-.
  apply (C49_confined c PAGE_SIZE (board p)); auto; [now rewrite H3 | ].
  intros (lo & I & T & Np & W). apply O2. destruct P as [-> | ->];
    [change (board partition_a) with (mkLocation Store 0xC0000 0x10000 :: mkLocation Store 0xD0000 0x4000 :: mkLocation Partition 0x4000 0x2000 ::
       mkLocation Partition 0x60000 0x20000 :: [mkLocation Partition 0x80000 0x20000]) in I; change (b_firmware (other partition_a)) with 0x60000
    |change (board partition_b) with (mkLocation Store 0xC0000 0x10000 :: mkLocation Store 0xD0000 0x4000 :: mkLocation Partition 0x4000 0x2000 ::
       mkLocation Partition 0x20000 0x20000 :: [mkLocation Partition 0x40000 0x20000]) in I; change (b_firmware (other partition_b)) with 0x20000];
    unfold METADATA_ADDRESS in Np; cbn [In] in I; repeat destruct I as [I | I]; try contradiction; subst lo; cbn [l_type l_ptr l_len] in *; try discriminate; try lia;
    unfold Spec.within in *; lia.
Qed.
Print Assumptions C49_running.

(** The version of the running firmware as it is in flash. *)
Lemma running_version_at m u : mr_length (u_running u) = 0x1000 ->
  running_version m u = le (read m (mr_start (u_running u) + 0x800) 8).
Proof.
  intro H. unfold running_version, metadata_version. f_equal. rewrite H. unfold slice.
  change (N.to_nat 8) with 8%nat. set (o := N.to_nat METADATA_SIGN_OFFSET).
  assert (Q : N.to_nat 4096 = (o + (8 + N.to_nat 2040))%nat) by (subst o; unfold METADATA_SIGN_OFFSET; lia). rewrite Q, read_app.
  replace 0x800 with (N.of_nat o) by (subst o; rewrite N2Nat.id; reflexivity).
  rewrite skipn_app, skipn_all2, read_length by (rewrite read_length; lia). rewrite Nat.sub_diag. cbn [skipn app].
  rewrite read_app, firstn_app, firstn_all2, read_length by (rewrite read_length; lia). rewrite Nat.sub_diag. cbn [firstn].
  now rewrite app_nil_r.
Qed.

(** If a message changes a byte of the metadata page, it carries metadata for this partition that is not older
    than the running firmware and is signed by the upgrade key; and if it is answered with success, that
    metadata is in the page. *)
Theorem C49_metadata : forall c ps locs u flt m b m' r x,
  upgrade_new ps locs = Ok u -> vendor_message c flt m (Some u) b = (m', r) ->
  within x (mr_start (u_metadata u)) ps -> m' x <> m x ->
  exists d pre post rest kvs,
    b = 0x42 :: rest /\ cbor_read 32 rest = Some (VMap kvs) /\
    Parse.fields kvs [vint 1; vint 2; vint 3] 1 = Some (VBytes (pre ++ d ++ post)) /\
    acceptable c (le (read m (mr_start (u_running u) + 0x800) 8)) (u_identifier u) d /\
    (r = Some [0] -> holds m' (mr_start (u_metadata u)) d).
Proof.
  intros c ps locs u flt m b m' r x N E X Ne. destruct (new_layout _ _ _ N) as (Hp & fw & L).
  apply message_cases in E as [-> | (rest & kvs & u' & offset & data & -> & Eu & Ec & Ed & _ & r' & W & Rr)]; [congruence | ].
  injection Eu as <-. rewrite <- Hp in X.
  destruct (bundle_meta _ _ _ L _ _ _ _ _ _ _ _ W X Ne) as (a & F & B1 & B2 & Ac & Hd).
  set (k := mr_start (u_metadata u) - a) in *.
  exists (slice data k (u_page_size u)), (firstn (N.to_nat k) data), (skipn (N.to_nat (u_page_size u)) (skipn (N.to_nat k) data)), rest, kvs.
  split; [reflexivity | ]. split; [exact Ec | ]. split.
  { unfold slice. rewrite firstn_skipn, firstn_skipn. exact Ed. }
  split; [ | intro R; apply Hd; now apply Rr].
  assert (Pg : mr_length (u_running u) = 4096).
  { rewrite (la_run_len _ _ _ L). pose proof (ac_length _ _ _ _ Ac) as Al. unfold slice, Nlen in Al. rewrite firstn_length, skipn_length in Al.
    unfold Nlen in B2. lia. }
  now rewrite <- running_version_at.
Qed.
Print Assumptions C49_metadata.

(** The metadata that is checked against is that of the running partition, and the address that of the
    partition that is written. *)
Theorem C49_identity : forall p u, p = partition_a \/ p = partition_b -> upgrade_new PAGE_SIZE (board p) = Ok u ->
  mr_start (u_running u) = b_metadata p /\ mr_start (u_metadata u) = b_metadata (other p) /\
  u_identifier u = b_firmware (other p) /\ other p <> p.
Proof.
  intros p u P N. destruct (board_new p P) as (u' & fw & E' & L & Hp & H1 & H2 & H3 & H4 & H5 & H6). rewrite N in E'. injection E' as <-.
  split; [exact H5 | ]. split; [exact H3 | ]. split; [exact H4 | ]. destruct P as [-> | ->]; discriminate.
Qed.
Print Assumptions C49_identity.

(** A request that is answered with success has its data in flash; the one that completes the partition is only
    successful if the hash in the metadata matches the partition. *)
Theorem C49_complete : forall c p u flt m offset data hash m',
  p = partition_a \/ p = partition_b -> upgrade_new PAGE_SIZE (board p) = Ok u ->
  vendor_upgrade c flt m (Some u) offset data hash = (m', Ok tt) ->
  hash = up_sha256 c data /\ data <> [] /\
  exists a, holds m' a data /\
    (a = b_metadata (other p) + offset /\ offset + Nlen data <= 0x1000 \/
     a = b_firmware (other p) + (offset - 0x1000) /\ 0x1000 <= offset /\ offset + Nlen data <= 0x41000) /\
    (offset + Nlen data = 0x41000 ->
     slice (read m' (b_metadata (other p)) (N.to_nat 4096)) 0 32 =
     up_sha256 c (read m' (b_metadata (other p) + 0x800) (N.to_nat 2048) ++ read m' (b_firmware (other p)) (N.to_nat 0x40000))).
Proof.
  intros c p u flt m offset data hash m' P N H. unfold vendor_upgrade in H.
  destruct (bytes_eqb hash (up_sha256 c data)) eqn:Eh; [cbn [negb] in H | discriminate]. apply bytes_eqb_eq in Eh.
  destruct (write_bundle c flt m u offset data) as [m1 r1] eqn:W. injection H as H1 H2. subst m1.
  assert (r1 = Ok tt) by (destruct r1 as [[] | ]; [reflexivity | discriminate]). subst r1. clear H2.
  destruct (board_new p P) as (u' & fw & E' & L & Hp & F1 & F2 & F3 & F4 & _). rewrite N in E'. injection E' as <-.
  apply write_cases in W as [[_ Q] | (a & F & Nz & _ & _ & Q)]; [congruence | ]. destruct (Q eq_refl) as [Rb Hh].
  split; [exact Eh | ]. split; [intro; subst data; now apply Nz | ]. exists a. split; [now apply read_holds | ].
  assert (Pt : u_partition u = [u_metadata u; fw]).
  { destruct (la_parts _ _ _ L) as [Pt | [Pt _]]; [exact Pt | exfalso]. rewrite F1, F3, Hp in Pt. destruct P as [-> | ->]; discriminate Pt. }
  rewrite Pt in F. cbn [find_address] in F. rewrite (la_meta _ _ _ L), Hp, F1, F2, F3 in F.
  split.
  - destruct (N.ltb_spec offset 4096).
    + destruct (N.leb_spec (Nlen data) (4096 - offset)); [ | discriminate]. injection F as <-. left. split; [reflexivity | lia].
    + destruct (N.ltb_spec (offset - 4096) 0x40000); [ | discriminate].
      destruct (N.leb_spec (Nlen data) (0x40000 - (offset - 4096))); [ | discriminate]. injection F as <-. right. split; [reflexivity | lia].
  - intro El. rewrite Pt in Hh. cbn [part_length fold_right] in Hh. rewrite (la_meta _ _ _ L), Hp, F2, F3 in Hh.
    specialize (Hh ltac:(lia)). unfold check_partition_hash in Hh. destruct (bytes_eqb _ _) eqn:Eb; [ | discriminate].
    apply bytes_eqb_eq in Eb. rewrite (partition_bytes_eq _ _ _ m' L), F1, F2, F3, Hp in Eb by (rewrite Hp; reflexivity).
    symmetry. exact Eb.
Qed.
Print Assumptions C49_complete.

(** Undisturbed requests that start a page are carried out: parts of the firmware (but for the last, whose success
    depends on the hash), and acceptable metadata. *)
Theorem C49_applied : forall c p u flt m offset data,
  p = partition_a \/ p = partition_b -> upgrade_new PAGE_SIZE (board p) = Ok u ->
  (forall n, flt n = None) -> bytes_ok data = true -> data <> [] -> offset mod 0x1000 = 0 ->
  0x1000 <= offset /\ offset + Nlen data < 0x41000 \/
  offset = 0 /\ acceptable c (le (read m (b_metadata p + 0x800) 8)) (b_firmware (other p)) data /\
    Nlen (up_key c) = 65 /\ nth 0 (up_key c) 0 = 4 /\
    up_point_ok c (slice (up_key c) 1 32) (slice (up_key c) 33 32) = true /\ up_signature_ok c (slice data 32 64) = true ->
  exists m', vendor_upgrade c flt m (Some u) offset data (up_sha256 c data) = (m', Ok tt) /\
    holds m' (if offset =? 0 then b_metadata (other p) else b_firmware (other p) + (offset - 0x1000)) data.
Proof.
  intros c p u flt m offset data P N Hf Ob Nd Oa H.
  destruct (board_new p P) as (u' & fw & E' & L & Hp & F1 & F2 & F3 & F4 & F5 & F6). rewrite N in E'. injection E' as <-.
  assert (Nz : Nlen data <> 0) by (unfold Nlen; destruct data; [congruence | cbn [length]; lia]).
  assert (Pt : u_partition u = [u_metadata u; fw]).
  { destruct (la_parts _ _ _ L) as [Pt | [Pt _]]; [exact Pt | exfalso]. rewrite F1, F3, Hp in Pt. destruct P as [-> | ->]; discriminate Pt. }
  pose proof (la_meta _ _ _ L) as Lm. rewrite Hp in Lm.
  assert (Bd : b_metadata (other p) mod 4096 = 0 /\ b_firmware (other p) mod 4096 = 0 /\ b_metadata (other p) + 4096 <= b_firmware (other p) /\
               b_firmware (other p) + 0x40000 <= USIZE).
  { destruct P as [-> | ->]; repeat split; vm_compute; discriminate. }
  destruct Bd as (B1 & B2 & B3 & B4).
  assert (G : forall a, find_address (u_partition u) offset (Nlen data) = Some a -> allowed_write c m u a data ->
     a + Nlen data <= USIZE -> a mod 4096 = 0 -> offset + Nlen data < 0x41000 ->
     exists m', vendor_upgrade c flt m (Some u) offset data (up_sha256 c data) = (m', Ok tt) /\ holds m' a data).
  { intros a Fa Al Us Aa Lt. rewrite <- Hp in Aa. destruct (bundle_succeeds c flt m u offset data a) as (m' & Hd & W); auto; [rewrite Hp; reflexivity | ].
    exists m'. split; [ | exact Hd]. unfold vendor_upgrade. rewrite (proj2 (bytes_eqb_eq _ _) eq_refl). cbn [negb]. rewrite W.
    rewrite Pt. cbn [part_length fold_right]. rewrite Lm, F2. destruct (N.eqb_spec (Nlen data) (4096 + (0x40000 + 0) - offset)); [lia | reflexivity]. }
  destruct H as [[H1 H2] | (-> & Ac & K1 & K2 & K3 & K4)].
  - destruct (N.eqb_spec offset 0); [lia | ]. apply G; try lia.
    + rewrite Pt. cbn [find_address]. rewrite Lm, F1, F2. destruct (N.ltb_spec offset 4096); [lia | ].
      destruct (N.ltb_spec (offset - 4096) 0x40000); [ | lia]. destruct (N.leb_spec (Nlen data) (0x40000 - (offset - 4096))); [reflexivity | lia].
    + left. unfold intersects_range, starts_inside, is_empty. cbn [mr_start mr_length]. rewrite Lm, F3.
      destruct (N.eqb_spec (Nlen data) 0); [lia | ]. destruct (N.eqb_spec 4096 0); [lia | ]. cbn [negb andb]. lia.
  - cbn [N.eqb]. change (0 =? 0) with true. cbn iota. pose proof (ac_length _ _ _ _ Ac) as Al. apply G; try lia.
    + rewrite Pt. cbn [find_address]. rewrite Lm, F3. rewrite Al. change (0 <? 4096) with true. change (4096 <=? 4096 - 0) with true.
      cbn iota. f_equal. lia.
    + right. unfold contains_range, is_empty. cbn [mr_start mr_length]. rewrite Lm, F3, Al. split; [lia | ].
      rewrite N.sub_diag. replace (slice data 0 4096) with data.
      2:{ unfold slice. change (N.to_nat 0) with 0%nat. cbn [skipn]. rewrite firstn_all2; [reflexivity | unfold Nlen in Al; lia]. }
      unfold check_metadata, METADATA_LEN. rewrite Al, N.eqb_refl. cbn [negb]. rewrite running_version_at, F5 by exact F6.
      unfold metadata_version, metadata_address. change METADATA_SIGN_OFFSET with 0x800. change (0x800 + 8) with 0x808.
      destruct (N.ltb_spec (le (slice data 0x800 8)) (le (read m (b_metadata p + 0x800) 8))) as [Q | _]; [destruct Ac; lia | ].
      rewrite (ac_address _ _ _ _ Ac), F4, N.eqb_refl. cbn [negb]. unfold verify_signature, metadata_signature, metadata_hash.
      rewrite K4, K1, K2, K3, (ac_signature _ _ _ _ Ac). reflexivity.
Qed.
Print Assumptions C49_applied.

(** ** C50: the bootloader *)

(** The bootloader boots a valid partition, the newer one of two, partition A if they are equally new, and nothing
    only if there is no valid one. *)
Theorem C50_boot : forall c m,
  match boot c m with
  | Some p => exists v, valid c m p v /\
      (p = partition_a /\ (forall w, valid c m partition_b w -> w <= v) \/
       p = partition_b /\ (forall w, valid c m partition_a w -> w < v))
  | None => forall v, ~ valid c m partition_a v /\ ~ valid c m partition_b v
  end.
Proof.
  intros c m. unfold boot.
  assert (Fn : forall q w v, read_version c m q = Some w -> valid c m q v -> v = w).
  { intros q w v E V. apply version_valid in V. congruence. }
  assert (Nn : forall q v, read_version c m q = None -> ~ valid c m q v).
  { intros q v E V. apply version_valid in V. congruence. }
  destruct (read_version c m partition_a) as [va | ] eqn:Ea; destruct (read_version c m partition_b) as [vb | ] eqn:Eb.
  - destruct (N.leb_spec vb va).
    + exists va. split; [now apply version_valid | ]. left. split; [reflexivity | ]. intros w V. now rewrite (Fn _ _ _ Eb V).
    + exists vb. split; [now apply version_valid | ]. right. split; [reflexivity | ]. intros w V. now rewrite (Fn _ _ _ Ea V).
  - exists va. split; [now apply version_valid | ]. left. split; [reflexivity | ]. intros w V. now apply Nn in V.
  - exists vb. split; [now apply version_valid | ]. right. split; [reflexivity | ]. intros w V. now apply Nn in V.
  - intro v. split; now apply Nn.
Qed.
Print Assumptions C50_boot.

(** Over any number of boots, with any upgrade messages and any interruptions between them: the device always
    boots again, and never an older version than before. *)
Theorem C50_version : forall c l m p v,
  boot c m = Some p -> valid c m p v ->
  exists q w, fst (life c m l) = Some q /\ valid c (snd (life c m l)) q w /\ v <= w.
Proof.
  intros c l. induction l as [ | s l IH]; intros m p v B V; cbn [life]; rewrite B; cbn [fst snd].
  - exists p, v. split; [reflexivity | ]. split; [exact V | lia].
  - destruct (boot_spec _ _ _ B) as (P & _). destruct (board_new p P) as (u & fw & E & _). rewrite E.
    pose proof (session_frame c m p s u P E) as Fr. apply (valid_frame c m _ p v Fr) in V.
    destruct (boot_some _ _ _ _ P V) as (q & w & Bq & Vq & Le).
    destruct (IH _ _ _ Bq Vq) as (q' & w' & H1 & H2 & H3). exists q', w'. split; [exact H1 | ]. split; [exact H2 | lia].
Qed.
Print Assumptions C50_version.

Lemma sound_frame c m m' p : (forall x, within x (b_metadata p) 4096 -> m' x = m x) -> sound c m p -> sound c m' p.
Proof.
  intros F S page Lp Hp. apply S; [exact Lp | ]. intros i Hi. rewrite <- F; [now apply Hp | unfold Spec.within, Nlen in *; lia].
Qed.

(** One clean action keeps the metadata page of the other partition sound. *)
Lemma act_sound c p u m a : (p = partition_a \/ p = partition_b) -> upgrade_new PAGE_SIZE (board p) = Ok u ->
  action_clean c (Some u) m a -> sound c m (other p) -> sound c (act c (Some u) m a) (other p).
Proof.
  intros P N Cl S. destruct (board_new p P) as (u' & fw & E' & L & Hp & F1 & F2 & F3 & F4 & F5 & F6). rewrite N in E'. injection E' as <-.
  pose proof (la_meta _ _ _ L) as Lm. rewrite Hp in Lm.
  destruct a as [b flt | f].
  2:{ eapply sound_frame; [ | exact S]. intros x X. cbn [act]. destruct (N.ltb_spec x 0xC0000); [reflexivity | ].
      exfalso. unfold Spec.within in X. destruct P as [-> | ->]; [change (b_metadata (other partition_a)) with 0x5000 in X | change (b_metadata (other partition_b)) with 0x4000 in X]; lia. }
  destruct Cl as [Ob [Cl | Cl]].
  2:{ eapply sound_frame; [ | exact S]. intros x X. apply (Cl x u eq_refl). now rewrite Lm, F3. }
  cbn [act]. destruct (vendor_message c flt m (Some u) b) as [m' r] eqn:E. cbn [fst].
  apply message_cases in E as [-> | (rest & kvs & u' & offset & data & -> & Eu & Ec & Ed & _ & r' & W & _)]; [exact S | ].
  injection Eu as <-.
  assert (Od : bytes_ok data = true).
  { unfold cbor_read in Ec. destruct (read_nested 32 rest _) as [v | ] eqn:Er; [injection Ec as -> | discriminate].
    apply C03_reader_sorted in Er; [ | lia | cbn in Ob; apply andb_true_iff in Ob; apply Ob].
    apply (field_ok 32) in Ed; [ | exact Er]. inversion Ed; subst. assumption. }
  all: pose proof W as W'; apply write_cases in W' as [[-> _] | (a & F & Nz & Al & _ & _)]; [exact S | ].
  all: destruct Al as [Al | [Al Ck]].
  1: eapply sound_frame; [ | exact S]; intros x X; destruct (N.eq_dec (m' x) (m x)) as [Q | Q]; [exact Q | exfalso];
    destruct (bundle_meta _ _ _ L _ _ _ _ _ _ _ x W) as (a' & F' & I1 & I2 & _); [now rewrite F3, Hp | exact Q | ];
    rewrite F in F'; injection F' as <-; unfold intersects_range, starts_inside, is_empty in Al; cbn [mr_start mr_length] in Al;
    rewrite Lm in Al; rewrite Hp in I2; destruct (N.eqb_spec (Nlen data) 0); [lia | ]; change (4096 =? 0) with false in Al; cbn [negb andb] in Al; lia.
  all: assert (Al' : allowed_write c m u a data) by (right; split; assumption).
  all: unfold contains_range, is_empty in Al; cbn [mr_start mr_length] in Al; rewrite Lm, F3 in Al; change (4096 =? 0) with false in Al; cbn [orb] in Al.
  all: rewrite Lm, F3 in Ck.
  all: set (d := slice data (b_metadata (other p) - a) 4096) in *.
  all: assert (Ld : Nlen d = 4096) by (subst d; unfold slice, Nlen; rewrite firstn_length, skipn_length; unfold Nlen in Al; lia).
  all: assert (Us : a + Nlen data <= USIZE).
  1: (assert (Q : ours u fw (a + Nlen data - 1)) by (eapply found_in; eauto; unfold Spec.within; lia);
    unfold ours, Spec.within in Q; rewrite Hp, F1, F2, F3 in Q; unfold USIZE;
    destruct P as [-> | ->];
    [change (b_metadata (other partition_a)) with 0x5000 in Q; change (b_firmware (other partition_a)) with 0x60000 in Q
    |change (b_metadata (other partition_b)) with 0x4000 in Q; change (b_firmware (other partition_b)) with 0x20000 in Q];
    change (2 ^ 32) with 4294967296; lia).
  all: assert (Hd : holds m' (b_metadata (other p)) d).
  1: intros i Hi; unfold Nlen in Ld; rewrite (bundle_clean c flt m u offset data m' r' a (b_metadata (other p) + N.of_nat i)); auto;
    [subst d; unfold slice; rewrite nth_firstn_lt, nth_skipn_add by lia; f_equal; lia
    |rewrite Hp; reflexivity
    |unfold Spec.within; lia
    |rewrite Hp; assert (B1 : b_metadata (other p) mod 4096 = 0) by (destruct P as [-> | ->]; reflexivity);
     rewrite N.add_mod, B1, N.add_0_l, N.mod_mod, (N.mod_small (N.of_nat i)) by lia; lia].
  all: intros page Lp Hpg Ea; assert (Epg : page = d)
    by (apply (holds_eq m' (b_metadata (other p))); [unfold Nlen in *; lia | exact Hpg | exact Hd]); rewrite Epg;
    unfold check_metadata, verify_signature in Ck;
    destruct (negb _) in Ck; [discriminate | ]; destruct (_ <? _) in Ck; [discriminate | ];
    destruct (negb _) in Ck; [discriminate | ]; destruct (negb _) in Ck; [discriminate | ];
    destruct (_ || _) in Ck; [discriminate | ]; destruct (negb _) in Ck; [discriminate | ];
    destruct (up_verify c _ _ _ _) eqn:Ev in Ck; [exact Ev | discriminate].
Qed.

Lemma acts_sound c p u s : (p = partition_a \/ p = partition_b) -> upgrade_new PAGE_SIZE (board p) = Ok u -> forall m,
  (forall s1 a s2, s = s1 ++ a :: s2 -> action_clean c (Some u) (fold_left (act c (Some u)) s1 m) a) ->
  sound c m (other p) -> sound c (fold_left (act c (Some u)) s m) (other p).
Proof.
  intros P N. induction s as [ | a s IH]; intros m Cl S; [exact S | ]. cbn [fold_left]. apply IH.
  - intros s1 b s2 ->. exact (Cl (a :: s1) b s2 eq_refl).
  - eapply act_sound; eauto. exact (Cl [] a s eq_refl).
Qed.

Lemma life_cons c m s l p u : boot c m = Some p -> upgrade_new PAGE_SIZE (board p) = Ok u ->
  life c m (s :: l) = life c (fold_left (act c (Some u)) s m) l.
Proof. intros B E. cbn [life]. rewrite B, E. reflexivity. Qed.
Lemma life_nil c m : fst (life c m []) = boot c m /\ snd (life c m []) = m.
Proof. cbn [life]. destruct (boot c m); split; reflexivity. Qed.
Lemma undisturbed_cons c m s l p u : boot c m = Some p -> upgrade_new PAGE_SIZE (board p) = Ok u ->
  undisturbed c m (s :: l) ->
  (forall s1 a s2, s = s1 ++ a :: s2 -> action_clean c (Some u) (fold_left (act c (Some u)) s1 m) a) /\
  undisturbed c (fold_left (act c (Some u)) s m) l.
Proof. intros B E. cbn [undisturbed]. rewrite B, E. exact (fun H => H). Qed.
Lemma life_dead c m s l : boot c m = None -> fst (life c m (s :: l)) = None.
Proof. intros B. cbn [life]. rewrite B. reflexivity. Qed.

Definition booted_signed (c : uprims) (m : mem) (p : boot_partition) : Prop :=
  signed c m p /\
  exists page fw, Nlen page = 4096 /\ Nlen fw = 0x40000 /\
    holds m (b_metadata p) page /\ holds m (b_firmware p) fw /\
    up_verify c (slice (up_key c) 1 32) (slice (up_key c) 33 32) (up_sha256 c (skipn (N.to_nat 2048) page ++ fw)) (slice page 32 64) = true.
Lemma boot_signed c m p : sound c m partition_a -> sound c m partition_b -> boot c m = Some p -> booted_signed c m p.
Proof.
  intros Sa Sb B. destruct (boot_spec _ _ _ B) as (P & v & V & _).
  assert (S : sound c m p) by (destruct P as [-> | ->]; assumption).
  destruct V as (page & fw & Lp & Lf & Hp & Hf & Ea & Eh & Ev). pose proof (S page Lp Hp Ea) as Sg. split.
  - exists page. exact (conj Lp (conj Hp Sg)).
  - exists page, fw. rewrite <- Eh. exact (conj Lp (conj Lf (conj Hp (conj Hf Sg)))).
Qed.
Lemma session_sound c m s q u : (q = partition_a \/ q = partition_b) -> upgrade_new PAGE_SIZE (board q) = Ok u ->
  (forall s1 a s2, s = s1 ++ a :: s2 -> action_clean c (Some u) (fold_left (act c (Some u)) s1 m) a) ->
  sound c m partition_a -> sound c m partition_b ->
  sound c (fold_left (act c (Some u)) s m) partition_a /\ sound c (fold_left (act c (Some u)) s m) partition_b.
Proof.
  intros P E Cl Sa Sb.
  assert (Sq : sound c m q -> sound c (fold_left (act c (Some u)) s m) q).
  { intro S. eapply sound_frame; [ | exact S]. intros x X. apply (session_frame c m q s u P E). now left. }
  pose proof (acts_sound c q u s P E m Cl) as So.
  destruct P as [-> | ->]; [change (other partition_a) with partition_b in So | change (other partition_b) with partition_a in So];
    split; [exact (Sq Sa) | exact (So Sb) | exact (So Sa) | exact (Sq Sb)].
Qed.

(** If at the beginning each metadata page is signed or claims nothing, and no metadata page is left half
    written, then every firmware that is ever booted is signed by the upgrade key. *)
Theorem C50_signed : forall c l m p,
  sound c m partition_a -> sound c m partition_b -> undisturbed c m l ->
  fst (life c m l) = Some p -> booted_signed c (snd (life c m l)) p.
Proof.
  intros c l. induction l as [ | s l IH]; intros m p Sa Sb Un R.
  - destruct (life_nil c m) as [E1 E2]. rewrite E1 in R. rewrite E2. exact (boot_signed c m p Sa Sb R).
  - destruct (boot c m) as [q | ] eqn:B; [ | rewrite life_dead in R by exact B; discriminate R].
    destruct (boot_spec _ _ _ B) as (P & _). destruct (board_new q P) as (u & fw & E & _).
    rewrite (life_cons c m s l q u B E) in R |- *. apply (undisturbed_cons c m s l q u B E) in Un. destruct Un as [Cl Un].
    destruct (session_sound c m s q u P E Cl Sa Sb) as [Sa' Sb']. exact (IH _ _ Sa' Sb' Un R).
Qed.
Print Assumptions C50_signed.

(** ** A concrete upgrade *)

(** A toy hash and signature, a device with version 3 in partition A and an erased partition B, and a message
    that installs version 5 there. *)
Definition toy_up : uprims :=
  mkUprims (fun l => repeat (hd 0 l) 32) (fun _ => true) (fun _ _ => true)
    (fun _ _ h s => bytes_eqb s (h ++ h)) (4 :: repeat 0 64).
Definition toy_flash : mem := fun x =>
  if inside x 0x4000 0x1000 then
    if x <? 0x4060 then 3 else if x =? 0x4800 then 3 else if x =? 0x480A then 2 else 0
  else 255.
Definition toy_metadata (v : N) : bytes :=
  repeat v 96 ++ repeat 0 1952 ++ v :: repeat 0 7 ++ [0; 0; 6; 0] ++ repeat 0 2036.
Definition calm_flash : nat -> fault := fun _ => None.

Lemma toy_page m a page : Nlen page = 4096 -> holds m a page -> page = read m a (N.to_nat 4096).
Proof. intros L H. apply read_holds in H. rewrite <- H. f_equal. unfold Nlen in L. lia. Qed.

Example C49_nonvacuous : exists u m',
  upgrade_new PAGE_SIZE (board partition_a) = Ok u /\
  acceptable toy_up (le (read toy_flash 0x4800 8)) 0x60000 (toy_metadata 5) /\
  le (read toy_flash 0x4800 8) = 3 /\
  vendor_upgrade toy_up calm_flash toy_flash (Some u) 0 (toy_metadata 5) (repeat 5 32) = (m', Ok tt) /\
  valid toy_up m' partition_b 5 /\ boot toy_up m' = Some partition_b.
Proof.
  destruct (board_new partition_a (or_introl eq_refl)) as (u & fw & E & _). exists u.
  assert (Ac : acceptable toy_up (le (read toy_flash 0x4800 8)) 0x60000 (toy_metadata 5)) by (split; vm_compute; (discriminate || reflexivity)).
  assert (Ob : bytes_ok (toy_metadata 5) = true) by (vm_compute; reflexivity).
  assert (Nd : toy_metadata 5 <> []) by discriminate.
  assert (K1 : up_signature_ok toy_up (slice (toy_metadata 5) 32 64) = true) by reflexivity.
  assert (Hs : up_sha256 toy_up (toy_metadata 5) = repeat 5 32) by reflexivity.
  destruct (C49_applied toy_up partition_a u calm_flash toy_flash 0 (toy_metadata 5) (or_introl eq_refl) E (fun _ => eq_refl) Ob Nd eq_refl
     (or_intror (conj eq_refl (conj Ac (conj eq_refl (conj eq_refl (conj eq_refl K1))))))) as (m' & V & H). rewrite Hs in V.
  exists m'. split; [exact E | ]. split; [exact Ac | ]. split; [reflexivity | ]. split; [exact V | ].
  change (if 0 =? 0 then b_metadata (other partition_a) else _) with 0x5000 in H.
  assert (Vb : valid toy_up m' partition_b 5).
  { exists (toy_metadata 5), (read m' 0x60000 (N.to_nat 0x40000)). split; [reflexivity | ].
    split; [unfold Nlen; rewrite read_length, N2Nat.id; reflexivity | ]. split; [exact H | ].
    split; [apply read_holds; rewrite read_length; reflexivity | ]. split; [reflexivity | ].
    generalize (read m' 0x60000 (N.to_nat 0x40000)). intro f. split; vm_compute; reflexivity. }
  split; [exact Vb | ].
  assert (Va : valid toy_up m' partition_a 3).
  { apply (valid_frame toy_up toy_flash).
    - intros x X. unfold vendor_upgrade in V. destruct (bytes_eqb _ _) in V; [cbn [negb] in V | discriminate V].
      destruct (write_bundle toy_up calm_flash toy_flash u 0 (toy_metadata 5)) as [m1 r1] eqn:W. assert (m1 = m') by congruence. subst m1.
      destruct (board_new partition_a (or_introl eq_refl)) as (u' & fw' & E' & L & Hp & H1 & H2 & H3 & _). rewrite E in E'. injection E' as <-.
      eapply bundle_frame; eauto. unfold ours, Spec.within in *. rewrite H1, H2, H3, Hp. change (other partition_a) with partition_b. cbn [b_metadata b_firmware partition_a partition_b] in *. lia.
    - apply version_valid. lazy. reflexivity. }
  pose proof (C50_boot toy_up m') as B. destruct (boot toy_up m') as [p | ]; [ | now destruct (proj2 (B 5))].
  destruct B as (v & Vv & [[-> B] | [-> B]]); [ | reflexivity]. exfalso. apply B in Vb. apply version_valid in Va, Vv. rewrite Va in Vv.
  apply some_inj in Vv. lia.
Qed.

Example C50_nonvacuous :
  boot toy_up toy_flash = Some partition_a /\ valid toy_up toy_flash partition_a 3 /\
  sound toy_up toy_flash partition_a /\ sound toy_up toy_flash partition_b.
Proof.
  split; [lazy; reflexivity | ]. split; [apply version_valid; lazy; reflexivity | ]. split.
  - intros page L H _. rewrite (toy_page _ _ _ L H). vm_compute. reflexivity.
  - intros page L H. rewrite (toy_page _ _ _ L H). vm_compute. discriminate.
Qed.
