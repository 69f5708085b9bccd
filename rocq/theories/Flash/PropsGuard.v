(** C69: what the kernel lets applications do to the flash, and whether the flash stays available. *)
From Verif Require Import Base Facts Cbor.Model Cbor.Spec Cbor.Proofs4 Cbor.Props Ctap.Crypto Ctap.Types Ctap.Machine Ctap.Parse
  Ctap.Stored Upgrade.Model Upgrade.Spec Upgrade.Proofs Upgrade.Props.
From Verif.Store Require Import Format.
From Verif.Flash Require Import Model Spec Proofs Guard.
Local Open Scope N_scope.
Ltac Zify.zify_post_hook ::= idtac.
Notation within := Flash.Spec.within.

(** ** Protection *)

(** Commands that name the length of the slice they write, as the library for applications always does, change
    only storage locations.  Missing: commands that name a smaller length (C69_confined_refuted). *)
Theorem C69_confined_partial : forall locs l k a,
  Forall (fun x => let '(cmd, ptr, len, allow) := x in cmd = 2 -> Nlen allow <= len) l ->
  ~ in_location locs a -> k_mem (commands locs k l) a = k_mem k a.
Proof.
  intros locs l. induction l as [ | [[[cmd ptr] len] v] l IH]; intros k a F A; [reflexivity | ].
  inversion F as [ | x xs F1 F2]; subst. unfold commands in *. cbn [fold_left]. rewrite (IH _ _ F2 A).
  destruct (command locs k cmd ptr len v) as [k' r] eqn:E. cbn [fst]. eapply command_frame; eauto.
Qed.
Print Assumptions C69_confined_partial.

(** The check of the kernel looks at the length that the command names, the driver writes the whole slice: on
    the board that runs partition B, one command overwrites the start of the running firmware. *)
Theorem C69_confined_refuted : exists k cmd ptr len allow a,
  ready k /\ proper k /\ bytes_ok allow = true /\ ~ in_location (board partition_b) a /\
  within a (b_firmware partition_b) 0x40000 /\
  k_mem (commands (board partition_b) k [(cmd, ptr, len, allow)]) a <> k_mem k a.
Proof.
  exists (mkKernel (fun _ => 255) (fun _ => 0%nat) (fun _ => 0%nat) false true), 2, 0x5FFFC, 4, [0; 0; 0; 0; 0; 0; 0; 0], 0x60000.
  split; [split; reflexivity | ]. split; [intro; reflexivity | ]. split; [reflexivity | ]. split; [ | split].
  - intros (l & I & W). change (board partition_b) with (mkLocation Store 0xC0000 0x10000 :: mkLocation Store 0xD0000 0x4000 ::
      mkLocation Partition 0x4000 0x2000 :: mkLocation Partition 0x20000 0x20000 :: [mkLocation Partition 0x40000 0x20000]) in I.
    unfold Flash.Spec.within in W. cbn [In] in I. repeat destruct I as [I | I]; try contradiction; subst l; cbn [l_ptr l_len] in W; lia.
  - unfold Flash.Spec.within. change (b_firmware partition_b) with 0x60000. lia.
  - vm_compute. discriminate.
Qed.
Print Assumptions C69_confined_refuted.

(** Whatever the store does and whichever messages arrive: only storage locations change. *)
Lemma pages_frame locs pages : forall k ps k' r x, k_erase_pages locs k pages ps = (k', r) -> ~ in_location locs x -> k_mem k' x = k_mem k x.
Proof.
  induction pages as [ | a pages IH]; intros k ps k' r x H X; cbn [k_erase_pages] in H; [congruence | ].
  destruct (libtock_erase locs k a ps) as [k1 r1] eqn:E. apply (command_frame _ _ _ _ _ _ _ _ x) in E; [ | discriminate | exact X].
  destruct r1; [ | congruence]. rewrite (IH _ _ _ _ _ H X). exact E.
Qed.
(** Every message is a write of data, or leaves the kernel as it is. *)
Lemma k_message_cases c locs k u b k' r : k_vendor_message c locs k u b = (k', r) ->
  k' = k \/ exists rest v o d h u' r', b = 0x42 :: rest /\ cbor_read 32 rest = Some v /\ parse_upgrade v = Ok (o, d, h) /\
    u = Some u' /\ k_write_bundle c locs k u' o d = (k', r').
Proof.
  unfold k_vendor_message. intro H. destruct b as [ | cmd rest]; [left; congruence | ].
  destruct (N.eqb_spec cmd 0x42) as [-> | ]; [ | left; congruence].
  destruct (cbor_read 32 rest) as [v | ] eqn:R; cbn [rbind] in H; [ | left; congruence].
  destruct (parse_upgrade v) as [[[o d] h] | ] eqn:P; [ | left; congruence].
  unfold k_vendor_upgrade in H. destruct (negb _); [left; congruence | ]. destruct u as [u | ]; [ | left; congruence].
  destruct (k_write_bundle c locs k u o d) as [k1 r1] eqn:E. right. exists rest, v, o, d, h, u, r1.
  assert (k1 = k') by congruence. subst k1. auto 10.
Qed.
(** Every write of data makes calls of the driver, or leaves the kernel as it is. *)
Lemma k_bundle_cases c locs k u o d k' r : k_write_bundle c locs k u o d = (k', r) ->
  k' = k \/ exists a k1 r1, find_address (u_partition u) o (Nlen d) = Some a /\
    k_erase_pages locs k (aligned_iter (mkRange a (Nlen d)) (u_page_size u)) (u_page_size u) = (k1, r1) /\
    (k' = k1 \/ exists r2, libtock_write locs k1 a d = (k', r2)).
Proof.
  intros H. unfold k_write_bundle in H. destruct (Nlen d =? 0); [left; congruence | ].
  destruct (find_address _ _ _) as [a | ]; [ | left; congruence].
  destruct (has <- contains_metadata u (mkRange a (Nlen d)) ;; _) as [ | e]; [ | left; congruence].
  destruct (k_erase_pages locs k _ _) as [k1 r1] eqn:E1 in H. right. exists a, k1, r1. split; [reflexivity | ]. split; [exact E1 | ].
  destruct r1; [ | left; congruence].
  destruct (libtock_write locs k1 a d) as [k2 r2] eqn:E2 in H. right. exists r2. rewrite E2. f_equal. destruct r2; [ | congruence].
  destruct (negb _); [congruence | ]. destruct (Nlen d =? _); congruence.
Qed.

Theorem C69_library : forall c locs t u l k a, Forall own l -> ~ in_location locs a ->
  k_mem (uses c locs t u k l) a = k_mem k a.
Proof.
  intros c locs t u l. induction l as [ | x l IH]; intros k a F A; [reflexivity | ].
  inversion F as [ | y ys F1 F2]; subst. unfold uses in *. cbn [fold_left]. rewrite (IH _ _ F2 A). destruct x as [ | page byte v | page | b]; cbn [own after] in *.
  - contradiction.
  - unfold tock_write. destruct (_ || _); [reflexivity | ]. destruct (tock_slice t page byte (Nlen v)) as [ptr | ]; [ | reflexivity].
    destruct (libtock_write locs k ptr v) as [k' r] eqn:E. cbn [fst]. eapply command_frame; eauto. intros _. apply N.le_refl.
  - unfold tock_erase. destruct (tock_slice t page 0 (t_page_size t)) as [ptr | ]; [ | reflexivity].
    destruct (libtock_erase locs k ptr (t_page_size t)) as [k' r] eqn:E. cbn [fst]. eapply command_frame; eauto. discriminate.
  - destruct (k_vendor_message c locs k u b) as [k' r] eqn:E. cbn [fst].
    apply k_message_cases in E as [-> | (rest & v & o & d & h & u' & r' & _ & _ & _ & _ & E)]; [reflexivity | ].
    apply k_bundle_cases in E as [-> | (ad & k1 & r1 & _ & E1 & E2)]; [reflexivity | ].
    apply (pages_frame _ _ _ _ _ _ a) in E1; [ | exact A]. destruct E2 as [-> | [r2 E2]]; [exact E1 | ].
    apply (command_frame _ _ _ _ _ _ _ _ a) in E2; [congruence | | exact A]. intros _. apply N.le_refl.
Qed.
Print Assumptions C69_library.

(** ** Upgrades on the kernel *)

(** Messages, one after the other, on the kernel. *)
Definition k_messages (c : uprims) (locs : list location) (u : upgrade) (k : kernel) (l : list bytes) : kernel :=
  fold_left (fun k b => fst (k_vendor_message c locs k (Some u) b)) l k.

(** On the kernel every message is answered, and changes the flash, like in the model that the properties C49 and
    C50 are proved for, for some outcome of its calls of the driver. *)
Theorem C69_simulated : forall c locs u k b k' r, k_vendor_message c locs k u b = (k', r) -> proper k -> bytes_ok b = true ->
  exists flt m', vendor_message c flt (k_mem k) u b = (m', r) /\ (forall x, k_mem k' x = m' x) /\ proper k'.
Proof.
  intros c locs u k b k' r E P B. destruct (message_sim _ _ _ (k_mem k) _ _ _ _ E (fun _ => eq_refl) P B) as (flt & m' & E' & S).
  exists flt, m'. split; [exact E' | ]. split; [exact S | ]. exact (message_proper _ _ _ _ _ _ _ E P).
Qed.
Print Assumptions C69_simulated.
Theorem C69_messages : forall c locs u l k, proper k -> Forall (fun b => bytes_ok b = true) l ->
  exists flts, length flts = length l /\
    forall x, k_mem (k_messages c locs u k l) x = messages c u (k_mem k) (combine l flts) x.
Proof.
  intros c locs u l k P F.
  assert (G : forall l k m, Forall (fun b => bytes_ok b = true) l -> proper k -> same k m -> exists flts, length flts = length l /\
            same (k_messages c locs u k l) (messages c u m (combine l flts))).
  { clear. induction l as [ | b l IH]; intros k m F P S; [exists []; split; [reflexivity | exact S] | ].
    inversion F as [ | y ys F1 F2]; subst. unfold k_messages. cbn [fold_left].
    destruct (k_vendor_message c locs k (Some u) b) as [k' r] eqn:E. cbn [fst].
    destruct (message_sim _ _ _ _ _ _ _ _ E S P F1) as (flt & m' & E' & S').
    destruct (IH k' m' F2 (message_proper _ _ _ _ _ _ _ E P) S') as (flts & L & Q).
    exists (flt :: flts). split; [cbn; congruence | ]. unfold messages. cbn [combine fold_left fst snd]. rewrite E'. exact Q. }
  destruct (G l k (k_mem k) F P (fun _ => eq_refl)) as (flts & L & Q). exists flts. split; [exact L | exact Q].
Qed.
Print Assumptions C69_messages.

Lemma board_numbers p : p = partition_a \/ p = partition_b ->
  (b_metadata (other p) = 0x5000 /\ b_firmware (other p) = 0x60000 /\ b_metadata p = 0x4000 /\ b_firmware p = 0x20000) \/
  (b_metadata (other p) = 0x4000 /\ b_firmware (other p) = 0x20000 /\ b_metadata p = 0x5000 /\ b_firmware p = 0x60000).
Proof. intros [-> | ->]; [left | right]; repeat split. Qed.
Lemma board_store p x : p = partition_a \/ p = partition_b -> in_store (board p) x -> 0xC0000 <= x < 0xD4000.
Proof.
  intros [-> | ->] (l & I & T & W);
    [change (board partition_a) with (mkLocation Store 0xC0000 0x10000 :: mkLocation Store 0xD0000 0x4000 ::
      mkLocation Partition 0x4000 0x2000 :: mkLocation Partition 0x60000 0x20000 :: [mkLocation Partition 0x80000 0x20000]) in I
    |change (board partition_b) with (mkLocation Store 0xC0000 0x10000 :: mkLocation Store 0xD0000 0x4000 ::
      mkLocation Partition 0x4000 0x2000 :: mkLocation Partition 0x20000 0x20000 :: [mkLocation Partition 0x40000 0x20000]) in I];
    unfold Flash.Spec.within in W; cbn [In] in I; repeat destruct I as [I | I]; try contradiction; subst l; cbn [l_ptr l_len l_type] in *;
    try discriminate; lia.
Qed.
(** On the boards, messages leave the running firmware, its metadata and the credential store alone. *)
Theorem C69_running : forall c p u l k x,
  p = partition_a \/ p = partition_b -> upgrade_new PAGE_SIZE (board p) = Ok u ->
  proper k -> Forall (fun b => bytes_ok b = true) l ->
  within x (b_firmware p) 0x40000 \/ within x (b_metadata p) 0x1000 \/ in_store (board p) x ->
  k_mem (k_messages c (board p) u k l) x = k_mem k x.
Proof.
  intros c p u l k x Hp N P F X. destruct (C69_messages c (board p) u l k P F) as (flts & _ & Q). rewrite Q.
  apply (C49_running c p); auto.
  - unfold Upgrade.Spec.within. intro W. destruct (board_numbers p Hp) as [(E3 & E4 & E1 & E2) | (E3 & E4 & E1 & E2)]; rewrite E3 in W;
      rewrite E1, E2 in X; destruct X as [X | [X | X]]; try apply (board_store p x Hp) in X; unfold Flash.Spec.within in X; lia.
  - unfold Upgrade.Spec.within. intro W. destruct (board_numbers p Hp) as [(E3 & E4 & E1 & E2) | (E3 & E4 & E1 & E2)]; rewrite E4 in W;
      rewrite E1, E2 in X; destruct X as [X | [X | X]]; try apply (board_store p x Hp) in X; unfold Flash.Spec.within in X; lia.
Qed.
Print Assumptions C69_running.

(** ** Applying an upgrade *)

Lemma one_page a len : 0 < len <= 4096 -> a mod 4096 = 0 -> a + len <= USIZE -> aligned_iter (mkRange a len) 4096 = [a].
Proof.
  intros L A U. unfold aligned_iter. cbn [mr_start mr_length]. rewrite A. change ((4096 - 0) mod 4096) with 0.
  rewrite N.min_l by lia. rewrite N.sub_0_r, N.add_0_r.
  replace ((len + (4096 - 1)) / 4096) with 1; [reflexivity | ].
  apply (N.div_unique _ 4096 1 (len - 1)); lia.
Qed.

(** A driver that is ready installs every page of an upgrade: data of whole words, at most a page, for the start of a
    page of the firmware, or an acceptable metadata page. *)
Theorem C69_applied : forall c p u k offset data,
  p = partition_a \/ p = partition_b -> upgrade_new PAGE_SIZE (board p) = Ok u ->
  ready k -> proper k -> bytes_ok data = true -> data <> [] -> offset mod 0x1000 = 0 ->
  Nlen data mod 4 = 0 -> Nlen data <= 0x1000 ->
  0x1000 <= offset /\ offset + Nlen data < 0x41000 \/
  offset = 0 /\ acceptable c (le (read (k_mem k) (b_metadata p + 0x800) 8)) (b_firmware (other p)) data /\
    Nlen (up_key c) = 65 /\ nth 0 (up_key c) 0 = 4 /\
    up_point_ok c (slice (up_key c) 1 32) (slice (up_key c) 33 32) = true /\ up_signature_ok c (slice data 32 64) = true ->
  exists k', k_vendor_upgrade c (board p) k (Some u) offset data (up_sha256 c data) = (k', Ok tt) /\
    holds (k_mem k') (if offset =? 0 then b_metadata (other p) else b_firmware (other p) + (offset - 0x1000)) data /\
    ready k' /\ proper k'.
Proof.
  intros c p u k offset data Hp N R P B Nd Oa D4 Dl H.
  destruct (C49_applied c p u (fun _ => None) (k_mem k) offset data Hp N (fun _ => eq_refl) B Nd Oa H) as (m' & V & Hd).
  destruct (board_new p Hp) as (u' & fw & E' & L & Ps & F1 & F2 & F3 & F4 & F5 & F6). rewrite N in E'. injection E' as <-.
  assert (Nz : 0 < Nlen data) by (unfold Nlen; destruct data; [congruence | cbn [length]; lia]).
  assert (Pt : u_partition u = [u_metadata u; fw]).
  { destruct (la_parts _ _ _ L) as [Pt | [Pt _]]; [exact Pt | exfalso]. rewrite F1, F3, Ps in Pt. destruct Hp as [-> | ->]; discriminate Pt. }
  pose proof (la_meta _ _ _ L) as Lm. rewrite Ps in Lm.
  set (a := if offset =? 0 then b_metadata (other p) else b_firmware (other p) + (offset - 0x1000)) in *.
  assert (Fa : find_address (u_partition u) offset (Nlen data) = Some a /\ a mod 4096 = 0 /\ a + 4096 <= 0xA0000 /\
               fits_in_storage_location (board p) a 4096 = true).
  { rewrite Pt. cbn [find_address]. rewrite Lm, F1, F2, F3. unfold a. destruct H as [[H1 H2] | (-> & Ac & _)].
    - destruct (N.eqb_spec offset 0); [lia | ]. destruct (N.ltb_spec offset 4096); [lia | ].
      destruct (N.ltb_spec (offset - 4096) 0x40000); [ | lia].
      destruct (N.leb_spec (Nlen data) (0x40000 - (offset - 4096))); [ | lia]. split; [reflexivity | ].
      pose proof (N.div_mod offset 4096 ltac:(discriminate)) as Dv. rewrite Oa in Dv. set (q := offset / 4096) in *.
      assert (Q : 1 <= q /\ q <= 64) by (clear - Dv H1 H2 Nz; lia).
      assert (Al : forall s, s mod 4096 = 0 -> (s + (offset - 4096)) mod 4096 = 0).
      { intros s Hs. replace (s + (offset - 4096)) with (s + (q - 1) * 4096) by lia. rewrite N.mod_add by discriminate. exact Hs. }
      destruct Hp as [-> | ->].
      + change (b_firmware (other partition_a)) with 0x60000. split; [apply Al; reflexivity | ]. split; [lia | ].
        destruct (N.le_gt_cases q 32); [apply (fits_ok _ (mkLocation Partition 0x60000 0x20000)) | apply (fits_ok _ (mkLocation Partition 0x80000 0x20000))];
          cbn [l_ptr l_len]; try lia; [do 3 right; now left | do 4 right; now left].
      + change (b_firmware (other partition_b)) with 0x20000. split; [apply Al; reflexivity | ]. split; [lia | ].
        destruct (N.le_gt_cases q 32); [apply (fits_ok _ (mkLocation Partition 0x20000 0x20000)) | apply (fits_ok _ (mkLocation Partition 0x40000 0x20000))];
          cbn [l_ptr l_len]; try lia; [do 3 right; now left | do 4 right; now left].
    - change (0 =? 0) with true. change (0 <? 4096) with true. cbn iota.
      destruct (N.leb_spec (Nlen data) (4096 - 0)); [ | lia]. rewrite N.add_0_r. split; [reflexivity | ].
      destruct Hp as [-> | ->]; (split; [reflexivity | split; [ | reflexivity]]); vm_compute; discriminate. }
  destruct Fa as (Fa & Aa & Ae & Fi).
  assert (Bs : exists k1 k2, k_erase_pages (board p) k (aligned_iter (mkRange a (Nlen data)) (u_page_size u)) (u_page_size u) = (k1, Ok tt) /\
    libtock_write (board p) k1 a data = (k2, Ok tt) /\ ready k2 /\ proper k2).
  { rewrite Ps, one_page by (unfold USIZE; try lia; auto). cbn [k_erase_pages].
    destruct (libtock_erase_ok (board p) k a R P Fi Aa) as (k1 & E1 & R1 & P1 & _). rewrite E1. exists k1.
    assert (A4 : a mod 4 = 0).
    { pose proof (N.div_mod a 4096 ltac:(discriminate)) as Dv. rewrite Aa in Dv. rewrite Dv.
      replace (4096 * (a / 4096) + 0) with (0 + 1024 * (a / 4096) * 4) by lia. apply N.mod_add. discriminate. }
    assert (Fw : fits_in_storage_location (board p) a (Nlen data) = true).
    { apply fits_inv in Fi as (l & I & X1 & X2). apply (fits_ok _ l); auto; lia. }
    destruct (libtock_write_ok (board p) k1 a data R1 P1 B Fw A4 D4 ltac:(lia)) as (k2 & E2 & R2 & P2 & _).
    exists k2. auto. }
  destruct Bs as (k1 & k2 & E1 & E2 & R2 & P2).
  assert (Ex : exists k' r, k_write_bundle c (board p) k u offset data = (k', r)) by (destruct (k_write_bundle c (board p) k u offset data); eauto).
  destruct Ex as (k' & r & Ek).
  destruct (bundle_sim _ _ _ (k_mem k) _ _ _ _ _ Ek (fun _ => eq_refl) P B) as (flt & m2 & W & S & Nf).
  specialize (Nf a Fa (ex_intro _ k1 (ex_intro _ k2 (conj E1 E2)))).
  unfold vendor_upgrade in V. unfold k_vendor_upgrade. rewrite (proj2 (bytes_eqb_eq _ _) eq_refl) in *. cbn [negb] in *.
  destruct (C49_applied c p u flt (k_mem k) offset data Hp N Nf B Nd Oa H) as (m3 & V3 & Hd3).
  unfold vendor_upgrade in V3. rewrite (proj2 (bytes_eqb_eq _ _) eq_refl) in V3. cbn [negb] in V3. rewrite W in V3.
  rewrite Ek. exists k'. split; [ | split].
  - f_equal. injection V3 as _ V3. exact V3.
  - injection V3 as V3 _. subst m3. intros i Hi. rewrite S. apply Hd3, Hi.
  - assert (k' = k2); [ | subst k'; auto]. unfold k_write_bundle in Ek. destruct (N.eqb_spec (Nlen data) 0); [lia | ].
    rewrite Fa, E1, E2 in Ek. destruct (has <- contains_metadata u (mkRange a (Nlen data)) ;; _) as [ | e].
    + destruct (negb _); [congruence | ]. destruct (Nlen data =? _); congruence.
    + injection Ek as <- <-. injection V3 as _ V3. discriminate.
Qed.
Print Assumptions C69_applied.

(** ** Availability *)

Lemma find_slice_words locs : forall q len a, whole_pages locs -> find_slice (ranges locs) (4 * q) len = Ok a -> exists q', a = 4 * q'.
Proof.
  induction locs as [ | l locs IH]; intros q len a W H; [discriminate | ]. cbn [ranges] in H. destruct (l_type l) eqn:T.
  2:{ exact (IH _ _ _ (whole_cons _ _ W) H). }
  destruct (whole_len l locs W T) as [El Ep]. pose proof (N.div_mod (l_ptr l) 4096 ltac:(discriminate)) as Dp. rewrite Ep in Dp.
  cbn [find_slice mr_length mr_start] in H. destruct (N.leb_spec (l_len l) (4 * q)).
  - replace (4 * q - l_len l) with (4 * (q - 1024 * (l_len l / 4096))) in H by lia. exact (IH _ _ _ (whole_cons _ _ W) H).
  - destruct (_ <? _); [discriminate | ]. injection H as <-. exists (1024 * (l_ptr l / 4096) + q). lia.
Qed.
(** The driver stays ready whatever the store does, and whatever messages arrive as long as their data are whole
    words for a multiple of the word size, at most a page each.  Missing: other messages, see below. *)
Theorem C69_available_partial : forall c locs t u l k,
  tock_new locs = Ok t -> (forall u', u = Some u' -> upgrade_new PAGE_SIZE locs = Ok u') ->
  Forall (fun x => own x /\ match x with UMessage b => word_wise b | _ => True end) l ->
  ready k -> proper k -> ready (uses c locs t u k l).
Proof.
  intros c locs t u l k T U F R P. revert k R P. induction l as [ | x l IH]; intros k R P; [exact R | ].
  inversion F as [ | y ys [F0 F1] F2]; subst. unfold uses in *. cbn [fold_left].
  assert (Q : ready (after c locs t u k x) /\ proper (after c locs t u k x)); [ | destruct Q; now apply IH].
  destruct x as [ | page byte v | page | b]; cbn [own after] in *.
  - contradiction.
  - unfold tock_write. rewrite (t_is locs t T). cbn [t_word_size]. rewrite !aligned_4.
    destruct (N.eqb_spec (byte mod 4) 0) as [A1 | ]; cbn [negb orb]; [ | now split].
    destruct (N.eqb_spec (Nlen v mod 4) 0) as [A2 | ]; cbn [negb]; [ | now split].
    rewrite <- (t_is locs t T). destruct (tock_slice t page byte (Nlen v)) as [ptr | ] eqn:Sl; [ | now split].
    assert (Sm : Nlen v <= 4096).
    { destruct (N.le_gt_cases (Nlen v) 4096) as [ | G]; [assumption | ]. rewrite (slice_bad locs t T) in Sl by (right; lia). discriminate. }
    assert (Ap : ptr mod 4 = 0).
    { unfold tock_slice, index_start in Sl. rewrite (t_is locs t T) in Sl. cbn [t_num_pages t_page_size t_locations] in Sl.
      destruct (_ && _); cbn [rbind] in Sl; [ | discriminate].
      pose proof (N.div_mod byte 4 ltac:(discriminate)) as Db. rewrite A1 in Db.
      replace (page * 4096 + byte) with (4 * (page * 1024 + byte / 4)) in Sl by lia.
      destruct (find_slice_words locs _ _ _ (t_whole locs t T) Sl) as [q ->]. rewrite N.mul_comm. apply N.mod_mul. discriminate. }
    destruct (libtock_write locs k ptr v) as [k' r] eqn:E. cbn [fst]. split; [ | exact (command_proper _ _ _ _ _ _ _ _ E P)].
    eapply write_ready; eauto.
  - destruct (tock_erase locs t k page) as [k' r] eqn:E. cbn [fst].
    destruct (N.lt_ge_cases page (Nlen (store_pages locs))) as [Hp | Hp].
    + destruct (tock_erase_ok locs t T k page R P Hp) as (k2 & E2 & R2 & P2 & _). rewrite E in E2. injection E2 as -> _. auto.
    + unfold tock_erase in E. rewrite (slice_bad locs t T) in E by (left; exact Hp). injection E as <- <-. auto.
  - destruct (k_vendor_message c locs k u b) as [k' r] eqn:E. cbn [fst]. split; [ | exact (message_proper _ _ _ _ _ _ _ E P)].
    apply k_message_cases in E as [-> | (rest & v & o & d & h & u' & r' & Eb & Ec & Ep & Eu & E)]; [exact R | ].
    destruct (F1 _ _ _ _ _ Eb Ec Ep) as (O4 & D4 & Dl). specialize (U u' Eu).
    destruct (new_layout _ _ _ U) as (Ps & fw & L). change PAGE_SIZE with 4096 in Ps.
    apply k_bundle_cases in E as [-> | (a & k1 & r1 & Fa & E1 & E2)]; [exact R | ]. rewrite Ps in E1.
    assert (R1 : ready k1).
    { assert (Al : Forall (fun a => a mod 4096 = 0) (aligned_iter (mkRange a (Nlen d)) 4096)).
      { apply Forall_forall. intros y Hy. now apply iter_in in Hy. }
      clear - E1 R Al. revert k k1 r1 E1 R. induction Al as [ | y ys A Al IH]; intros k k1 r1 E1 R; cbn [k_erase_pages] in E1; [congruence | ].
      destruct (libtock_erase locs k y 4096) as [k2 r2] eqn:E2. apply erase_ready in E2; auto. destruct r2; [ | congruence]. eapply IH; eauto. }
    destruct E2 as [-> | [r2 E2]]; [exact R1 | ].
    apply (write_ready _ _ _ _ _ _ E2 R1); auto.
    pose proof (la_meta_al _ _ _ L) as M1. destruct (la_fw_al _ _ _ L) as [M2 M3]. rewrite Ps in *.
    assert (M4 : forall s, s mod 4096 = 0 -> exists q, s = 4 * q).
    { intros s Hs. pose proof (N.div_mod s 4096 ltac:(discriminate)) as Dv. rewrite Hs in Dv. exists (1024 * (s / 4096)). lia. }
    destruct (M4 _ M1) as [q1 Q1]. destruct (M4 _ M2) as [q2 Q2].
    pose proof (N.div_mod o 4 ltac:(discriminate)) as Do. rewrite O4 in Do.
    assert (G : exists q, a = 4 * q).
    { pose proof (la_meta _ _ _ L) as Lm. rewrite Ps in Lm.
      destruct (la_parts _ _ _ L) as [Pt | [_ Pt]]; rewrite Pt in Fa; cbn [find_address mr_start mr_length] in Fa.
      - rewrite Lm, Q1, Q2 in Fa. destruct (o <? 4096); [destruct (Nlen d <=? _); [ | discriminate]; injection Fa as <-; exists (q1 + o / 4); lia | ].
        destruct (o - 4096 <? mr_length fw); [ | discriminate]. destruct (Nlen d <=? _); [ | discriminate]. injection Fa as <-.
        exists (q2 + (o / 4 - 1024)). lia.
      - rewrite Q1 in Fa. destruct (o <? _); [ | discriminate]. destruct (Nlen d <=? _); [ | discriminate]. injection Fa as <-. exists (q1 + o / 4). lia. }
    destruct G as [q ->]. rewrite N.mul_comm. apply N.mod_mul. discriminate.
Qed.
Print Assumptions C69_available_partial.

(** What is left of the driver after its application waits for ever, or after its buffer is lost. *)
Lemma pages_stuck locs pages : forall k ps k' r, k_erase_pages locs k pages ps = (k', r) -> k_waiting k = true ->
  k_waiting k' = true /\ k_mem k' = k_mem k.
Proof.
  induction pages as [ | a pages IH]; intros k ps k' r H W; cbn [k_erase_pages] in H; [injection H as <- <-; auto | ].
  destruct (libtock_erase locs k a ps) as [k1 r1] eqn:E. destruct (command_stuck _ _ _ _ _ _ _ _ E W) as ([e ->] & W1 & M1).
  injection H as <- <-. auto.
Qed.
Lemma after_stuck c locs t u k x : k_waiting k = true -> k_waiting (after c locs t u k x) = true /\ k_mem (after c locs t u k x) = k_mem k.
Proof.
  intro W. destruct x as [cmd ptr len v | page byte v | page | b]; cbn [after].
  - destruct (command locs k cmd ptr len v) as [k' r] eqn:E. now apply command_stuck in E.
  - unfold tock_write. destruct (_ || _); [auto | ]. destruct (tock_slice t page byte (Nlen v)) as [ptr | ]; [ | auto].
    destruct (libtock_write locs k ptr v) as [k' r] eqn:E. now apply command_stuck in E.
  - unfold tock_erase. destruct (tock_slice t page 0 (t_page_size t)) as [ptr | ]; [ | auto].
    destruct (libtock_erase locs k ptr (t_page_size t)) as [k' r] eqn:E. now apply command_stuck in E.
  - destruct (k_vendor_message c locs k u b) as [k' r] eqn:E. cbn [fst].
    apply k_message_cases in E as [-> | (rest & v & o & d & h & u' & r' & _ & _ & _ & _ & E)]; [auto | ].
    apply k_bundle_cases in E as [-> | (ad & k1 & r1 & _ & E1 & E2)]; [auto | ].
    apply pages_stuck in E1 as [W1 M1]; [ | exact W]. destruct E2 as [-> | [r2 E2]]; [auto | ].
    apply command_stuck in E2 as (_ & W2 & M2); [ | exact W1]. split; [exact W2 | congruence].
Qed.
Lemma uses_stuck c locs t u l : forall k, k_waiting k = true -> k_waiting (uses c locs t u k l) = true /\ k_mem (uses c locs t u k l) = k_mem k.
Proof.
  induction l as [ | x l IH]; intros k W; [auto | ]. unfold uses in *. cbn [fold_left].
  destruct (after_stuck c locs t u k x W) as [W1 M1]. destruct (IH _ W1) as [W2 M2]. split; [exact W2 | congruence].
Qed.
Lemma pages_starved locs pages : forall k ps k' r, k_erase_pages locs k pages ps = (k', r) -> k_buffer k = false -> k_buffer k' = false.
Proof.
  induction pages as [ | a pages IH]; intros k ps k' r H W; cbn [k_erase_pages] in H; [injection H as <- <-; auto | ].
  destruct (libtock_erase locs k a ps) as [k1 r1] eqn:E. apply command_starved in E as [_ E]; [ | exact W].
  destruct r1; [eapply IH; eauto | congruence].
Qed.
Lemma after_starved c locs t u k x : k_buffer k = false -> k_buffer (after c locs t u k x) = false.
Proof.
  intro W. destruct x as [cmd ptr len v | page byte v | page | b]; cbn [after].
  - destruct (command locs k cmd ptr len v) as [k' r] eqn:E. now apply command_starved in E.
  - unfold tock_write. destruct (_ || _); [auto | ]. destruct (tock_slice t page byte (Nlen v)) as [ptr | ]; [ | auto].
    destruct (libtock_write locs k ptr v) as [k' r] eqn:E. now apply command_starved in E.
  - unfold tock_erase. destruct (tock_slice t page 0 (t_page_size t)) as [ptr | ]; [ | auto].
    destruct (libtock_erase locs k ptr (t_page_size t)) as [k' r] eqn:E. now apply command_starved in E.
  - destruct (k_vendor_message c locs k u b) as [k' r] eqn:E. cbn [fst].
    apply k_message_cases in E as [-> | (rest & v & o & d & h & u' & r' & _ & _ & _ & _ & E)]; [auto | ].
    apply k_bundle_cases in E as [-> | (ad & k1 & r1 & _ & E1 & E2)]; [auto | ].
    apply pages_starved in E1; [ | exact W]. destruct E2 as [-> | [r2 E2]]; [auto | ].
    now apply command_starved in E2.
Qed.
Lemma uses_starved c locs t u l : forall k, k_buffer k = false -> k_buffer (uses c locs t u k l) = false.
Proof.
  induction l as [ | x l IH]; intros k W; [auto | ]. unfold uses in *. cbn [fold_left]. now apply IH, after_starved.
Qed.
Lemma tock_write_starved locs t k page byte v : k_buffer k = false \/ k_waiting k = true -> snd (tock_write locs t k page byte v) <> Ok tt.
Proof.
  intro W. unfold tock_write. destruct (_ || _); [discriminate | ]. destruct (tock_slice t page byte (Nlen v)) as [ptr | ]; [ | discriminate].
  destruct (libtock_write locs k ptr v) as [k' r] eqn:E. cbn [snd].
  destruct W as [W | W]; [apply command_starved in E as [E _]; [ | exact W]; destruct (E eq_refl) as [e ->] | apply command_stuck in E as [[e ->] _]; [ | exact W]];
    discriminate.
Qed.
Lemma tock_erase_stuck locs t k page : k_waiting k = true -> snd (tock_erase locs t k page) <> Ok tt.
Proof.
  intro W. unfold tock_erase. destruct (tock_slice t page 0 (t_page_size t)) as [ptr | ]; [ | discriminate].
  destruct (libtock_erase locs k ptr (t_page_size t)) as [k' r] eqn:E. cbn [snd]. apply command_stuck in E as [[e ->] _]; [ | exact W]. discriminate.
Qed.

(** A message of the host, parsed. *)
Lemma request_parsed offset data hash : offset < USIZE -> bytes_ok data = true -> Nlen data < USIZE -> bytes_ok hash = true -> Nlen hash = 32 ->
  exists v, cbor_read 32 (skipn 1 (upgrade_request offset data hash)) = Some v /\ parse_upgrade v = Ok (offset, data, hash).
Proof.
  intros O B Ld Bh Lh. set (v := VMap [(VUnsigned 1, VUnsigned offset); (VUnsigned 2, VBytes data); (VUnsigned 3, VBytes hash)]).
  exists v. split.
  - change (skipn 1 (upgrade_request offset data hash)) with (enc v).
    assert (V : value_ok 32 v).
    { constructor; [reflexivity | | repeat constructor].
      constructor; [split; constructor; [reflexivity | change USIZE with (2 ^ 32) in O; apply N.lt_trans with (2 ^ 32); [exact O | reflexivity]] | ].
      constructor; [split; constructor; [reflexivity | exact B | exact Ld] | ].
      constructor; [split; constructor; [reflexivity | exact Bh | cbn [snd]; rewrite Lh; reflexivity] | constructor]. }
    assert (D : Cbor.Spec.within v (Some MAX_CBOR_NESTING_DEPTH)) by (repeat constructor; cbn; try discriminate).
    unfold cbor_read. destruct (C01_writer_accepts 32 v (Some MAX_CBOR_NESTING_DEPTH) ltac:(lia) V) as [A _].
    destruct (C01_roundtrip 32 v _ _ ltac:(lia) V (A D)) as [-> _]. reflexivity.
  - assert (Q : parse_upgrade v = if Nlen hash =? 32 then Ok (offset mod USIZE, data, hash) else Err INVALID_PARAMETER) by reflexivity.
    rewrite Q, Lh, N.mod_small by exact O. reflexivity.
Qed.

(** What an upgrade message on a board comes to. *)
Lemma request_is c p u k offset data a :
  p = partition_a \/ p = partition_b -> upgrade_new PAGE_SIZE (board p) = Ok u ->
  (forall d, Nlen (up_sha256 c d) = 32 /\ bytes_ok (up_sha256 c d) = true) ->
  bytes_ok data = true -> 0 < Nlen data -> 0x1000 <= offset -> offset + Nlen data < 0x41000 ->
  a = b_firmware (other p) + (offset - 0x1000) ->
  forall k1, k_erase_pages (board p) k (aligned_iter (mkRange a (Nlen data)) 4096) 4096 = (k1, Ok tt) ->
  forall k2 e, libtock_write (board p) k1 a data = (k2, Err e) ->
  k_vendor_message c (board p) k (Some u) (upgrade_request offset data (up_sha256 c data)) = (k2, Some [status_code INVALID_PARAMETER]).
Proof.
  intros Hp N Sh B Nz O1 O2 Ea k1 E1 k2 e E2. destruct (Sh data) as [S1 S2].
  destruct (request_parsed offset data (up_sha256 c data)) as (v & V1 & V2); auto; try (unfold USIZE; lia).
  unfold k_vendor_message, upgrade_request. change (0x42 =? 0x42) with true. cbn iota.
  unfold upgrade_request in V1. cbn [skipn] in V1. rewrite V1. cbn [rbind]. rewrite V2.
  unfold k_vendor_upgrade. rewrite (proj2 (bytes_eqb_eq _ _) eq_refl). cbn [negb].
  destruct (board_new p Hp) as (u' & fw & E' & L & Ps & F1 & F2 & F3 & F4 & F5 & F6). rewrite N in E'. injection E' as <-.
  assert (Pt : u_partition u = [u_metadata u; fw]).
  { destruct (la_parts _ _ _ L) as [Pt | [Pt _]]; [exact Pt | exfalso]. rewrite F1, F3, Ps in Pt. destruct Hp as [-> | ->]; discriminate Pt. }
  pose proof (la_meta _ _ _ L) as Lm. rewrite Ps in Lm.
  unfold k_write_bundle. destruct (N.eqb_spec (Nlen data) 0); [lia | ].
  assert (Fa : find_address (u_partition u) offset (Nlen data) = Some a).
  { rewrite Pt. cbn [find_address]. rewrite Lm, F1, F2. destruct (N.ltb_spec offset 4096); [lia | ].
    destruct (N.ltb_spec (offset - 4096) 0x40000); [ | lia].
    destruct (N.leb_spec (Nlen data) (0x40000 - (offset - 4096))); [ | lia]. now subst a. }
  rewrite Fa. assert (Im : contains_metadata u (mkRange a (Nlen data)) = Ok false).
  { unfold contains_metadata. replace (intersects_range (mkRange a (Nlen data)) (u_metadata u)) with false; [reflexivity | ].
    symmetry. unfold intersects_range, starts_inside, is_empty. cbn [mr_start mr_length]. rewrite Lm, F3.
    destruct (N.eqb_spec (Nlen data) 0); [lia | ]. change (4096 =? 0) with false. cbn [negb andb].
    assert (Q : b_metadata (other p) + 4096 <= a) by (subst a; destruct Hp as [-> | ->]; [change (b_metadata (other partition_a)) with 0x5000;
      change (b_firmware (other partition_a)) with 0x60000 | change (b_metadata (other partition_b)) with 0x4000;
      change (b_firmware (other partition_b)) with 0x20000]; lia).
    clear - Q. lia. }
  rewrite Im. cbn [rbind]. rewrite Ps, E1, E2. reflexivity.
Qed.

(** One message that asks to write a single byte, and that every host can send without anybody touching the
    device: it is answered with an error, and from then on, until the device is restarted, the store can neither
    write nor erase, and nothing changes the flash any more. *)
Theorem C69_stuck : forall c p u k,
  p = partition_a \/ p = partition_b -> upgrade_new PAGE_SIZE (board p) = Ok u ->
  (forall d, Nlen (up_sha256 c d) = 32 /\ bytes_ok (up_sha256 c d) = true) -> ready k ->
  exists k', k_vendor_message c (board p) k (Some u) (upgrade_request 0x1001 [0] (up_sha256 c [0])) =
               (k', Some [status_code INVALID_PARAMETER]) /\
    forall t l, let k'' := uses c (board p) t (Some u) k' l in
      k_mem k'' = k_mem k /\
      (forall page byte v, snd (tock_write (board p) t k'' page byte v) <> Ok tt) /\
      (forall page, snd (tock_erase (board p) t k'' page) <> Ok tt).
Proof.
  intros c p u k Hp N Sh [R1 R2]. set (a := b_firmware (other p) + (0x1001 - 0x1000)).
  destruct (libtock_write (board p) k a [0]) as [k' r] eqn:E.
  assert (Q : k' = set_buffer (set_waiting (set_buffer k false) true) true /\ r = Err INVAL).
  { apply write_cases in E as [(F & _) | (_ & E)].
    - exfalso. revert F. unfold a. destruct Hp as [-> | ->]; vm_compute; discriminate.
    - destruct E as [(X & _) | [(_ & X & _) | [(_ & _ & X & _) | [(_ & _ & _ & _ & X & Y) | (_ & _ & _ & _ & X & _)]]]]; try congruence.
      + revert X. vm_compute. discriminate.
      + auto.
      + revert X. vm_compute. discriminate. }
  destruct Q as [Ek ->]. exists k'. split.
  - apply (request_is c p u k 0x1001 [0] a Hp N Sh) with (k1 := k) (e := INVAL); auto; try (unfold Nlen; cbn [length]; lia).
    assert (Z : aligned_iter (mkRange a (Nlen [0])) 4096 = []) by (unfold a; destruct Hp as [-> | ->]; reflexivity). rewrite Z. reflexivity.
  - intros t l k''. assert (W : k_waiting k' = true) by (subst k'; reflexivity).
    destruct (uses_stuck c (board p) t (Some u) l k' W) as [W2 M2]. split; [unfold k''; rewrite M2, Ek; reflexivity | ]. split.
    + intros. apply tock_write_starved. right. exact W2.
    + intros. apply tock_erase_stuck. exact W2.
Qed.
Print Assumptions C69_stuck.

(** A message with more data than a page: afterwards the store cannot write until the device is restarted. *)
Theorem C69_starved : forall c p u k,
  p = partition_a \/ p = partition_b -> upgrade_new PAGE_SIZE (board p) = Ok u ->
  (forall d, Nlen (up_sha256 c d) = 32 /\ bytes_ok (up_sha256 c d) = true) -> ready k -> proper k ->
  exists k', let data := repeat 0 (N.to_nat 4100) in
    k_vendor_message c (board p) k (Some u) (upgrade_request 0x1000 data (up_sha256 c data)) =
               (k', Some [status_code INVALID_PARAMETER]) /\
    forall t l page byte v, snd (tock_write (board p) t (uses c (board p) t (Some u) k' l) page byte v) <> Ok tt.
Proof.
  intros c p u k Hp N Sh R P. cbv zeta. set (a := b_firmware (other p) + (0x1000 - 0x1000)). set (data := repeat 0 (N.to_nat 4100)).
  assert (Ln : Nlen data = 4100) by (unfold data, Nlen; rewrite repeat_length; apply N2Nat.id).
  assert (Bd : bytes_ok data = true) by (vm_compute; reflexivity).
  assert (Z : aligned_iter (mkRange a 4100) 4096 = [a; a + 4096]) by (unfold a; destruct Hp as [-> | ->]; reflexivity).
  assert (A1 : a mod 4096 = 0 /\ (a + 4096) mod 4096 = 0) by (unfold a; destruct Hp as [-> | ->]; split; reflexivity). destruct A1 as [A1 A2].
  assert (F1 : fits_in_storage_location (board p) a 4096 = true /\ fits_in_storage_location (board p) (a + 4096) 4096 = true /\
               fits_in_storage_location (board p) a 4100 = true) by (unfold a; destruct Hp as [-> | ->]; repeat split; vm_compute; reflexivity).
  destruct F1 as (F1 & F2 & F3).
  destruct (libtock_erase_ok (board p) k a R P F1 A1) as (k1 & E1 & R1 & P1 & _).
  destruct (libtock_erase_ok (board p) k1 (a + 4096) R1 P1 F2 A2) as (k2 & E2 & R2 & P2 & _).
  destruct (libtock_write (board p) k2 a data) as [k' r] eqn:E. destruct R2 as [R2 R3].
  assert (Q : k' = set_buffer k2 false /\ r = Err INVAL).
  { apply write_cases in E as [(F & _) | (_ & E)]; [rewrite Ln, F3 in F; discriminate | ]. rewrite Ln in E.
    destruct E as [(X & _) | [(_ & _ & X & Y) | [(_ & X & _) | [(_ & X & _) | (_ & X & _)]]]]; try congruence; [auto | | | ]; exfalso; apply X; reflexivity. }
  destruct Q as [Ek ->]. exists k'. split.
  - apply (request_is c p u k 0x1000 data a Hp N Sh) with (k1 := k2) (e := INVAL); auto; rewrite ?Ln; try lia.
    rewrite Z. cbn [k_erase_pages]. rewrite E1, E2. reflexivity.
  - intros t l page byte v. apply tock_write_starved. left. apply uses_starved. subst k'. reflexivity.
Qed.
Print Assumptions C69_starved.

(** Hence the flash is not always available to the store. *)
Definition toy_hash : uprims := mkUprims (fun _ => repeat 7 32) (fun _ => true) (fun _ _ => true) (fun _ _ _ _ => true) [].
Lemma toy_hash_ok : forall d, Nlen (up_sha256 toy_hash d) = 32 /\ bytes_ok (up_sha256 toy_hash d) = true.
Proof. intro d. split; reflexivity. Qed.
Theorem C69_available_refuted : ~ (forall c p u t k b k' r,
  p = partition_a \/ p = partition_b -> upgrade_new PAGE_SIZE (board p) = Ok u -> tock_new (board p) = Ok t ->
  (forall d, Nlen (up_sha256 c d) = 32 /\ bytes_ok (up_sha256 c d) = true) -> ready k -> proper k ->
  k_vendor_message c (board p) k (Some u) b = (k', r) -> exists k'', tock_erase (board p) t k' 0 = (k'', Ok tt)).
Proof.
  intro H. destruct (board_new partition_a (or_introl eq_refl)) as (u & fw & E & _).
  set (k := mkKernel (fun _ => 255) (fun _ => 0%nat) (fun _ => 0%nat) false true).
  destruct (C69_stuck toy_hash partition_a u k (or_introl eq_refl) E toy_hash_ok (conj eq_refl eq_refl)) as (k' & M & S).
  assert (T : exists t, tock_new (board partition_a) = Ok t) by (eexists; vm_compute; reflexivity). destruct T as [t T].
  destruct (H toy_hash partition_a u t k _ k' _ (or_introl eq_refl) E T toy_hash_ok (conj eq_refl eq_refl) (fun _ => eq_refl) M) as [k'' Ek].
  destruct (S t []) as (_ & _ & Q). apply (Q 0). cbn [uses fold_left]. unfold uses. cbn [fold_left]. now rewrite Ek.
Qed.
Print Assumptions C69_available_refuted.

(** ** A concrete upgrade on the kernel *)
Definition toy_kernel : kernel := mkKernel toy_flash (fun _ => 0%nat) (fun _ => 0%nat) false true.
Example C69_nonvacuous :
  ready toy_kernel /\ (exists u k', upgrade_new PAGE_SIZE (board partition_a) = Ok u /\
    k_vendor_upgrade toy_up (board partition_a) toy_kernel (Some u) 0 (toy_metadata 5) (repeat 5 32) = (k', Ok tt) /\
    holds (k_mem k') 0x5000 (toy_metadata 5) /\ ready k') /\
  (exists a, ~ in_location (board partition_a) a /\ k_mem toy_kernel a = 255) /\
  (exists k', fst (command (board partition_a) toy_kernel 2 0x60000 4 [1; 2; 3; 4]) = k' /\ k_mem k' 0x60001 = 2) /\
  word_wise (upgrade_request 0x1000 [1; 2; 3; 4] (up_sha256 toy_hash [])) /\ ~ word_wise (upgrade_request 0x1001 [0] (up_sha256 toy_hash [])).
Proof.
  split; [split; reflexivity | ]. split; [ | split; [ | split; [ | split]]].
  - destruct (board_new partition_a (or_introl eq_refl)) as (u & fw & E & _). exists u.
    assert (P : proper toy_kernel).
    { intro x. cbn [toy_kernel k_mem]. unfold toy_flash. destruct (inside x 0x4000 0x1000); [ | reflexivity].
      destruct (x <? 0x4060); [reflexivity | ]. destruct (x =? 0x4800); [reflexivity | ]. destruct (x =? 0x480A); reflexivity. }
    assert (Ac : acceptable toy_up (le (read toy_flash 0x4800 8)) 0x60000 (toy_metadata 5)) by (split; vm_compute; (discriminate || reflexivity)).
    assert (Ob : bytes_ok (toy_metadata 5) = true) by (vm_compute; reflexivity).
    assert (Nd : toy_metadata 5 <> []) by discriminate.
    assert (K1 : up_signature_ok toy_up (slice (toy_metadata 5) 32 64) = true) by reflexivity.
    assert (L1 : Nlen (toy_metadata 5) mod 4 = 0) by (vm_compute; reflexivity).
    assert (L2 : Nlen (toy_metadata 5) <= 0x1000) by (vm_compute; discriminate).
    destruct (C69_applied toy_up partition_a u toy_kernel 0 (toy_metadata 5) (or_introl eq_refl) E (conj eq_refl eq_refl) P Ob Nd eq_refl L1 L2
       (or_intror (conj eq_refl (conj Ac (conj eq_refl (conj eq_refl (conj eq_refl K1))))))) as (k' & V & H & R & _).
    exists k'. split; [exact E | ]. split; [exact V | ]. split; [exact H | exact R].
  - exists 0x20000. split; [ | reflexivity].
    intros (l & I & W). change (board partition_a) with (mkLocation Store 0xC0000 0x10000 :: mkLocation Store 0xD0000 0x4000 ::
      mkLocation Partition 0x4000 0x2000 :: mkLocation Partition 0x60000 0x20000 :: [mkLocation Partition 0x80000 0x20000]) in I.
    unfold Flash.Spec.within in W. cbn [In] in I. repeat destruct I as [I | I]; try contradiction; subst l; cbn [l_ptr l_len] in W; lia.
  - eexists. split; [reflexivity | ]. vm_compute. reflexivity.
  - intros rest v o d h Eb Ec Ep.
    destruct (request_parsed 0x1000 [1; 2; 3; 4] (up_sha256 toy_hash [])) as (w & W1 & W2); try reflexivity.
    rewrite Eb in W1. cbn [skipn] in W1. rewrite Ec in W1. injection W1 as <-. rewrite Ep in W2. injection W2 as -> -> _.
    repeat split. discriminate.
  - intro H. destruct (request_parsed 0x1001 [0] (up_sha256 toy_hash [])) as (w & W1 & W2); try reflexivity.
    destruct (H _ _ _ _ _ eq_refl W1 W2) as [Q _]. revert Q. vm_compute. discriminate.
Qed.
