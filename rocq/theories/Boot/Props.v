(** C71: the bootloader's hash accelerator. *)
From Verif Require Import Base Facts Hash.Model Hash.Proofs Boot.Model Boot.Proofs.
From Verif Require Hash.Spec Upgrade.Model.
Open Scope N_scope.

(** Whole blocks, at least one, at most what a transfer can take. *)
Definition whole (d : bytes) : Prop :=
  d <> [] /\ (exists k, length d = (64 * k)%nat) /\ Nlen d < 2 ^ 30.

(** A message that is given in pieces of whole blocks, and a last piece of any length, is hashed as
    FIPS 180-4 says. *)
Theorem C71_digest_partial : forall h chunks last,
  hw_auto_padding h = false -> Forall whole chunks -> Nlen last < 2 ^ 30 ->
  8 * Nlen (concat chunks ++ last) < 2 ^ 64 ->
  Spec.is_sha256 (concat chunks ++ last)
                 (fst (finalize_and_clear (update (updates (new h) chunks) last true))).
Proof.
  intros h chunks last Ha HF B Hl.
  assert (Hl' : 8 * Nlen ([] ++ concat chunks) < 2 ^ 64).
  { cbn [app]. unfold Nlen in *. rewrite app_length in Hl. set (x := 2 ^ 64) in *. lia. }
  destruct (updates_fed chunks [] (new h) (new_fed h) Ha HF Hl') as [F _].
  exact (update_last _ _ last F B Hl).
Qed.
Print Assumptions C71_digest_partial.

(** The same on an accelerator that was used before, in whatever way. *)
Theorem C71_again_partial : forall earlier d b chunks last,
  Forall whole chunks -> Nlen last < 2 ^ 30 ->
  8 * Nlen (concat chunks ++ last) < 2 ^ 64 ->
  Spec.is_sha256 (concat chunks ++ last)
    (fst (finalize_and_clear (update (updates (new (hw (update earlier d b))) chunks) last true))).
Proof. intros earlier d b chunks last. apply C71_digest_partial. reflexivity. Qed.
Print Assumptions C71_again_partial.

(** The documentation asks for pieces whose sizes are multiples of 64.  An empty piece is one, and it ends
    the message. *)
Definition idle : hardware := mkHw (mkRegs 0 0 0 0 0 0 0 0) 0 0 false.

Lemma not_sha256 m d :
  match hash 64 m with Some d' => bytes_eqb d d' | None => true end = false ->
  Nlen m < 2 ^ 32 -> ~ Spec.is_sha256 m d.
Proof.
  intros E B S.
  assert (C : concat [m] = m) by (cbn [concat]; apply app_nil_r).
  destruct (stream_ok 64 [m]) as (x & Ex & Sx); rewrite ?C in *.
  - apply (N.lt_trans _ _ _ B). reflexivity.
  - apply (N.lt_le_trans _ (8 * 2 ^ 32)); [set (y := 2 ^ 32) in *; lia | discriminate].
  - unfold hash in E. rewrite Ex in E.
    rewrite (is_sha256_fun _ _ _ S Sx) in E.
    unfold bytes_eqb in E. rewrite lexcmp_refl in E. discriminate.
Qed.

Theorem C71_digest_refuted :
  ~ (forall h chunks last,
       hw_auto_padding h = false ->
       Forall (fun d => (length d mod 64 = 0)%nat) chunks -> Nlen last < 2 ^ 30 ->
       8 * Nlen (concat chunks ++ last) < 2 ^ 64 ->
       Spec.is_sha256 (concat chunks ++ last)
                      (fst (finalize_and_clear (update (updates (new h) chunks) last true)))).
Proof.
  intros H.
  specialize (H idle [[]] [1] eq_refl).
  assert (S : Spec.is_sha256 [1] (fst (finalize_and_clear (update (updates (new idle) [[]]) [1] true)))).
  { apply H; [constructor; [reflexivity | constructor] | vm_compute; reflexivity | vm_compute; reflexivity]. }
  revert S. apply not_sha256; [vm_compute; reflexivity | vm_compute; reflexivity].
Qed.
Print Assumptions C71_digest_refuted.

(** "Clears the data for potential reuse": a driver that is used again computes something else, because
    clearing does not restore the initial value. *)
Theorem C71_reuse_refuted :
  ~ (forall c m, Nlen m < 2 ^ 30 ->
       Spec.is_sha256 m (fst (finalize_and_clear (update (snd (finalize_and_clear c)) m true)))).
Proof.
  intros H.
  specialize (H (new idle) [1] ltac:(vm_compute; reflexivity)).
  revert H. apply not_sha256; [vm_compute; reflexivity | vm_compute; reflexivity].
Qed.
Print Assumptions C71_reuse_refuted.

(** ** The bootloader *)

Lemma read_len m n : forall a, length (Upgrade.Model.read m a n) = n.
Proof. induction n as [ | n IH]; intros a; cbn; [reflexivity | rewrite IH; reflexivity]. Qed.

Lemma page_len m a : length (Upgrade.Model.read_page m a) = (64 * 64)%nat.
Proof. unfold Upgrade.Model.read_page. rewrite read_len. vm_compute. reflexivity. Qed.

Lemma whole_len d k : length d = (64 * S k)%nat -> (S k <= 64)%nat -> whole d.
Proof.
  intros L B. split; [ | split].
  - intros ->. cbn in L. lia.
  - exists (S k). exact L.
  - apply (N.le_lt_trans _ 4096); [unfold Nlen; lia | vm_compute; reflexivity].
Qed.

Definition offsets : list N := Upgrade.Model.from_step 0 Upgrade.Model.PAGE_SIZE 63.

Lemma offsets_all :
  Upgrade.Model.from_step 0 Upgrade.Model.PAGE_SIZE
    (N.to_nat (Upgrade.Model.FIRMWARE_LENGTH / Upgrade.Model.PAGE_SIZE)) = offsets ++ [0x3F000].
Proof. vm_compute. reflexivity. Qed.

Lemma offsets_inner :
  forallb (fun o => negb (o + Upgrade.Model.PAGE_SIZE =? Upgrade.Model.FIRMWARE_LENGTH)) offsets = true.
Proof. vm_compute. reflexivity. Qed.

Lemma inner_pages (f : N -> bytes) l : forall c,
  forallb (fun o => negb (o + Upgrade.Model.PAGE_SIZE =? Upgrade.Model.FIRMWARE_LENGTH)) l = true ->
  fold_left (fun c o => update c (f o) (o + Upgrade.Model.PAGE_SIZE =? Upgrade.Model.FIRMWARE_LENGTH)) l c
  = updates c (map f l).
Proof.
  unfold updates. induction l as [ | o l IH]; intros c Hl; [reflexivity | ].
  cbn [forallb] in Hl. apply andb_prop in Hl. destruct Hl as [H1 H2].
  cbn [fold_left map]. apply negb_true_iff in H1. rewrite H1. apply IH. exact H2.
Qed.

Lemma offsets_len : length offsets = 63%nat.
Proof. vm_compute. reflexivity. Qed.

Lemma pages_len (f : N -> bytes) (l : list N) : (forall o, length (f o) = (64 * 64)%nat) ->
  length (concat (map f l)) = (length l * (64 * 64))%nat.
Proof.
  intros Hf. induction l as [ | o l IH]; [reflexivity | ].
  cbn [map concat length]. rewrite app_length, Hf, IH. reflexivity.
Qed.

Lemma last_page : 0x3F000 + Upgrade.Model.PAGE_SIZE =? Upgrade.Model.FIRMWARE_LENGTH = true.
Proof. vm_compute. reflexivity. Qed.

Lemma hash_pages h (meta : bytes) (f : N -> bytes) :
  hw_auto_padding h = false -> length meta = (64 * 32)%nat -> (forall o, length (f o) = (64 * 64)%nat) ->
  let message := meta ++ flat_map f (offsets ++ [0x3F000]) in
  Nlen message = 264192 /\
  Spec.is_sha256 message
    (fst (finalize_and_clear
       (fold_left (fun c o => update c (f o) (o + Upgrade.Model.PAGE_SIZE =? Upgrade.Model.FIRMWARE_LENGTH))
                  (offsets ++ [0x3F000]) (update (new h) meta false)))).
Proof.
  intros Ha Lm Lf message.
  assert (Em : message = concat (meta :: map f offsets) ++ f 0x3F000).
  { unfold message. rewrite flat_map_app, flat_map_concat_map. cbn [flat_map concat].
    rewrite app_nil_r, app_assoc. reflexivity. }
  pose proof (pages_len f offsets Lf) as Lp. rewrite offsets_len in Lp.
  assert (B : Nlen message = 264192).
  { rewrite Em. unfold Nlen. cbn [concat]. rewrite !app_length, Lm, Lp, Lf. vm_compute. reflexivity. }
  split; [exact B | ].
  rewrite fold_left_app. cbn [fold_left]. rewrite inner_pages by exact offsets_inner. rewrite last_page.
  rewrite Em in *. clear message Em.
  apply (C71_digest_partial h (meta :: map f offsets) (f 0x3F000) Ha).
  - constructor; [apply (whole_len _ 31); [exact Lm | lia] | ].
    apply Forall_forall. intros d Hd. apply in_map_iff in Hd. destruct Hd as (o & <- & _).
    apply (whole_len _ 63); [apply Lf | lia].
  - apply (N.le_lt_trans _ 4096); [unfold Nlen; rewrite Lf; vm_compute; discriminate | vm_compute; reflexivity].
  - rewrite B. vm_compute. reflexivity.
Qed.

(** The bootloader computes the hash that the model of C50 takes it to compute: SHA-256 of the second
    half of the metadata and the firmware. *)
Theorem C71_bootloader : forall c h m p,
  (forall x, Nlen x < 2 ^ 32 -> Spec.is_sha256 x (Upgrade.Model.up_sha256 c x)) ->
  hw_auto_padding h = false ->
  let page := Upgrade.Model.read_page m (Upgrade.Model.b_metadata p) in
  compute_upgrade_hash h m p page = Upgrade.Model.compute_upgrade_hash c m p page.
Proof.
  intros c h m p Hc Ha page.
  unfold compute_upgrade_hash, Upgrade.Model.compute_upgrade_hash. cbv zeta.
  rewrite offsets_all.
  assert (Lm : length (skipn (N.to_nat Upgrade.Model.METADATA_SIGN_OFFSET) page) = (64 * 32)%nat).
  { rewrite skipn_length. unfold page. rewrite page_len. vm_compute. reflexivity. }
  set (meta := skipn _ page) in *. clearbody meta.
  destruct (hash_pages h meta (fun o => Upgrade.Model.read_page m (Upgrade.Model.b_firmware p + o))
              Ha Lm (fun o => page_len m _)) as [B S].
  cbv beta zeta in B, S.
  set (x := meta ++ _) in *. clearbody x.
  match type of S with Spec.is_sha256 _ ?a => match goal with |- ?b = _ => constr_eq a b end end.
  refine (is_sha256_fun x _ _ S (Hc x _)).
  rewrite B. vm_compute. reflexivity.
Qed.
Print Assumptions C71_bootloader.

(** So it starts the partition that C50 says. *)
Theorem C71_boot : forall c h h' m,
  (forall x, Nlen x < 2 ^ 32 -> Spec.is_sha256 x (Upgrade.Model.up_sha256 c x)) ->
  hw_auto_padding h = false -> hw_auto_padding h' = false ->
  boot h h' m = Upgrade.Model.boot c m.
Proof.
  intros c h h' m Hc Ha Ha'.
  assert (V : forall h p, hw_auto_padding h = false -> read_version h m p = Upgrade.Model.read_version c m p).
  { intros h0 p H0. unfold read_version, Upgrade.Model.read_version. cbv zeta.
    rewrite (C71_bootloader c h0 m p Hc H0). reflexivity. }
  unfold boot, Upgrade.Model.boot. rewrite !V by assumption. reflexivity.
Qed.
Print Assumptions C71_boot.

(** The hypotheses are met: a message of two pieces; a function that is SHA-256. *)
Example C71_nonvacuous :
  Forall whole [repeat 7 128; repeat 8 64] /\
  fst (finalize_and_clear (update (updates (new idle) [repeat 7 128; repeat 8 64]) [1; 2; 3] true))
  = match hash 64 (repeat 7 128 ++ repeat 8 64 ++ [1; 2; 3]) with Some d => d | None => [] end.
Proof.
  split; [ | vm_compute; reflexivity].
  repeat constructor; try discriminate; try (vm_compute; reflexivity).
  - exists 2%nat. reflexivity.
  - exists 1%nat. reflexivity.
Qed.

Example C71_sha256_nonvacuous :
  forall x : bytes, Nlen x < 2 ^ 32 -> Spec.is_sha256 x (match hash 64 x with Some d => d | None => [] end).
Proof.
  intros x B.
  assert (C : concat [x] = x) by (cbn [concat]; apply app_nil_r).
  destruct (stream_ok 64 [x]) as (d & E & S); rewrite ?C in *.
  - apply (N.lt_trans _ _ _ B). reflexivity.
  - apply (N.lt_le_trans _ (8 * 2 ^ 32)); [set (y := 2 ^ 32) in *; lia | discriminate].
  - unfold hash. rewrite E. exact S.
Qed.
