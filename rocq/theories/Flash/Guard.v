(** Lemmas about what the kernel lets applications do to the flash. *)
From Verif Require Import Base Facts Cbor.Model Cbor.Spec Cbor.Proofs4 Ctap.Crypto Ctap.Types Ctap.Machine Ctap.Parse
  Ctap.Stored Upgrade.Model Upgrade.Proofs.
From Verif.Store Require Import Format Bits Words.
From Verif.Flash Require Import Model Spec Proofs.
Local Open Scope N_scope.
Ltac Zify.zify_post_hook ::= idtac.

Notation within := Flash.Spec.within.

(** ** Single commands *)

Lemma set_word_outside k a v x : ~ within x a 4 -> k_mem (set_word k a v) x = k_mem k x.
Proof. intro H. apply inside_false in H. cbn [set_word k_mem]. now rewrite H. Qed.
Lemma set_word_proper k a v : proper k -> proper (set_word k a v).
Proof. intros P x. cbn [set_word k_mem]. destruct (inside x a 4); [apply word_bytes_small | apply P]. Qed.

Lemma write_words_outside (v : bytes) : forall k ptr x, ~ within x ptr (Nlen v) -> k_mem (write_words k ptr v) x = k_mem k x.
Proof.
  induction v as [ | a | a b | a b c | b0 b1 b2 b3 r IH] using bytes4_ind; intros k ptr x H; try reflexivity.
  cbn [write_words]. unfold Flash.Spec.within, Nlen in H. cbn [length] in H.
  rewrite IH by (unfold Flash.Spec.within, Nlen; lia).
  destruct (is_write_needed _ _); [ | reflexivity]. apply set_word_outside. unfold Flash.Spec.within. lia.
Qed.
Lemma write_words_proper (v : bytes) : forall k ptr, proper k -> proper (write_words k ptr v).
Proof.
  induction v as [ | a | a b | a b c | b0 b1 b2 b3 r IH] using bytes4_ind; intros k ptr P; try exact P.
  cbn [write_words]. apply IH. destruct (is_write_needed _ _); [apply set_word_proper | ]; exact P.
Qed.
Lemma write_words_flags (v : bytes) : forall k ptr,
  k_waiting (write_words k ptr v) = k_waiting k /\ k_buffer (write_words k ptr v) = k_buffer k.
Proof.
  induction v as [ | a | a b | a b c | b0 b1 b2 b3 r IH] using bytes4_ind; intros k ptr; try (split; reflexivity).
  cbn [write_words]. destruct (IH (if is_write_needed (get_word (k_mem k) ptr) (word_of b0 b1 b2 b3)
    then set_word k ptr (word_of b0 b1 b2 b3) else k) (ptr + 4)) as [-> ->].
  destruct (is_write_needed _ _); split; reflexivity.
Qed.

(** The possible outcomes of the command that writes. *)
Lemma write_cases locs k ptr len v k' r : command locs k 2 ptr len v = (k', r) ->
  (fits_in_storage_location locs ptr len = false /\ k' = k /\ r = Err INVAL) \/
  fits_in_storage_location locs ptr len = true /\
  ((k_buffer k = false /\ k' = k /\ r = Err RESERVE) \/
   (k_buffer k = true /\ 4096 < Nlen v /\ k' = set_buffer k false /\ r = Err INVAL) \/
   (k_buffer k = true /\ Nlen v <= 4096 /\ k_waiting k = true /\ k' = set_buffer k false /\ r = Err BUSY) \/
   (k_buffer k = true /\ Nlen v <= 4096 /\ k_waiting k = false /\ (ptr mod 4 <> 0 \/ Nlen v mod 4 <> 0) /\
      k' = set_buffer (set_waiting (set_buffer k false) true) true /\ r = Err INVAL) \/
   (k_buffer k = true /\ Nlen v <= 4096 /\ k_waiting k = false /\ ptr mod 4 = 0 /\ Nlen v mod 4 = 0 /\
      k' = deferred (set_buffer (write_words (set_waiting (set_buffer k false) true) ptr v) true) /\ r = Ok tt)).
Proof.
  unfold command. change ((2 =? 2) || (2 =? 3)) with true. change (2 =? 2) with true. cbn iota. cbn [andb].
  destruct (fits_in_storage_location locs ptr len); cbn [negb]; [ | intro H; injection H as <- <-; left; auto].
  intro H. right. split; [reflexivity | ]. unfold command_write in H.
  destruct (k_buffer k) eqn:B; cbn [negb] in H; [ | injection H as <- <-; left; auto].
  destruct (N.ltb_spec BUFFER_LEN (Nlen v)) as [L | L]; unfold BUFFER_LEN in L; [injection H as <- <-; right; left; auto | ].
  cbn [set_buffer k_waiting] in H. destruct (k_waiting k) eqn:W; [injection H as <- <-; right; right; left; auto | ].
  unfold driver_write in H. rewrite !land_3 in H.
  destruct (N.eqb_spec (ptr mod 4) 0) as [A | A]; cbn [negb orb] in H; [ | injection H as <- <-; do 3 right; left; auto 10].
  destruct (N.eqb_spec (Nlen v mod 4) 0) as [A' | A']; cbn [negb] in H; [ | injection H as <- <-; do 3 right; left; auto 10].
  injection H as <- <-. do 4 right. auto 10.
Qed.
(** The possible outcomes of the command that erases. *)
Definition erase_at (k : kernel) (a : N) : kernel :=
  mkKernel (fun x => if inside x a 4096 then 255 else k_mem k x)
           (fun x => if inside x a 4096 then 0%nat else k_writes k x)
           (fun x => if x =? a then S (k_erases k x) else k_erases k x) false (k_buffer k).
Lemma erase_cases locs k ptr len v k' r : command locs k 3 ptr len v = (k', r) ->
  (fits_in_storage_location locs ptr len = false /\ k' = k /\ r = Err INVAL) \/
  fits_in_storage_location locs ptr len = true /\
  ((len <> 4096 /\ k' = k /\ r = Err INVAL) \/
   (len = 4096 /\ k_waiting k = true /\ k' = k /\ r = Err BUSY) \/
   (len = 4096 /\ k_waiting k = false /\ ptr mod 4096 <> 0 /\ k' = set_waiting k true /\ r = Err INVAL) \/
   (len = 4096 /\ k_waiting k = false /\ ptr mod 4096 = 0 /\ k' = erase_at k ptr /\ r = Ok tt)).
Proof.
  unfold command. change ((3 =? 2) || (3 =? 3)) with true. change (3 =? 2) with false. change (3 =? 3) with true. cbn iota. cbn [andb].
  destruct (fits_in_storage_location locs ptr len); cbn [negb]; [ | intro H; injection H as <- <-; left; auto].
  intro H. right. split; [reflexivity | ]. unfold command_erase in H. change PAGE_SIZE with 4096 in H.
  destruct (N.eqb_spec len 4096) as [-> | L]; cbn [negb] in H; [ | injection H as <- <-; left; auto]. right.
  destruct (k_waiting k) eqn:W; [injection H as <- <-; left; auto | ]. right.
  unfold driver_erase in H. rewrite land_4095 in H.
  destruct (N.eqb_spec (ptr mod 4096) 0) as [A | A]; cbn [negb] in H; [ | injection H as <- <-; left; auto]. right.
  assert (Pg : ptr / 4096 * 4096 = ptr).
  { pose proof (N.div_mod ptr 4096 ltac:(discriminate)) as D. rewrite A in D. clear - D. lia. }
  change PAGE_SIZE with 4096 in H. rewrite Pg in H. injection H as <- <-. auto.
Qed.
Lemma other_cases locs k cmd ptr len v k' r : cmd <> 2 -> cmd <> 3 -> command locs k cmd ptr len v = (k', r) ->
  k' = k /\ r = Err NOSUPPORT.
Proof.
  intros A B. unfold command. apply N.eqb_neq in A, B. rewrite A, B. cbn [orb andb]. intro H. injection H as <- <-. auto.
Qed.

Lemma written_mem k ptr v x : k_mem (deferred (set_buffer (write_words (set_waiting (set_buffer k false) true) ptr v) true)) x =
  k_mem (write_words (set_waiting (set_buffer k false) true) ptr v) x.
Proof. reflexivity. Qed.

Lemma command_frame locs k cmd ptr len v k' r x : command locs k cmd ptr len v = (k', r) ->
  (cmd = 2 -> Nlen v <= len) -> ~ in_location locs x -> k_mem k' x = k_mem k x.
Proof.
  intros H L X. assert (Out : forall n, fits_in_storage_location locs ptr len = true -> n <= len -> ~ within x ptr n).
  { intros n F Ln W. apply fits_inv in F as (l & I & A & B). apply X. exists l. split; [exact I | ].
    unfold Flash.Spec.within in *. clear - A B W Ln. lia. }
  destruct (N.eq_dec cmd 2) as [-> | N2].
  - apply write_cases in H as [(_ & -> & _) | (F & H)]; [reflexivity | ].
    destruct H as [(_ & -> & _) | [(_ & _ & -> & _) | [(_ & _ & _ & -> & _) | [(_ & _ & _ & _ & -> & _) | (_ & _ & _ & _ & _ & -> & _)]]]];
      try reflexivity.
    rewrite written_mem, write_words_outside; [reflexivity | ]. apply Out; auto.
  - destruct (N.eq_dec cmd 3) as [-> | N3]; [ | now destruct (other_cases _ _ _ _ _ _ _ _ N2 N3 H) as [-> _]].
    apply erase_cases in H as [(_ & -> & _) | (F & H)]; [reflexivity | ].
    destruct H as [(_ & -> & _) | [(_ & _ & -> & _) | [(_ & _ & _ & -> & _) | (El & _ & _ & -> & _)]]]; try reflexivity.
    cbn [erase_at k_mem]. replace (inside x ptr 4096) with false; [reflexivity | ]. symmetry. apply inside_false, Out; [exact F | ].
    rewrite El. apply N.le_refl.
Qed.
Lemma command_proper locs k cmd ptr len v k' r : command locs k cmd ptr len v = (k', r) -> proper k -> proper k'.
Proof.
  intros H P. destruct (N.eq_dec cmd 2) as [-> | N2].
  - apply write_cases in H as [(_ & -> & _) | (F & H)]; [exact P | ].
    destruct H as [(_ & -> & _) | [(_ & _ & -> & _) | [(_ & _ & _ & -> & _) | [(_ & _ & _ & _ & -> & _) | (_ & _ & _ & _ & _ & -> & _)]]]];
      try exact P. intro x. rewrite written_mem. apply write_words_proper. exact P.
  - destruct (N.eq_dec cmd 3) as [-> | N3]; [ | now destruct (other_cases _ _ _ _ _ _ _ _ N2 N3 H) as [-> _]].
    apply erase_cases in H as [(_ & -> & _) | (F & H)]; [exact P | ].
    destruct H as [(_ & -> & _) | [(_ & _ & -> & _) | [(_ & _ & _ & -> & _) | (_ & _ & _ & -> & _)]]]; try exact P.
    intro x. cbn [erase_at k_mem]. destruct (inside x ptr 4096); [reflexivity | apply P].
Qed.
(** A driver that waits for ever refuses every command; one without its buffer refuses to write. *)
Lemma command_stuck locs k cmd ptr len v k' r : command locs k cmd ptr len v = (k', r) -> k_waiting k = true ->
  (exists e, r = Err e) /\ k_waiting k' = true /\ k_mem k' = k_mem k.
Proof.
  intros H W. destruct (N.eq_dec cmd 2) as [-> | N2].
  - apply write_cases in H as [(_ & -> & ->) | (F & H)]; [eauto | ].
    destruct H as [(_ & -> & ->) | [(_ & _ & -> & ->) | [(_ & _ & _ & -> & ->) | [(_ & _ & W' & _) | (_ & _ & W' & _)]]]];
      eauto; congruence.
  - destruct (N.eq_dec cmd 3) as [-> | N3]; [ | destruct (other_cases _ _ _ _ _ _ _ _ N2 N3 H) as [-> ->]; eauto].
    apply erase_cases in H as [(_ & -> & ->) | (F & H)]; [eauto | ].
    destruct H as [(_ & -> & ->) | [(_ & _ & -> & ->) | [(_ & W' & _) | (_ & W' & _)]]]; eauto; congruence.
Qed.
Lemma command_starved locs k cmd ptr len v k' r : command locs k cmd ptr len v = (k', r) -> k_buffer k = false ->
  (cmd = 2 -> exists e, r = Err e) /\ k_buffer k' = false.
Proof.
  intros H B. destruct (N.eq_dec cmd 2) as [-> | N2].
  - apply write_cases in H as [(_ & -> & ->) | (F & H)]; [eauto | ].
    destruct H as [(_ & -> & ->) | [(B' & _) | [(B' & _) | [(B' & _) | (B' & _)]]]]; eauto; congruence.
  - split; [contradiction | ].
    destruct (N.eq_dec cmd 3) as [-> | N3]; [ | destruct (other_cases _ _ _ _ _ _ _ _ N2 N3 H) as [-> ->]; eauto].
    apply erase_cases in H as [(_ & -> & ->) | (F & H)]; [eauto | ].
    destruct H as [(_ & -> & _) | [(_ & _ & -> & _) | [(_ & _ & _ & -> & _) | (_ & _ & _ & -> & _)]]]; exact B.
Qed.
Lemma write_ready locs k ptr v k' r : libtock_write locs k ptr v = (k', r) -> ready k ->
  ptr mod 4 = 0 -> Nlen v mod 4 = 0 -> Nlen v <= 4096 -> ready k'.
Proof.
  intros H [R1 R2] A B C. apply write_cases in H as [(_ & -> & _) | (F & H)]; [now split | ].
  destruct H as [(_ & -> & _) | [(_ & L & _) | [(_ & _ & W & _) | [(_ & _ & _ & L & _) | (_ & _ & _ & _ & _ & -> & _)]]]].
  - now split.
  - lia.
  - congruence.
  - destruct L; contradiction.
  - split; reflexivity.
Qed.
Lemma erase_ready locs k ptr ps k' r : libtock_erase locs k ptr ps = (k', r) -> ready k -> (ps = 4096 -> ptr mod 4096 = 0) -> ready k'.
Proof.
  intros H [R1 R2] A. apply erase_cases in H as [(_ & -> & _) | (F & H)]; [now split | ].
  destruct H as [(_ & -> & _) | [(_ & W & _) | [(E & _ & L & _) | (_ & _ & _ & -> & _)]]].
  - now split.
  - congruence.
  - elim L. auto.
  - now split.
Qed.

(** ** Upgrades *)

Definition same (k : kernel) (m : mem) : Prop := forall x, k_mem k x = m x.
Definition good {E} (r : res E unit) : bool := match r with Ok _ => true | Err _ => false end.

Lemma erase_sim locs k m a ps k' r : libtock_erase locs k a ps = (k', r) -> same k m ->
  exists f m', erase_page f m a ps = (m', good r) /\ same k' m' /\ (good r = true -> f = None).
Proof.
  intros H S. assert (Skip : k_mem k' = k_mem k -> good r = false -> exists f m', erase_page f m a ps = (m', good r) /\ same k' m' /\ (good r = true -> f = None)).
  { intros E G. exists (Some (k_mem k)). eexists. cbn [erase_page]. rewrite G. split; [reflexivity | ]. split; [ | discriminate].
    intro x. rewrite E. destruct (inside x a ps); [reflexivity | apply S]. }
  apply erase_cases in H as [(_ & -> & ->) | (F & H)]; [now apply Skip | ].
  destruct H as [(_ & -> & ->) | [(_ & _ & -> & ->) | [(_ & _ & _ & -> & ->) | (-> & _ & _ & -> & ->)]]]; try now apply Skip.
  exists None. eexists. split; [reflexivity | ]. split; [ | reflexivity]. intro x. cbn [erase_at k_mem]. now rewrite S.
Qed.
Lemma write_sim locs k m a v k' r : libtock_write locs k a v = (k', r) -> same k m -> proper k -> bytes_ok v = true ->
  exists f m', write_slice f m a v = (m', good r) /\ same k' m' /\ (good r = true -> f = None).
Proof.
  intros H S P B. assert (Skip : k_mem k' = k_mem k -> good r = false -> exists f m', write_slice f m a v = (m', good r) /\ same k' m' /\ (good r = true -> f = None)).
  { intros E G. exists (Some (k_mem k)). eexists. cbn [write_slice]. rewrite G. split; [reflexivity | ]. split; [ | discriminate].
    intro x. rewrite E. destruct (inside x a (Nlen v)); [reflexivity | apply S]. }
  apply write_cases in H as [(_ & -> & ->) | (F & H)]; [now apply Skip | ].
  destruct H as [(_ & -> & ->) | [(_ & _ & -> & ->) | [(_ & _ & _ & -> & ->) | [(_ & _ & _ & _ & -> & ->) | (_ & _ & _ & _ & L & -> & ->)]]]];
    try now apply Skip.
  exists None. eexists. split; [reflexivity | ]. split; [ | reflexivity]. intro x. rewrite written_mem.
  destruct (inside x a (Nlen v)) eqn:I.
  - apply inside_spec in I. unfold Flash.Spec.within, Nlen in I. pose proof (words4_mod v L) as W4.
    replace x with (a + N.of_nat (N.to_nat (x - a))) at 1 2 by lia.
    destruct (write_words_inside v (set_waiting (set_buffer k false) true) a (N.to_nat (x - a)) B P W4 ltac:(lia)) as [-> _].
    cbn [set_waiting set_buffer k_mem]. now rewrite S.
  - rewrite write_words_outside by now apply inside_false. exact (S x).
Qed.

Lemma erase_pages_ext pages : forall flt flt' n m ps m' ok n', erase_pages flt n m pages ps = (m', ok, n') ->
  (forall j, (n <= j < n')%nat -> flt' j = flt j) -> erase_pages flt' n m pages ps = (m', ok, n').
Proof.
  induction pages as [ | a pages IH]; intros flt flt' n m ps m' ok n' H E; [exact H | ]. cbn [erase_pages] in *.
  assert (Ln : forall flt n m m' ok n', erase_pages flt n m pages ps = (m', ok, n') -> (n <= n')%nat).
  { clear. induction pages as [ | b pages IH]; intros flt n m m' ok n' H; cbn [erase_pages] in H; [injection H as <- <- <-; lia | ].
    destruct (erase_page (flt n) m b ps) as [m1 [ | ]]; [apply IH in H; lia | injection H as <- <- <-; lia]. }
  assert (E0 : (n < n')%nat).
  { destruct (erase_page (flt n) m a ps) as [m1 [ | ]]; [apply Ln in H; lia | injection H as <- <- <-; lia]. }
  rewrite (E n) by lia. destruct (erase_page (flt n) m a ps) as [m1 [ | ]]; [ | exact H].
  eapply IH; [exact H | ]. intros j Hj. apply E. lia.
Qed.
Lemma pages_proper locs pages : forall k ps k' r, k_erase_pages locs k pages ps = (k', r) -> proper k -> proper k'.
Proof.
  induction pages as [ | a pages IH]; intros k ps k' r H P; cbn [k_erase_pages] in H; [injection H as <- <-; exact P | ].
  destruct (libtock_erase locs k a ps) as [k1 [[] | e]] eqn:E; apply command_proper in E; auto; [ | injection H as <- <-; exact E].
  eapply IH; eauto.
Qed.
Lemma pages_sim locs pages : forall k m n ps k' r, k_erase_pages locs k pages ps = (k', r) -> same k m ->
  exists flt m' n', erase_pages flt n m pages ps = (m', good r, n') /\ (n <= n')%nat /\ same k' m' /\
    (good r = true -> forall j, flt j = None).
Proof.
  induction pages as [ | a pages IH]; intros k m n ps k' r H S; cbn [k_erase_pages] in H.
  - injection H as <- <-. exists (fun _ => None), m, n. repeat split; auto.
  - destruct (libtock_erase locs k a ps) as [k1 r1] eqn:E. destruct (erase_sim _ _ _ _ _ _ _ E S) as (f & m1 & E1 & S1 & N1).
    destruct r1 as [[] | e]; cbn [good] in *.
    + destruct (IH k1 m1 (Datatypes.S n) ps k' r H S1) as (flt & m' & n' & E2 & L2 & S2 & N2).
      exists (fun j => if (j =? n)%nat then f else flt j), m', n'. cbn [erase_pages]. rewrite Nat.eqb_refl, E1.
      split; [ | split; [lia | split; [exact S2 | ]]].
      * eapply erase_pages_ext; [exact E2 | ]. intros j Hj. destruct (Nat.eqb_spec j n); [lia | reflexivity].
      * intros G j. rewrite N1 by reflexivity. rewrite N2 by exact G. now destruct (j =? n)%nat.
    + injection H as <- <-. exists (fun _ => f), m1, (Datatypes.S n). cbn [erase_pages good]. rewrite E1. repeat split; auto.
Qed.

Lemma check_metadata_ext c m m' u key d : (forall x, m x = m' x) -> check_metadata c m u key d = check_metadata c m' u key d.
Proof.
  intro E. unfold check_metadata, running_version. rewrite (read_ext _ m m') by (intros; apply E). reflexivity.
Qed.
Lemma check_hash_ext c m m' u d : (forall x, m x = m' x) -> check_partition_hash c m u d = check_partition_hash c m' u d.
Proof.
  intro E. unfold check_partition_hash, partition_bytes.
  assert (Q : forall l, flat_map (fun r => read m (mr_start r) (N.to_nat (mr_length r))) l =
                        flat_map (fun r => read m' (mr_start r) (N.to_nat (mr_length r))) l).
  { induction l as [ | r l IH]; [reflexivity | ]. cbn [flat_map]. rewrite IH. f_equal. apply read_ext. intros. apply E. }
  now rewrite Q.
Qed.

(** The two calls that an upgrade makes. *)
Definition both_succeed (locs : list location) (k : kernel) (u : upgrade) (a : N) (data : bytes) : Prop :=
  exists k1 k2, k_erase_pages locs k (aligned_iter (mkRange a (Nlen data)) (u_page_size u)) (u_page_size u) = (k1, Ok tt) /\
    libtock_write locs k1 a data = (k2, Ok tt).

Lemma bundle_sim c locs k m u offset data k' r : k_write_bundle c locs k u offset data = (k', r) ->
  same k m -> proper k -> bytes_ok data = true ->
  exists flt m', write_bundle c flt m u offset data = (m', r) /\ same k' m' /\
    (forall a, find_address (u_partition u) offset (Nlen data) = Some a -> both_succeed locs k u a data -> forall j, flt j = None).
Proof.
  intros H S P B. unfold k_write_bundle in H. unfold write_bundle.
  destruct (Nlen data =? 0); [injection H as <- <-; exists (fun _ => None), m; auto | ].
  destruct (find_address (u_partition u) offset (Nlen data)) as [a | ] eqn:Fa;
    [ | injection H as <- <-; exists (fun _ => None), m; auto].
  set (ck := fun m => has <- contains_metadata u (mkRange a (Nlen data)) ;;
        if has : bool then check_metadata c m u (up_key c) (slice data (mr_start (u_metadata u) - a) (mr_length (u_metadata u))) else Ok tt) in *.
  change (match ck (k_mem k) with
      | Ok _ => match k_erase_pages locs k (aligned_iter (mkRange a (Nlen data)) (u_page_size u)) (u_page_size u) with
          | (k1, Ok _) => match libtock_write locs k1 a data with
              | (k2, Ok _) => if negb (bytes_eqb (read (k_mem k2) a (length data)) data) then (k2, Err CustomError)
                  else if Nlen data =? part_length (u_partition u) - offset then
                    (k2, check_partition_hash c (k_mem k2) u (read (k_mem k2) (mr_start (u_metadata u)) (N.to_nat (mr_length (u_metadata u)))))
                  else (k2, Ok tt)
              | (k2, Err _) => (k2, Err CustomError) end
          | (k1, Err _) => (k1, Err CustomError) end
      | Err e => (k, Err e) end = (k', r)) in H.
  assert (Ck : ck m = ck (k_mem k)).
  { unfold ck. destruct (contains_metadata u _) as [[ | ] | ]; cbn [rbind]; try reflexivity. symmetry. apply check_metadata_ext, S. }
  fold (ck m). rewrite Ck. destruct (ck (k_mem k)) as [ | e]; [ | injection H as <- <-; exists (fun _ => None), m; auto].
  destruct (k_erase_pages locs k _ _) as [k1 r1] eqn:E1 in H.
  destruct (pages_sim _ _ _ _ 0%nat _ _ _ E1 S) as (flt & m1 & n1 & E2 & L2 & S1 & N1). pose proof (pages_proper _ _ _ _ _ _ E1 P) as P1.
  destruct r1 as [[] | e1]; cbn [good] in *.
  2:{ injection H as <- <-. exists flt, m1. rewrite E2. cbn [negb]. repeat split; auto.
      intros a' Q (q1 & q2 & Q1 & _). injection Q as <-. rewrite E1 in Q1. discriminate. }
  destruct (libtock_write locs k1 a data) as [k2 r2] eqn:E3 in H.
  destruct (write_sim _ _ _ _ _ _ _ E3 S1 P1 B) as (f & m2 & E4 & S2 & N2).
  exists (fun j => if (j =? n1)%nat then f else flt j), m2.
  rewrite (erase_pages_ext _ flt (fun j => if (j =? n1)%nat then f else flt j) _ _ _ _ _ _ E2).
  2:{ intros j Hj. destruct (Nat.eqb_spec j n1); [lia | reflexivity]. }
  cbn [negb]. rewrite Nat.eqb_refl, E4.
  assert (Rd : forall s n, read (k_mem k2) s n = read m2 s n) by (intros; apply read_ext; intros; apply S2).
  destruct r2 as [[] | e2]; cbn [good negb] in *.
  - rewrite Rd in H. split; [ | split].
    + destruct (negb (bytes_eqb (read m2 a (length data)) data)); [congruence | ].
      destruct (Nlen data =? _); [ | congruence]. rewrite Rd, (check_hash_ext _ _ _ _ _ S2) in H. congruence.
    + destruct (negb (bytes_eqb (read m2 a (length data)) data)); [congruence | ]. destruct (Nlen data =? _); congruence.
    + intros _ _ _ j. rewrite N2, N1 by reflexivity. now destruct (j =? n1)%nat.
  - injection H as <- <-. split; [reflexivity | ]. split; [exact S2 | ].
    intros a' Q (q1 & q2 & Q1 & Q2). injection Q as <-. rewrite E1 in Q1. injection Q1 as <-. rewrite E3 in Q2. discriminate.
Qed.

Lemma parsed_data b o d h v : bytes_ok b = true -> cbor_read 32 b = Some v -> parse_upgrade v = Ok (o, d, h) -> bytes_ok d = true.
Proof.
  intros B R H. assert (O : value_ok 32 v).
  { unfold cbor_read in R. destruct (read_nested 32 b _) as [w | ] eqn:E; [ | discriminate]. injection R as ->.
    apply (read_sound 32 ltac:(lia) b _ v ltac:(lia) B) in E. tauto. }
  unfold parse_upgrade in H. destruct v; try discriminate. cbn [extract_map rbind] in H.
  set (f := Parse.fields _ _) in H. destruct (f 0%nat) as [v0 | ]; cbn [ok_or_missing rbind] in H; [ | discriminate].
  destruct (extract_unsigned v0); cbn [rbind] in H; [ | discriminate].
  destruct (f 1%nat) as [v1 | ] eqn:F1; cbn [ok_or_missing rbind] in H; [ | discriminate].
  pose proof (field_ok 32 _ _ _ _ O F1) as O1.
  destruct v1; try discriminate. cbn [extract_byte_string rbind] in H.
  destruct (f 2%nat) as [v2 | ]; cbn [ok_or_missing rbind] in H; [ | discriminate].
  destruct (extract_byte_string v2) as [hs | ]; cbn [rbind] in H; [ | discriminate].
  destruct (Nlen hs =? 32); [ | discriminate]. injection H as _ <- _. now inversion O1.
Qed.

Lemma upgrade_sim c locs k m u offset data hash k' r : k_vendor_upgrade c locs k u offset data hash = (k', r) ->
  same k m -> proper k -> bytes_ok data = true ->
  exists flt m', vendor_upgrade c flt m u offset data hash = (m', r) /\ same k' m'.
Proof.
  unfold k_vendor_upgrade, vendor_upgrade. intros H S P B.
  destruct (negb (bytes_eqb hash (up_sha256 c data))); [injection H as <- <-; exists (fun _ => None), m; auto | ].
  destruct u as [u | ]; [ | injection H as <- <-; exists (fun _ => None), m; auto].
  destruct (k_write_bundle c locs k u offset data) as [k1 r1] eqn:E. injection H as <- <-.
  destruct (bundle_sim _ _ _ _ _ _ _ _ _ E S P B) as (flt & m' & E' & S' & _). exists flt, m'. rewrite E'. auto.
Qed.
Lemma message_sim c locs k m u b k' r : k_vendor_message c locs k u b = (k', r) ->
  same k m -> proper k -> bytes_ok b = true ->
  exists flt m', vendor_message c flt m u b = (m', r) /\ same k' m'.
Proof.
  unfold k_vendor_message, vendor_message. intros H S P B.
  destruct b as [ | cmd rest]; [injection H as <- <-; exists (fun _ => None), m; auto | ].
  destruct (cmd =? 0x42) eqn:C.
  - destruct (cbor_read 32 rest) as [v | ] eqn:R; cbn [rbind] in *; [ | injection H as <- <-; exists (fun _ => None), m; auto].
    destruct (parse_upgrade v) as [[[o d] h] | ] eqn:Pa; [ | injection H as <- <-; exists (fun _ => None), m; auto].
    destruct (k_vendor_upgrade c locs k u o d h) as [k1 r1] eqn:E. injection H as <- <-.
    assert (Bd : bytes_ok d = true).
    { apply (parsed_data rest o d h v); [ | exact R | exact Pa]. unfold bytes_ok in *. cbn [forallb] in B. apply andb_true_iff in B as [_ B]; exact B. }
    destruct (upgrade_sim _ _ _ _ _ _ _ _ _ _ E S P Bd) as (flt & m' & E' & S'). exists flt, m'. rewrite E'. auto.
  - exists (fun _ => None), m. injection H as <- <-. destruct (cmd =? 0x43); [ | auto]. destruct u; auto.
Qed.
Lemma bundle_proper c locs k u offset data k' r : k_write_bundle c locs k u offset data = (k', r) -> proper k -> proper k'.
Proof.
  intros H P. unfold k_write_bundle in H. destruct (Nlen data =? 0); [congruence | ].
  destruct (find_address _ _ _) as [a | ]; [ | congruence].
  destruct (has <- contains_metadata u (mkRange a (Nlen data)) ;; _) as [ | e]; [ | congruence].
  destruct (k_erase_pages locs k _ _) as [k1 r1] eqn:E1 in H. apply pages_proper in E1; [ | exact P]. destruct r1; [ | congruence].
  destruct (libtock_write locs k1 a data) as [k2 r2] eqn:E2 in H. apply command_proper in E2; [ | exact E1]. destruct r2; [ | congruence].
  destruct (negb _); [congruence | ]. destruct (Nlen data =? _); congruence.
Qed.
Lemma message_proper c locs k u b k' r : k_vendor_message c locs k u b = (k', r) -> proper k -> proper k'.
Proof.
  unfold k_vendor_message. intros H P. destruct b as [ | cmd rest]; [congruence | ]. destruct (cmd =? 0x42); [ | congruence].
  destruct (v <- _ ;; parse_upgrade v) as [[[o d] h] | ]; [ | congruence].
  unfold k_vendor_upgrade in H. destruct (negb _); [congruence | ]. destruct u as [u | ]; [ | congruence].
  destruct (k_write_bundle c locs k u o d) as [k1 r1] eqn:E. apply bundle_proper in E; [ | exact P]. congruence.
Qed.
