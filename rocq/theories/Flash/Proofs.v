(** Lemmas about the flash of the boards. *)
From Verif Require Import Base Facts Ctap.Crypto Upgrade.Model Upgrade.Proofs.
From Verif.Store Require Import Format Bits Words.
From Verif.Store Require Model.
From Verif.Flash Require Import Model Spec.
Local Open Scope N_scope.
Ltac Zify.zify_post_hook ::= idtac.

(** ** Words and their bytes *)

Lemma byte_land w v k : N.land w v / 2 ^ k mod 2 ^ 8 = N.land (w / 2 ^ k mod 2 ^ 8) (v / 2 ^ k mod 2 ^ 8).
Proof.
  apply N.bits_inj. intro i. rewrite N.land_spec. destruct (N.lt_ge_cases i 8) as [H | H].
  - rewrite !N.mod_pow2_bits_low, !N.div_pow2_bits, N.land_spec by exact H. reflexivity.
  - rewrite !N.mod_pow2_bits_high by exact H. reflexivity.
Qed.
Lemma word_bytes_land w v i : (i < 4)%nat ->
  nth i (word_bytes (N.land w v)) 0 = N.land (nth i (word_bytes w) 0) (nth i (word_bytes v) 0).
Proof.
  intro H. destruct i as [ | [ | [ | [ | i]]]]; [ | | | | lia]; cbn [word_bytes nth].
  - pose proof (byte_land w v 0) as E. rewrite !N.pow_0_r, !N.div_1_r in E. exact E.
  - exact (byte_land w v 8).
  - exact (byte_land w v 16).
  - exact (byte_land w v 24).
Qed.
Definition byte4 (b0 b1 b2 b3 : N) : Prop := b0 < 256 /\ b1 < 256 /\ b2 < 256 /\ b3 < 256.
Lemma land_lt n a b : a < 2 ^ n -> N.land a b < 2 ^ n.
Proof.
  intro H. replace (N.land a b) with (N.land a b mod 2 ^ n); [apply N.mod_lt, N.pow_nonzero; discriminate | ].
  rewrite <- N.land_ones. rewrite <- N.land_assoc, (N.land_comm b), N.land_assoc, N.land_ones, N.mod_small by exact H. reflexivity.
Qed.
Lemma land_byte a b : a < 256 -> N.land a b < 256.
Proof. exact (land_lt 8 a b). Qed.
Lemma get_word_bytes m a : (forall x, m x < 256) -> word_bytes (get_word m a) = [m a; m (a + 1); m (a + 2); m (a + 3)].
Proof. intro H. unfold get_word. apply word_of_bytes; apply H. Qed.
Lemma get_word_32 m a : (forall x, m x < 256) -> w32 (get_word m a).
Proof. intro H. unfold get_word. apply word_of_w32; apply H. Qed.
Lemma land_w32 a b : w32 a -> w32 (N.land a b).
Proof. exact (land_lt 32 a b). Qed.
Lemma word_bytes_inj a b : w32 a -> w32 b -> word_bytes a = word_bytes b -> a = b.
Proof.
  intros Ha Hb E. rewrite <- (word_bytes_of a Ha), <- (word_bytes_of b Hb). unfold word_bytes in E.
  injection E as E0 E1 E2 E3. now rewrite E0, E1, E2, E3.
Qed.
Lemma word_bytes_4 w : exists b0 b1 b2 b3, word_bytes w = [b0; b1; b2; b3].
Proof. unfold word_bytes. eauto. Qed.
Lemma word_bytes_small w i : nth i (word_bytes w) 0 < 256.
Proof.
  unfold word_bytes. destruct i as [ | [ | [ | [ | i]]]]; cbn [nth]; try (apply N.mod_lt; discriminate).
  destruct i; reflexivity.
Qed.

(** The four addresses of a word. *)
Lemma inside_4 x a : inside x a 4 = true -> exists i, (i < 4)%nat /\ x = a + N.of_nat i /\ N.to_nat (x - a) = i.
Proof.
  unfold inside. intro H. apply andb_true_iff in H as [H1 H2]. apply N.leb_le in H1. apply N.ltb_lt in H2.
  exists (N.to_nat (x - a)). lia.
Qed.
Lemma inside_spec x a n : inside x a n = true <-> within x a n.
Proof. unfold inside, within. rewrite andb_true_iff, N.leb_le, N.ltb_lt. tauto. Qed.
Lemma inside_false x a n : inside x a n = false <-> ~ within x a n.
Proof. rewrite <- inside_spec. destruct (inside x a n); split; congruence. Qed.

Lemma nth4 (m : mem) a i : (i < 4)%nat ->
  nth i [m a; m (a + 1); m (a + 2); m (a + 3)] 0 = m (a + N.of_nat i).
Proof.
  intro H. destruct i as [ | [ | [ | [ | i]]]]; [ | | | | lia]; cbn [nth]; f_equal; lia.
Qed.

(** One word of the loop. *)
Definition one_word (k : kernel) (ptr b0 b1 b2 b3 : N) : kernel :=
  if is_write_needed (get_word (k_mem k) ptr) (word_of b0 b1 b2 b3) then set_word k ptr (word_of b0 b1 b2 b3) else k.
Lemma write_words_cons k ptr b0 b1 b2 b3 rest :
  write_words k ptr (b0 :: b1 :: b2 :: b3 :: rest) = write_words (one_word k ptr b0 b1 b2 b3) (ptr + 4) rest.
Proof. reflexivity. Qed.

Lemma one_word_mem k ptr b0 b1 b2 b3 x : proper k -> byte4 b0 b1 b2 b3 ->
  k_mem (one_word k ptr b0 b1 b2 b3) x =
    if inside x ptr 4 then N.land (k_mem k x) (nth (N.to_nat (x - ptr)) [b0; b1; b2; b3] 0) else k_mem k x.
Proof.
  intros P (B0 & B1 & B2 & B3). unfold one_word, is_write_needed.
  assert (V : forall i, (i < 4)%nat -> nth i (word_bytes (N.land (get_word (k_mem k) ptr) (word_of b0 b1 b2 b3))) 0 =
      N.land (k_mem k (ptr + N.of_nat i)) (nth i [b0; b1; b2; b3] 0)).
  { intros i Hi. rewrite word_bytes_land, get_word_bytes, word_of_bytes by (auto; apply P).
    rewrite nth4 by exact Hi. reflexivity. }
  destruct (N.land _ _ =? _) eqn:E; cbn [negb].
  - apply N.eqb_eq in E. destruct (inside x ptr 4) eqn:I; [ | reflexivity].
    apply inside_4 in I as (i & Hi & -> & ->). rewrite <- V by exact Hi. rewrite E, get_word_bytes by apply P.
    now rewrite nth4.
  - unfold set_word. cbn [k_mem]. destruct (inside x ptr 4) eqn:I; [ | reflexivity].
    apply inside_4 in I as (i & Hi & -> & ->). apply V, Hi.
Qed.
Lemma one_word_proper k ptr b0 b1 b2 b3 : proper k -> byte4 b0 b1 b2 b3 -> proper (one_word k ptr b0 b1 b2 b3).
Proof.
  intros P B x. rewrite one_word_mem by assumption. destruct (inside x ptr 4); [apply land_byte, P | apply P].
Qed.
Lemma one_word_get k ptr b0 b1 b2 b3 : proper k -> byte4 b0 b1 b2 b3 ->
  get_word (k_mem (one_word k ptr b0 b1 b2 b3)) ptr = N.land (get_word (k_mem k) ptr) (word_of b0 b1 b2 b3).
Proof.
  intros P B. apply word_bytes_inj.
  - apply get_word_32. intro. apply one_word_proper; assumption.
  - apply land_w32, get_word_32, P.
  - apply (nth_ext _ _ 0 0); [reflexivity | ]. intros i Hi.
    assert (H4 : (i < 4)%nat) by (rewrite get_word_bytes in Hi by (intro; apply one_word_proper; assumption); exact Hi).
    rewrite word_bytes_land, !get_word_bytes, word_of_bytes by (try apply B; try exact H4; try (intro; apply one_word_proper; assumption); apply P).
    rewrite !nth4, one_word_mem by assumption.
    assert (I : inside (ptr + N.of_nat i) ptr 4 = true) by (apply inside_spec; unfold within; lia).
    rewrite I. now replace (N.to_nat (ptr + N.of_nat i - ptr)) with i by lia.
Qed.
Lemma one_word_writes k ptr b0 b1 b2 b3 x : proper k -> byte4 b0 b1 b2 b3 ->
  k_writes (one_word k ptr b0 b1 b2 b3) x =
    if (x =? ptr) && negb (get_word (k_mem (one_word k ptr b0 b1 b2 b3)) ptr =? get_word (k_mem k) ptr)
    then S (k_writes k x) else k_writes k x.
Proof.
  intros P B. rewrite one_word_get by assumption. unfold one_word, is_write_needed.
  destruct (N.land _ _ =? _); cbn [negb].
  - now rewrite andb_false_r.
  - unfold set_word. cbn [k_writes]. now rewrite andb_true_r.
Qed.
Lemma one_word_rest k ptr b0 b1 b2 b3 : k_erases (one_word k ptr b0 b1 b2 b3) = k_erases k /\
  k_waiting (one_word k ptr b0 b1 b2 b3) = k_waiting k /\ k_buffer (one_word k ptr b0 b1 b2 b3) = k_buffer k.
Proof. unfold one_word. destruct (is_write_needed _ _); auto. Qed.

Definition words4 (v : bytes) : Prop := exists n, length v = (4 * n)%nat.
Lemma words4_cons v : words4 v -> v = [] \/ exists b0 b1 b2 b3 r, v = b0 :: b1 :: b2 :: b3 :: r /\ words4 r.
Proof.
  intros [n E]. destruct n as [ | n]; [left; destruct v; [reflexivity | discriminate] | right].
  destruct v as [ | b0 [ | b1 [ | b2 [ | b3 r]]]]; cbn [length] in E; try lia.
  exists b0, b1, b2, b3, r. split; [reflexivity | ]. exists n. lia.
Qed.
Lemma bytes_ok_4 b0 b1 b2 b3 r : bytes_ok (b0 :: b1 :: b2 :: b3 :: r) = true -> byte4 b0 b1 b2 b3 /\ bytes_ok r = true.
Proof.
  unfold bytes_ok, byte4. cbn [forallb]. intro H. apply andb_true_iff in H as [H0 H]. apply andb_true_iff in H as [H1 H].
  apply andb_true_iff in H as [H2 H]. apply andb_true_iff in H as [H3 H]. apply N.ltb_lt in H0, H1, H2, H3. auto.
Qed.

(** The whole loop. *)
Lemma write_words_keeps v : forall k ptr, bytes_ok v = true -> proper k ->
  proper (write_words k ptr v) /\ k_erases (write_words k ptr v) = k_erases k /\
  k_waiting (write_words k ptr v) = k_waiting k /\ k_buffer (write_words k ptr v) = k_buffer k.
Proof.
  induction v as [ | a | a b | a b c | b0 b1 b2 b3 r IH] using bytes4_ind; intros k ptr B P; try (cbn [write_words]; auto; fail).
  apply bytes_ok_4 in B as [B4 B]. rewrite write_words_cons.
  destruct (IH (one_word k ptr b0 b1 b2 b3) (ptr + 4) B (one_word_proper _ _ _ _ _ _ P B4)) as (H1 & H2 & H3 & H4).
  destruct (one_word_rest k ptr b0 b1 b2 b3) as (E1 & E2 & E3). rewrite H2, H3, H4, E1, E2, E3. auto.
Qed.
Lemma write_words_before v : forall k ptr x, bytes_ok v = true -> proper k -> ~ within x ptr (Nlen v) ->
  k_mem (write_words k ptr v) x = k_mem k x /\ k_writes (write_words k ptr v) x = k_writes k x.
Proof.
  induction v as [ | a | a b | a b c | b0 b1 b2 b3 r IH] using bytes4_ind; intros k ptr x B P H; try (cbn [write_words]; auto; fail).
  apply bytes_ok_4 in B as [B4 B]. rewrite write_words_cons.
  assert (L : Nlen (b0 :: b1 :: b2 :: b3 :: r) = 4 + Nlen r) by (unfold Nlen; cbn [length]; lia). rewrite L in H.
  destruct (IH (one_word k ptr b0 b1 b2 b3) (ptr + 4) x B (one_word_proper _ _ _ _ _ _ P B4)) as (-> & ->).
  { unfold within in *. lia. }
  rewrite one_word_mem, one_word_writes by assumption.
  assert (I : inside x ptr 4 = false) by (apply inside_false; unfold within in *; lia). rewrite I.
  destruct (N.eqb_spec x ptr) as [-> | ]; [exfalso; apply H; unfold within; lia | ]. auto.
Qed.
Lemma write_words_get v : forall k ptr a, bytes_ok v = true -> proper k -> a + 4 <= ptr ->
  get_word (k_mem (write_words k ptr v)) a = get_word (k_mem k) a.
Proof.
  intros k ptr a B P H. unfold get_word.
  assert (Q : forall x, x < ptr -> k_mem (write_words k ptr v) x = k_mem k x).
  { intros x Hx. apply write_words_before; [exact B | exact P | ]. unfold within. lia. }
  now rewrite !Q by lia.
Qed.
Lemma write_words_inside v : forall k ptr i, bytes_ok v = true -> proper k -> words4 v -> (i < length v)%nat ->
  k_mem (write_words k ptr v) (ptr + N.of_nat i) = N.land (k_mem k (ptr + N.of_nat i)) (nth i v 0) /\
  k_writes (write_words k ptr v) (ptr + N.of_nat i) =
    if (i mod 4 =? 0)%nat && negb (get_word (k_mem (write_words k ptr v)) (ptr + N.of_nat i) =? get_word (k_mem k) (ptr + N.of_nat i))
    then S (k_writes k (ptr + N.of_nat i)) else k_writes k (ptr + N.of_nat i).
Proof.
  induction v as [ | a | a b | a b c | b0 b1 b2 b3 r IH] using bytes4_ind; intros k ptr i B P W Hi.
  - cbn in Hi. lia.
  - destruct W as [n E]. cbn [length] in E. lia.
  - destruct W as [n E]. cbn [length] in E. lia.
  - destruct W as [n E]. cbn [length] in E. lia.
  - assert (W' : words4 r) by (destruct W as [n E]; exists (n - 1)%nat; cbn [length] in E; lia).
    apply bytes_ok_4 in B as [B4 B]. rewrite write_words_cons.
    pose proof (one_word_proper k ptr _ _ _ _ P B4) as P1.
    destruct (Nat.lt_ge_cases i 4) as [H4 | H4].
    + destruct (write_words_before r (one_word k ptr b0 b1 b2 b3) (ptr + 4) (ptr + N.of_nat i) B P1) as (-> & ->); [unfold within; lia | ].
      assert (I : inside (ptr + N.of_nat i) ptr 4 = true) by (apply inside_spec; unfold within; lia).
      rewrite one_word_mem, I by assumption. replace (N.to_nat (ptr + N.of_nat i - ptr)) with i by lia. split.
      * f_equal. destruct i as [ | [ | [ | [ | i]]]]; [reflexivity | reflexivity | reflexivity | reflexivity | lia].
      * rewrite one_word_writes by assumption. destruct i as [ | i].
        -- rewrite N.add_0_r, N.eqb_refl. cbn [Nat.modulo Nat.eqb]. rewrite write_words_get by (auto; lia). reflexivity.
        -- destruct (N.eqb_spec (ptr + N.of_nat (S i)) ptr); [lia | ].
           destruct i as [ | [ | [ | i]]]; [reflexivity | reflexivity | reflexivity | lia].
    + cbn [length] in Hi.
      destruct (IH (one_word k ptr b0 b1 b2 b3) (ptr + 4) (i - 4)%nat B P1 W' ltac:(lia)) as (M & Wr).
      replace (ptr + 4 + N.of_nat (i - 4)) with (ptr + N.of_nat i) in M, Wr by lia.
      assert (Same : forall j, (4 <= j)%nat -> k_mem (one_word k ptr b0 b1 b2 b3) (ptr + N.of_nat j) = k_mem k (ptr + N.of_nat j)).
      { intros j Hj. rewrite one_word_mem by assumption.
        assert (I : inside (ptr + N.of_nat j) ptr 4 = false) by (apply inside_false; unfold within; lia). now rewrite I. }
      assert (SameW : get_word (k_mem (one_word k ptr b0 b1 b2 b3)) (ptr + N.of_nat i) = get_word (k_mem k) (ptr + N.of_nat i)).
      { unfold get_word.
        replace (ptr + N.of_nat i + 1) with (ptr + N.of_nat (i + 1)) by lia.
        replace (ptr + N.of_nat i + 2) with (ptr + N.of_nat (i + 2)) by lia.
        replace (ptr + N.of_nat i + 3) with (ptr + N.of_nat (i + 3)) by lia.
        now rewrite !Same by lia. }
      assert (SameC : k_writes (one_word k ptr b0 b1 b2 b3) (ptr + N.of_nat i) = k_writes k (ptr + N.of_nat i)).
      { rewrite one_word_writes by assumption. destruct (N.eqb_spec (ptr + N.of_nat i) ptr); [lia | reflexivity]. }
      rewrite Same in M by exact H4. rewrite SameW, SameC in Wr.
      assert (Md : ((i - 4) mod 4 = i mod 4)%nat).
      { replace i with (i - 4 + 1 * 4)%nat at 2 by lia. now rewrite Nat.mod_add by discriminate. }
      rewrite Md in Wr. split; [ | exact Wr]. rewrite M. f_equal.
      do 4 (destruct i as [ | i]; [lia | ]). cbn [nth]. f_equal. lia.
Qed.

(** ** The layout *)

Lemma land_3 x : N.land x (WORD_SIZE - 1) = x mod 4.
Proof. exact (N.land_ones x 2). Qed.
Lemma land_4095 x : N.land x (PAGE_SIZE - 1) = x mod 4096.
Proof. exact (N.land_ones x 12). Qed.
Lemma aligned_4 x : is_aligned 4 x = (x mod 4 =? 0).
Proof. unfold is_aligned. change (4 - 1) with (WORD_SIZE - 1). now rewrite land_3. Qed.
Lemma aligned_4096 x : is_aligned 4096 x = (x mod 4096 =? 0).
Proof. unfold is_aligned. change (4096 - 1) with (PAGE_SIZE - 1). now rewrite land_4095. Qed.

Definition pages_of (l : location) : list N :=
  match l_type l with
  | Store => map (fun i => l_ptr l + 4096 * N.of_nat i) (seq 0 (N.to_nat (l_len l / 4096)))
  | Partition => []
  end.
Lemma store_pages_cons l locs : store_pages (l :: locs) = pages_of l ++ store_pages locs.
Proof. reflexivity. Qed.
Fixpoint ranges (locs : list location) : list mod_range :=
  match locs with
  | [] => []
  | l :: locs' => match l_type l with Store => mkRange (l_ptr l) (l_len l) :: ranges locs' | Partition => ranges locs' end
  end.
Lemma whole_cons l locs : whole_pages (l :: locs) -> whole_pages locs.
Proof. intros H l' I. apply H. now right. Qed.
Lemma whole_len l locs : whole_pages (l :: locs) -> l_type l = Store -> l_len l = 4096 * (l_len l / 4096) /\ l_ptr l mod 4096 = 0.
Proof.
  intros H T. destruct (H l (or_introl eq_refl) T) as [A B]. split; [ | exact A].
  pose proof (N.div_mod (l_len l) 4096 ltac:(discriminate)) as D. rewrite B in D. lia.
Qed.

Lemma tock_scan_ok locs : forall n s, whole_pages locs ->
  tock_scan PAGE_SIZE locs n s = Ok (n + Nlen (store_pages locs), s ++ ranges locs).
Proof.
  induction locs as [ | l locs IH]; intros n s W; cbn [tock_scan ranges].
  - unfold store_pages, Nlen. cbn [flat_map length]. now rewrite N.add_0_r, app_nil_r.
  - rewrite store_pages_cons. unfold pages_of. destruct (l_type l) eqn:T.
    + destruct (W l (or_introl eq_refl) T) as [A B]. change PAGE_SIZE with 4096. rewrite !aligned_4096, A, B.
      change (tock_scan 4096 ?a) with (tock_scan PAGE_SIZE a). cbn [N.eqb negb orb].
      rewrite IH by (eapply whole_cons; eassumption). rewrite <- app_assoc. cbn [app].
      unfold Nlen. rewrite app_length, map_length, seq_length. remember (l_len l / 4096) as q eqn:Eq. clear Eq.
      now replace (n + q + N.of_nat (length (store_pages locs))) with (n + N.of_nat (N.to_nat q + length (store_pages locs))) by lia.
    + exact (IH n s (whole_cons _ _ W)).
Qed.
Lemma tock_scan_whole locs : forall n s r, tock_scan PAGE_SIZE locs n s = Ok r -> whole_pages locs.
Proof.
  induction locs as [ | l locs IH]; intros n s r H; [intros ? [] | ]. cbn [tock_scan] in H.
  destruct (l_type l) eqn:T.
  - change PAGE_SIZE with 4096 in H. rewrite !aligned_4096 in H.
    destruct (N.eqb_spec (l_ptr l mod 4096) 0) as [A | ]; [ | discriminate].
    destruct (N.eqb_spec (l_len l mod 4096) 0) as [B | ]; [ | discriminate]. cbn [negb orb] in H.
    apply IH in H. intros l' [<- | I]; [auto | apply H, I].
  - apply IH in H. intros l' [<- | I]; [congruence | apply H, I].
Qed.
Lemma tock_new_ok locs t : tock_new locs = Ok t <->
  whole_pages locs /\ t = mkTock 4 4096 (Nlen (store_pages locs)) 2 10000 (ranges locs).
Proof.
  unfold tock_new, tock_new_with. change (negb (is_power_of_two WORD_SIZE) || negb (is_power_of_two PAGE_SIZE) || negb (is_aligned WORD_SIZE PAGE_SIZE)) with false.
  cbn [rbind]. split.
  - destruct (tock_scan PAGE_SIZE locs 0 []) as [[n s] | ] eqn:E; [ | discriminate]. intro H. injection H as <-.
    pose proof (tock_scan_whole _ _ _ _ E) as W. split; [exact W | ]. rewrite tock_scan_ok in E by exact W. injection E as <- <-. reflexivity.
  - intros [W ->]. rewrite tock_scan_ok by exact W. reflexivity.
Qed.

Lemma find_slice_ok locs : forall p x len, whole_pages locs -> (p < length (store_pages locs))%nat -> x < 4096 -> x + len <= 4096 ->
  find_slice (ranges locs) (N.of_nat p * 4096 + x) len = Ok (nth p (store_pages locs) 0 + x).
Proof.
  induction locs as [ | l locs IH]; intros p x len W Hp Hx Hl; [cbn in Hp; lia | ].
  rewrite store_pages_cons in Hp |- *. cbn [ranges]. unfold pages_of in Hp |- *. destruct (l_type l) eqn:T.
  - destruct (whole_len l locs W T) as [E _]. rewrite app_length, map_length, seq_length in Hp.
    cbn [find_slice mr_length mr_start]. remember (l_len l / 4096) as q eqn:Eq. clear Eq.
    destruct (N.leb_spec (l_len l) (N.of_nat p * 4096 + x)) as [H | H].
    + rewrite app_nth2 by (rewrite map_length, seq_length; lia). rewrite map_length, seq_length.
      replace (N.of_nat p * 4096 + x - l_len l) with (N.of_nat (p - N.to_nat q) * 4096 + x) by lia.
      apply IH; [eapply whole_cons; eassumption | lia | exact Hx | exact Hl].
    + destruct (N.ltb_spec (l_len l) (N.of_nat p * 4096 + x + len)) as [H2 | H2]; [lia | ].
      rewrite app_nth1 by (rewrite map_length, seq_length; lia).
      rewrite (nth_indep _ 0 (l_ptr l + 4096 * N.of_nat 0)) by (rewrite map_length, seq_length; lia).
      rewrite (map_nth (fun i => l_ptr l + 4096 * N.of_nat i)), seq_nth by lia. f_equal. lia.
  - apply IH; auto. eapply whole_cons; eassumption.
Qed.

Lemma page_in locs : forall p, whole_pages locs -> (p < length (store_pages locs))%nat ->
  exists l, In l locs /\ l_type l = Store /\ l_ptr l <= nth p (store_pages locs) 0 /\
    nth p (store_pages locs) 0 + 4096 <= l_ptr l + l_len l /\ nth p (store_pages locs) 0 mod 4096 = 0.
Proof.
  induction locs as [ | l locs IH]; intros p W Hp; [cbn in Hp; lia | ].
  rewrite store_pages_cons in Hp |- *. rewrite app_length in Hp.
  destruct (Nat.lt_ge_cases p (length (pages_of l))) as [H | H].
  - exists l. rewrite app_nth1 by exact H. split; [now left | ]. unfold pages_of in H |- *.
    destruct (l_type l) eqn:T; [ | cbn in H; lia]. destruct (whole_len l locs W T) as [E A].
    rewrite map_length, seq_length in H. split; [reflexivity | ].
    rewrite (nth_indep _ 0 (l_ptr l + 4096 * N.of_nat 0)) by (rewrite map_length, seq_length; lia).
    rewrite (map_nth (fun i => l_ptr l + 4096 * N.of_nat i)), seq_nth by lia.
    remember (l_len l / 4096) as q eqn:Eq. clear Eq. cbn [Nat.add]. split; [lia | ]. split; [lia | ].
    rewrite N.mul_comm, N.mod_add by discriminate. exact A.
  - rewrite app_nth2 by exact H. destruct (IH (p - length (pages_of l))%nat (whole_cons _ _ W) ltac:(lia)) as (l' & I & R).
    exists l'. split; [now right | exact R].
Qed.
Lemma pages_apart locs : whole_pages locs -> apart locs -> forall p q,
  (p < length (store_pages locs))%nat -> (q < length (store_pages locs))%nat -> p <> q ->
  nth p (store_pages locs) 0 + 4096 <= nth q (store_pages locs) 0 \/ nth q (store_pages locs) 0 + 4096 <= nth p (store_pages locs) 0.
Proof.
  intros W A. induction A as [ | l locs Al A IH]; intros p q Hp Hq N; [cbn in Hp; lia | ].
  rewrite store_pages_cons in Hp, Hq |- *. rewrite app_length in Hp, Hq.
  assert (First : forall i, (i < length (pages_of l))%nat ->
     nth i (pages_of l ++ store_pages locs) 0 = l_ptr l + 4096 * N.of_nat i /\
     l_ptr l + 4096 * N.of_nat i + 4096 <= l_ptr l + l_len l).
  { intros i Hi. rewrite app_nth1 by exact Hi. unfold pages_of in Hi |- *.
    destruct (l_type l) eqn:T; [ | cbn in Hi; lia]. destruct (whole_len l locs W T) as [E _].
    rewrite map_length, seq_length in Hi.
    rewrite (nth_indep _ 0 (l_ptr l + 4096 * N.of_nat 0)) by (rewrite map_length, seq_length; lia).
    rewrite (map_nth (fun i => l_ptr l + 4096 * N.of_nat i)), seq_nth by lia.
    remember (l_len l / 4096) as n eqn:Eq. clear Eq. cbn [Nat.add]. lia. }
  assert (Cross : forall i j, (i < length (pages_of l))%nat -> (length (pages_of l) <= j)%nat ->
     (j < length (pages_of l) + length (store_pages locs))%nat ->
     nth i (pages_of l ++ store_pages locs) 0 + 4096 <= nth j (pages_of l ++ store_pages locs) 0 \/
     nth j (pages_of l ++ store_pages locs) 0 + 4096 <= nth i (pages_of l ++ store_pages locs) 0).
  { intros i j Hi Hj Hj2. destruct (First i Hi) as [-> L]. rewrite app_nth2 by exact Hj.
    destruct (page_in locs (j - length (pages_of l)) (whole_cons _ _ W) ltac:(lia)) as (l' & I & _ & B1 & B2 & _).
    rewrite Forall_forall in Al. specialize (Al l' I). lia. }
  destruct (Nat.lt_ge_cases p (length (pages_of l))) as [H1 | H1]; destruct (Nat.lt_ge_cases q (length (pages_of l))) as [H2 | H2].
  - destruct (First p H1) as [-> _], (First q H2) as [-> _]. lia.
  - apply Cross; assumption.
  - destruct (Cross q p H2 H1 Hp); auto.
  - rewrite !app_nth2 by assumption. apply IH; try lia. eapply whole_cons; eassumption.
Qed.

(** ** The driver *)

Lemma fits_ok locs l ptr len : In l locs -> l_ptr l <= ptr -> ptr + len <= l_ptr l + l_len l -> fits_in_storage_location locs ptr len = true.
Proof.
  intros I A B. unfold fits_in_storage_location. apply existsb_exists. exists l. split; [exact I | ].
  apply andb_true_iff. split; [apply N.leb_le, A | ]. apply andb_true_iff. split; apply N.leb_le; lia.
Qed.
Lemma fits_inv locs ptr len : fits_in_storage_location locs ptr len = true ->
  exists l, In l locs /\ l_ptr l <= ptr /\ ptr + len <= l_ptr l + l_len l.
Proof.
  unfold fits_in_storage_location. intro H. apply existsb_exists in H as (l & I & H). exists l. split; [exact I | ].
  apply andb_true_iff in H as [H1 H]. apply andb_true_iff in H as [H2 H3]. apply N.leb_le in H1, H2, H3. lia.
Qed.

Lemma words4_mod v : Nlen v mod 4 = 0 -> words4 v.
Proof.
  intro H. exists (N.to_nat (Nlen v / 4)). pose proof (N.div_mod (Nlen v) 4 ltac:(discriminate)) as D. rewrite H in D.
  unfold Nlen in *. remember (N.of_nat (length v) / 4) as q eqn:E. clear E. lia.
Qed.

Lemma libtock_write_ok locs k ptr v : ready k -> proper k -> bytes_ok v = true ->
  fits_in_storage_location locs ptr (Nlen v) = true -> ptr mod 4 = 0 -> Nlen v mod 4 = 0 -> Nlen v <= 4096 ->
  exists k', libtock_write locs k ptr v = (k', Ok tt) /\ ready k' /\ proper k' /\ wrote k k' ptr v.
Proof.
  intros [R1 R2] P B F A L S. unfold libtock_write, command, command_write. rewrite F, R2. cbn [negb andb orb N.eqb Pos.eqb].
  cbn [set_buffer k_waiting]. rewrite R1.
  destruct (N.ltb_spec BUFFER_LEN (Nlen v)) as [H | _]; [unfold BUFFER_LEN in H; lia | ].
  unfold driver_write. rewrite !land_3, A, L. cbn [N.eqb negb orb].
  set (k0 := set_waiting (set_buffer k false) true).
  assert (P0 : proper k0) by exact P.
  destruct (write_words_keeps v k0 ptr B P0) as (K1 & K2 & _ & _).
  eexists. split; [reflexivity | ]. split; [split; reflexivity | ]. split; [exact K1 | ]. split; [ | split; [ | split]].
  - intros x Hx. destruct (write_words_before v k0 ptr x B P0 Hx) as [E1 E2]. split; [exact E1 | ]. split; [exact E2 | ].
    cbn. now rewrite K2.
  - intros i Hi. apply (write_words_inside v k0 ptr i B P0 (words4_mod v L) Hi).
  - intro x. cbn. now rewrite K2.
  - intros i Hi. apply (write_words_inside v k0 ptr i B P0 (words4_mod v L) Hi).
Qed.

Lemma libtock_erase_ok locs k ptr : ready k -> proper k ->
  fits_in_storage_location locs ptr 4096 = true -> ptr mod 4096 = 0 ->
  exists k', libtock_erase locs k ptr 4096 = (k', Ok tt) /\ ready k' /\ proper k' /\ erased k k' ptr.
Proof.
  intros [R1 R2] P F A. unfold libtock_erase, command, command_erase. rewrite F, R1.
  change (4096 =? PAGE_SIZE) with true. cbn [negb andb orb N.eqb Pos.eqb]. unfold driver_erase. rewrite land_4095, A. cbn [N.eqb negb].
  assert (Pg : ptr / PAGE_SIZE * PAGE_SIZE = ptr).
  { change PAGE_SIZE with 4096. pose proof (N.div_mod ptr 4096 ltac:(discriminate)) as D. rewrite A in D. lia. }
  rewrite Pg. change PAGE_SIZE with 4096. eexists. split; [reflexivity | ]. split; [split; [reflexivity | exact R2] | ]. split; [ | split; [ | split]].
  - intro x. cbn. destruct (inside x ptr 4096); [reflexivity | apply P].
  - intros x Hx. apply inside_false in Hx as I. cbn. rewrite I. split; [reflexivity | ]. split; [reflexivity | ].
    destruct (N.eqb_spec x ptr) as [-> | ]; [exfalso; apply Hx; unfold within; lia | reflexivity].
  - intros x Hx. apply inside_spec in Hx. cbn. now rewrite Hx.
  - intro x. reflexivity.
Qed.

(** ** The storage *)

Section TOCK.
Variable locs : list location.
Variable t : tock_storage.
Hypothesis New : tock_new locs = Ok t.

Lemma t_whole : whole_pages locs. Proof. apply (proj1 (tock_new_ok locs t) New). Qed.
Lemma t_is : t = mkTock 4 4096 (Nlen (store_pages locs)) 2 10000 (ranges locs).
Proof. apply (proj1 (tock_new_ok locs t) New). Qed.

Lemma slice_ok page byte len : page < Nlen (store_pages locs) -> byte + len <= 4096 -> byte < 4096 ->
  tock_slice t page byte len = Ok (place locs page byte).
Proof.
  intros H1 H2 H3. rewrite t_is. unfold tock_slice, index_start. cbn [t_num_pages t_page_size t_locations].
  destruct (N.ltb_spec page (Nlen (store_pages locs))); [ | lia].
  destruct (N.leb_spec len 4096); [ | lia]. destruct (N.leb_spec byte (4096 - len)); [ | lia]. cbn [andb rbind].
  pose proof (find_slice_ok locs (N.to_nat page) byte len t_whole) as Q. rewrite N2Nat.id in Q. apply Q; [ | assumption | assumption].
  unfold Nlen in H1. lia.
Qed.
Lemma slice_bad page byte len : Nlen (store_pages locs) <= page \/ 4096 < byte + len ->
  tock_slice t page byte len = Err OutOfBounds.
Proof.
  intro H. rewrite t_is. unfold tock_slice, index_start. cbn [t_num_pages t_page_size t_locations].
  destruct (N.ltb_spec page (Nlen (store_pages locs))); [ | reflexivity].
  destruct (N.leb_spec len 4096); [ | reflexivity]. destruct (N.leb_spec byte (4096 - len)); [lia | reflexivity].
Qed.
Lemma place_fits page byte len : page < Nlen (store_pages locs) -> byte + len <= 4096 ->
  fits_in_storage_location locs (place locs page byte) len = true /\ place locs page byte mod 4 = byte mod 4 /\ place locs page 0 mod 4096 = 0.
Proof.
  intros H1 H2. destruct (page_in locs (N.to_nat page) t_whole) as (l & I & T & B1 & B2 & B3); [unfold Nlen in H1; lia | ].
  unfold place. split; [apply (fits_ok locs l); [exact I | lia | lia] | ]. split; [ | now rewrite N.add_0_r].
  pose proof (N.div_mod (nth (N.to_nat page) (store_pages locs) 0) 4096 ltac:(discriminate)) as D. rewrite B3, N.add_0_r in D.
  rewrite D. replace (4096 * (nth (N.to_nat page) (store_pages locs) 0 / 4096) + byte) with (byte + 1024 * (nth (N.to_nat page) (store_pages locs) 0 / 4096) * 4) by lia.
  apply N.mod_add. discriminate.
Qed.

Lemma read_seq m : forall n a, read m a n = map (fun i => m (a + N.of_nat i)) (seq 0 n).
Proof.
  induction n as [ | n IH]; intro a; [reflexivity | ]. cbn [read seq map]. rewrite N.add_0_r. f_equal.
  rewrite IH, <- seq_shift, map_map. apply map_ext. intro i. f_equal. lia.
Qed.

Lemma tock_write_ok k page byte v : ready k -> proper k -> bytes_ok v = true ->
  page < Nlen (store_pages locs) -> byte + Nlen v <= 4096 -> byte < 4096 -> byte mod 4 = 0 -> Nlen v mod 4 = 0 ->
  exists k', tock_write locs t k page byte v = (k', Ok tt) /\ ready k' /\ proper k' /\ wrote k k' (place locs page byte) v.
Proof.
  intros R P B H1 H2 H3 A L. unfold tock_write. rewrite slice_ok by assumption.
  replace (t_word_size t) with 4 by now rewrite t_is. rewrite !aligned_4, A, L. cbn [N.eqb negb orb].
  destruct (place_fits page byte (Nlen v) H1 H2) as (F & M & _). rewrite A in M.
  destruct (libtock_write_ok locs k _ v R P B F M L ltac:(lia)) as (k' & E & Q). rewrite E. exists k'. split; [reflexivity | exact Q].
Qed.
Lemma tock_erase_ok k page : ready k -> proper k -> page < Nlen (store_pages locs) ->
  exists k', tock_erase locs t k page = (k', Ok tt) /\ ready k' /\ proper k' /\ erased k k' (place locs page 0).
Proof.
  intros R P H. unfold tock_erase. replace (t_page_size t) with 4096 by now rewrite t_is.
  rewrite slice_ok by (try assumption; lia).
  destruct (place_fits page 0 4096 H ltac:(lia)) as (F & _ & M).
  destruct (libtock_erase_ok locs k _ R P F M) as (k' & E & Q). rewrite E. exists k'. split; [reflexivity | exact Q].
Qed.
End TOCK.

(** ** The flash of the store *)

Lemma bytes_of_length ws : length (bytes_of ws) = (4 * length ws)%nat.
Proof. induction ws as [ | w ws IH]; [reflexivity | ]. change (bytes_of (w :: ws)) with (word_bytes w ++ bytes_of ws). rewrite app_length, IH. cbn [length word_bytes]. lia. Qed.
Lemma bytes_of_ok ws : bytes_ok (bytes_of ws) = true.
Proof.
  unfold bytes_ok. apply forallb_forall. intros b Hb. apply in_flat_map in Hb as (w & _ & Hb). apply N.ltb_lt.
  apply (In_nth _ _ 0) in Hb as (i & _ & <-). apply word_bytes_small.
Qed.
Lemma bytes_of_nth ws : forall j i, (j < length ws)%nat -> (i < 4)%nat -> nth (4 * j + i) (bytes_of ws) 0 = nth i (word_bytes (nth j ws 0)) 0.
Proof.
  induction ws as [ | w ws IH]; intros j i Hj Hi; [cbn in Hj; lia | ]. change (bytes_of (w :: ws)) with (word_bytes w ++ bytes_of ws).
  destruct j as [ | j].
  - rewrite app_nth1 by (cbn [word_bytes length]; lia). reflexivity.
  - rewrite app_nth2 by (cbn [word_bytes length]; lia). cbn [nth]. cbn [length] in Hj. rewrite <- IH by lia. f_equal. cbn [word_bytes length]. lia.
Qed.

(** Four bytes that are cleared are a word that is cleared. *)
Lemma get_word_land (m m' : mem) a w : (forall x, m x < 256) -> (forall x, m' x < 256) -> w32 w ->
  (forall i, (i < 4)%nat -> m' (a + N.of_nat i) = N.land (m (a + N.of_nat i)) (nth i (word_bytes w) 0)) ->
  get_word m' a = N.land (get_word m a) w.
Proof.
  intros P P' Hw H. apply word_bytes_inj; [apply get_word_32, P' | apply land_w32, get_word_32, P | ].
  apply (nth_ext _ _ 0 0); [reflexivity | ]. intros i Hi.
  assert (H4 : (i < 4)%nat) by exact Hi.
  rewrite word_bytes_land, !get_word_bytes, !nth4 by assumption. apply H, H4.
Qed.
Lemma get_word_same (m m' : mem) a : (forall i, (i < 4)%nat -> m' (a + N.of_nat i) = m (a + N.of_nat i)) -> get_word m' a = get_word m a.
Proof.
  intro H. unfold get_word. pose proof (H 0%nat ltac:(lia)) as H0. rewrite N.add_0_r in H0.
  pose proof (H 1%nat ltac:(lia) : m' (a + 1) = m (a + 1)) as H1. pose proof (H 2%nat ltac:(lia) : m' (a + 2) = m (a + 2)) as H2.
  pose proof (H 3%nat ltac:(lia) : m' (a + 3) = m (a + 3)) as H3. now rewrite H0, H1, H2, H3.
Qed.

Section AGREE.
Variable locs : list location.
Variable t : tock_storage.
Hypothesis New : tock_new locs = Ok t.
Hypothesis Apart : apart locs.

Lemma place_apart p q x y : (p < length (store_pages locs))%nat -> (q < length (store_pages locs))%nat -> x < 4096 -> y < 4096 ->
  p <> q -> place locs (N.of_nat p) x <> place locs (N.of_nat q) y.
Proof.
  intros Hp Hq Hx Hy N. unfold place. rewrite !Nat2N.id.
  pose proof (pages_apart locs (t_whole locs t New) Apart p q Hp Hq N). lia.
Qed.

Lemma agrees_write k k' f page word ws :
  proper k -> proper k' -> Forall w32 ws -> (page < length (store_pages locs))%nat -> (word + length ws <= 1024)%nat ->
  agrees locs k f -> wrote k k' (place locs (N.of_nat page) (4 * N.of_nat word)) (bytes_of ws) ->
  agrees locs k' (Store.Model.do_action f (Store.Model.AWrite page word ws)).
Proof.
  intros P P' W Hpg Hw A (El & Mi & Er & Wi).
  set (a := place locs (N.of_nat page) (4 * N.of_nat word)) in *.
  assert (Out : forall p x i, (p < length (store_pages locs))%nat -> (x < 1024)%nat -> (i < 4)%nat ->
     p <> page \/ (x < word)%nat \/ (word + length ws <= x)%nat ->
     ~ within (place locs (N.of_nat p) (4 * N.of_nat x) + N.of_nat i) a (Nlen (bytes_of ws))).
  { intros p x i Hp Hx Hi C Wi'. unfold within, Nlen in Wi'. rewrite bytes_of_length in Wi'.
    destruct (Nat.eq_dec p page) as [-> | Np].
    - unfold a, place in Wi'. lia.
    - pose proof (pages_apart locs (t_whole locs t New) Apart p page Hp Hpg Np). unfold a, place in Wi'. rewrite !Nat2N.id in Wi'. lia. }
  intros p Hp. destruct (A p Hp) as [E1 E2]. split.
  { cbn [Store.Model.do_action Store.Model.erases]. rewrite E1. symmetry. apply Er. }
  intros x Hx. destruct (E2 x Hx) as [C1 C2]. cbn [Store.Model.do_action Store.Model.cells Store.Model.writes Store.Model.act_cells].
  destruct ((p =? page)%nat && ((word <=? x)%nat && (x <? word + length ws)%nat)) eqn:In.
  - apply andb_true_iff in In as [I1 I2]. apply andb_true_iff in I2 as [I2 I3].
    apply Nat.eqb_eq in I1. apply Nat.leb_le in I2. apply Nat.ltb_lt in I3. subst p.
    assert (Pl : place locs (N.of_nat page) (4 * N.of_nat x) = a + N.of_nat (4 * (x - word))) by (unfold a, place; lia).
    assert (G : get_word (k_mem k') (place locs (N.of_nat page) (4 * N.of_nat x)) =
                N.land (get_word (k_mem k) (place locs (N.of_nat page) (4 * N.of_nat x))) (nth (x - word) ws 0)).
    { apply get_word_land; [exact P | exact P' | | ].
      - rewrite Forall_forall in W. apply W, nth_In. lia.
      - intros i Hi. rewrite Pl. replace (a + N.of_nat (4 * (x - word)) + N.of_nat i) with (a + N.of_nat (4 * (x - word) + i)) by lia.
        rewrite <- bytes_of_nth by lia. apply Mi. rewrite bytes_of_length. lia. }
    rewrite G, C1. split; [reflexivity | ].
    pose proof (Wi (4 * (x - word))%nat) as Q. rewrite bytes_of_length in Q. specialize (Q ltac:(lia)).
    rewrite <- Pl in Q. rewrite G in Q. rewrite Nat.mul_comm, Nat.mod_mul in Q by discriminate. cbn [Nat.eqb andb] in Q.
    rewrite Q, C2. destruct (N.land _ _ =? _); reflexivity.
  - assert (C : p <> page \/ (x < word)%nat \/ (word + length ws <= x)%nat).
    { apply andb_false_iff in In as [I | I]; [left; apply Nat.eqb_neq, I | right].
      apply andb_false_iff in I as [I | I]; [left; apply Nat.leb_gt, I | right; apply Nat.ltb_ge, I]. }
    assert (S : forall i, (i < 4)%nat -> k_mem k' (place locs (N.of_nat p) (4 * N.of_nat x) + N.of_nat i) = k_mem k (place locs (N.of_nat p) (4 * N.of_nat x) + N.of_nat i)).
    { intros i Hi. apply El. apply Out; assumption. }
    rewrite (get_word_same _ _ _ S). rewrite N.eqb_refl. split; [exact C1 | ]. rewrite C2. symmetry.
    specialize (Out p x 0%nat Hp Hx ltac:(lia) C). rewrite N.add_0_r in Out. apply El, Out.
Qed.

Lemma agrees_erase k k' f page : (page < length (store_pages locs))%nat ->
  agrees locs k f -> erased k k' (place locs (N.of_nat page) 0) ->
  agrees locs k' (Store.Model.do_action f (Store.Model.AErase page)).
Proof.
  intros Hpg A (El & In & Er). intros p Hp. destruct (A p Hp) as [E1 E2].
  cbn [Store.Model.do_action Store.Model.cells Store.Model.writes Store.Model.erases Store.Model.act_cells]. split.
  { rewrite Er. destruct (Nat.eqb_spec p page) as [-> | Np].
    - rewrite N.eqb_refl. now rewrite E1.
    - destruct (N.eqb_spec (place locs (N.of_nat p) 0) (place locs (N.of_nat page) 0)) as [e | _]; [ | exact E1].
      exfalso. exact (place_apart p page 0 0 Hp Hpg ltac:(lia) ltac:(lia) Np e). }
  intros x Hx. destruct (E2 x Hx) as [C1 C2]. destruct (Nat.eqb_spec p page) as [-> | Np].
  - assert (B : forall i, (i < 4)%nat -> within (place locs (N.of_nat page) (4 * N.of_nat x) + N.of_nat i) (place locs (N.of_nat page) 0) 4096).
    { intros i Hi. unfold within, place. lia. }
    split; [ | symmetry; specialize (B 0%nat ltac:(lia)); rewrite N.add_0_r in B; apply In, B].
    rewrite (get_word_same (fun _ => 255) (k_mem k')) by (intros i Hi; apply In, B, Hi). reflexivity.
  - assert (O : forall i, (i < 4)%nat -> ~ within (place locs (N.of_nat p) (4 * N.of_nat x) + N.of_nat i) (place locs (N.of_nat page) 0) 4096).
    { intros i Hi W. pose proof (pages_apart locs (t_whole locs t New) Apart p page Hp Hpg Np). unfold within, place in W. rewrite !Nat2N.id in W. lia. }
    rewrite (get_word_same (k_mem k) (k_mem k')) by (intros i Hi; apply El, O, Hi). split; [exact C1 | ]. rewrite C2. symmetry.
    specialize (O 0%nat ltac:(lia)). rewrite N.add_0_r in O. apply El, O.
Qed.
End AGREE.

Lemma wrote_words k ptr v : proper k -> bytes_ok v = true -> words4 v ->
  wrote k (write_words k ptr v) ptr v /\ proper (write_words k ptr v).
Proof.
  intros P B W. destruct (write_words_keeps v k ptr B P) as (K1 & K2 & _ & _). split; [ | exact K1]. split; [ | split; [ | split]].
  - intros x Hx. destruct (write_words_before v k ptr x B P Hx) as [E1 E2]. now rewrite K2.
  - intros i Hi. apply (write_words_inside v k ptr i B P W Hi).
  - intro x. now rewrite K2.
  - intros i Hi. apply (write_words_inside v k ptr i B P W Hi).
Qed.

(** ** Losses of power *)

Lemma byte_bits b : b < 256 <-> forall i, 8 <= i -> N.testbit b i = false.
Proof.
  change 256 with (2 ^ 8). split.
  - intros H i Hi. rewrite <- (N.mod_small b (2 ^ 8) H). now apply N.mod_pow2_bits_high.
  - intro H. replace b with (b mod 2 ^ 8); [apply N.mod_lt; discriminate | ]. apply N.bits_inj. intro i.
    destruct (N.lt_ge_cases i 8) as [L | L]; [now apply N.mod_pow2_bits_low | ]. rewrite N.mod_pow2_bits_high by exact L. symmetry. apply H, L.
Qed.
Lemma nth_word_bit w j r : (j < 4)%nat -> r < 8 -> N.testbit (nth j (word_bytes w) 0) r = N.testbit w (r + 8 * N.of_nat j).
Proof.
  intros Hj Hr. assert (E : nth j (word_bytes w) 0 = w / 2 ^ (8 * N.of_nat j) mod 2 ^ 8).
  { destruct j as [ | [ | [ | [ | j]]]]; [ | reflexivity | reflexivity | reflexivity | lia].
    cbn [word_bytes nth]. change (8 * N.of_nat 0) with 0. now rewrite N.pow_0_r, N.div_1_r. }
  rewrite E, N.mod_pow2_bits_low, N.div_pow2_bits by exact Hr. reflexivity.
Qed.
Lemma word_bit (m : mem) a i : (forall x, m x < 256) -> i < 32 ->
  exists j r, (j < 4)%nat /\ r < 8 /\ i = r + 8 * N.of_nat j /\ N.testbit (get_word m a) i = N.testbit (m (a + N.of_nat j)) r.
Proof.
  intros P Hi. exists (N.to_nat (i / 8)), (i mod 8).
  pose proof (N.div_mod i 8 ltac:(discriminate)) as D. pose proof (N.mod_lt i 8 ltac:(discriminate)) as L.
  remember (i / 8) as q. remember (i mod 8) as r. clear Heqq Heqr.
  assert (Hj : (N.to_nat q < 4)%nat) by lia. split; [exact Hj | ]. split; [exact L | ]. split; [lia | ].
  rewrite <- (nth4 m a) by exact Hj. rewrite <- get_word_bytes by exact P. rewrite nth_word_bit by assumption. f_equal. lia.
Qed.

Lemma write_cut_bits k ptr v m : write_cut k ptr v m -> proper k -> bytes_ok v = true -> forall x i,
  N.testbit (m x) i = N.testbit (k_mem k x) i \/ N.testbit (m x) i = N.testbit (k_mem (write_words k ptr v) x) i.
Proof.
  induction 1 as [k ptr v | k ptr b0 b1 b2 b3 rest m H1 H2 | k ptr b0 b1 b2 b3 rest m H IH]; intros P B x i.
  - now left.
  - apply bytes_ok_4 in B as [B4 B]. destruct (inside x ptr 4) eqn:I.
    + apply inside_spec in I. destruct (H2 x i I) as [E | E]; [now left | right]. rewrite E, (write_words_cons k ptr b0 b1 b2 b3 rest).
      rewrite (proj1 (write_words_before rest (one_word k ptr b0 b1 b2 b3) (ptr + 4) x B (one_word_proper _ _ _ _ _ _ P B4) ltac:(unfold within in *; lia))).
      reflexivity.
    + left. now rewrite H1 by (now apply inside_false).
  - apply bytes_ok_4 in B as [B4 B]. rewrite write_words_cons in *. cbn [write_words] in IH.
    pose proof (one_word_proper k ptr _ _ _ _ P B4) as P1. destruct (IH P1 B x i) as [E | E]; [ | now right].
    destruct (inside x ptr 4) eqn:I.
    + right. apply inside_spec in I. rewrite E.
      now rewrite (proj1 (write_words_before rest (one_word k ptr b0 b1 b2 b3) (ptr + 4) x B P1 ltac:(unfold within in *; lia))).
    + left. rewrite E. rewrite one_word_mem, I by assumption. reflexivity.
Qed.
Lemma mix_proper (m m1 m2 : mem) : (forall x, m1 x < 256) -> (forall x, m2 x < 256) ->
  (forall x i, N.testbit (m x) i = N.testbit (m1 x) i \/ N.testbit (m x) i = N.testbit (m2 x) i) -> forall x, m x < 256.
Proof.
  intros P1 P2 H x. apply byte_bits. intros i Hi. destruct (H x i) as [-> | ->]; now apply byte_bits.
Qed.
Lemma mix_word (m m1 m2 : mem) a i : (forall x, m1 x < 256) -> (forall x, m2 x < 256) ->
  (forall x i, N.testbit (m x) i = N.testbit (m1 x) i \/ N.testbit (m x) i = N.testbit (m2 x) i) ->
  N.testbit (get_word m a) i = N.testbit (get_word m1 a) i \/ N.testbit (get_word m a) i = N.testbit (get_word m2 a) i.
Proof.
  intros P1 P2 H. pose proof (mix_proper m m1 m2 P1 P2 H) as P. destruct (N.lt_ge_cases i 32) as [L | L].
  - destruct (word_bit m a i P L) as (j & r & Hj & Hr & E & ->). 
    assert (Q : forall m0 : mem, (forall x, m0 x < 256) -> N.testbit (get_word m0 a) i = N.testbit (m0 (a + N.of_nat j)) r).
    { intros m0 P0. rewrite E. rewrite <- (nth4 m0 a) by exact Hj. rewrite <- get_word_bytes by exact P0. symmetry. now apply nth_word_bit. }
    rewrite !Q by assumption. apply H.
  - left. pose proof (proj1 (w32_bit _) (get_word_32 m a P) i L) as ->. symmetry. exact (proj1 (w32_bit _) (get_word_32 m1 a P1) i L).
Qed.
