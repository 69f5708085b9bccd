(** SHA-256 follows FIPS 180-4 however the message is cut into pieces. *)
From Verif Require Import Base Facts Hash.Model.
From Verif Require Hash.Spec.
Open Scope N_scope.

(** ** Words *)

Lemma plus_2 a b : add32 a b = Spec.plus [a; b].
Proof. unfold add32, Spec.plus, WORD. cbn [fold_right]. rewrite N.add_0_r. reflexivity. Qed.
Lemma add32_l a b c : add32 (add32 a b) c = Spec.plus [a; b; c].
Proof.
  unfold add32, Spec.plus, WORD. cbn [fold_right].
  rewrite N.add_mod_idemp_l by discriminate. f_equal. lia.
Qed.
Lemma add32_lll a b c d : add32 (add32 (add32 a b) c) d = Spec.plus [a; b; c; d].
Proof.
  unfold add32, Spec.plus, WORD. cbn [fold_right].
  rewrite (N.add_mod_idemp_l (a + b)) by discriminate.
  rewrite N.add_mod_idemp_l by discriminate. f_equal. lia.
Qed.
Lemma add32_5 a b c d e : add32 (add32 (add32 (add32 a b) c) d) e = Spec.plus [a; b; c; d; e].
Proof.
  rewrite add32_lll. unfold add32, Spec.plus, WORD. cbn [fold_right].
  rewrite N.add_mod_idemp_l by discriminate. f_equal. lia.
Qed.
Lemma add32_lt a b : add32 a b < 2 ^ 32.
Proof. unfold add32, WORD. apply N.mod_lt. discriminate. Qed.

Lemma not32_spec x : x < 2 ^ 32 -> not32 x = Spec.NOT x.
Proof.
  intros H. unfold not32, Spec.NOT, WORD.
  change (2 ^ 32 - 1) with (N.ones 32).
  assert (E : N.land x (N.ones 32) = x) by (rewrite N.land_ones; apply N.mod_small; exact H).
  assert (D : N.land (N.lxor x (N.ones 32)) x = 0).
  { apply N.bits_inj. intros i. rewrite N.land_spec, N.lxor_spec, N.bits_0.
    destruct (N.lt_ge_cases i 32).
    - rewrite N.ones_spec_low by assumption. destruct (N.testbit x i); reflexivity.
    - rewrite <- E at 2. rewrite N.land_spec, (N.ones_spec_high 32 i) by assumption.
      rewrite !andb_false_r. reflexivity. }
  assert (L : N.lxor (N.lxor x (N.ones 32)) x = N.ones 32).
  { apply N.bits_inj. intros i. rewrite !N.lxor_spec.
    destruct (N.testbit x i), (N.testbit (N.ones 32) i); reflexivity. }
  pose proof (N.add_nocarry_lxor _ _ D) as A. rewrite L in A. lia.
Qed.

Lemma primes_len : length Spec.primes = 64%nat.
Proof. reflexivity. Qed.

(** The integer cube root, to compute the constants. *)
Fixpoint cbrt (n : nat) (r x : N) : N :=
  match n with
  | O => r
  | S n' => let r' := r + 2 ^ N.of_nat n' in cbrt n' (if r' ^ 3 <=? x then r' else r) x
  end.
Lemma constants_ok :
  forallb (fun t => let x := nth t Spec.primes 0 * 2 ^ 96 in
                    let r := cbrt 36 0 x in
                    (r ^ 3 <=? x) && (x <? (r + 1) ^ 3) && (nth t K 0 =? r mod 2 ^ 32)) (seq 0 64) = true.
Proof. vm_compute. reflexivity. Qed.
Lemma K_spec t : (t < 64)%nat -> Spec.is_K t (nth t K 0).
Proof.
  intros Ht.
  assert (A := proj1 (forallb_forall _ _) constants_ok t (proj2 (in_seq 64 0 t) (conj (Nat.le_0_l t) Ht))).
  cbv beta zeta in A.
  apply andb_true_iff in A as [A A3]. apply andb_true_iff in A as [A1 A2].
  apply N.leb_le in A1. apply N.ltb_lt in A2. apply N.eqb_eq in A3.
  exists (cbrt 36 0 (nth t Spec.primes 0 * 2 ^ 96)). split; [split | ]; assumption.
Qed.

Definition vars_of (s : regs) : Spec.vars :=
  fun j => nth j [ra s; rb s; rc s; rd s; re s; rf s; rg s; rh s] 0.
Lemma H_ok :
  forallb (fun i => let x := nth i Spec.primes 0 * 2 ^ 64 in
                    let r := N.sqrt x in
                    (r ^ 2 <=? x) && (x <? (r + 1) ^ 2) && (vars_of H i =? r mod 2 ^ 32)) (seq 0 8) = true.
Proof. vm_compute. reflexivity. Qed.
Lemma H_spec i : (i < 8)%nat -> Spec.is_H i (vars_of H i).
Proof.
  intros Ht.
  assert (A := proj1 (forallb_forall _ _) H_ok i (proj2 (in_seq 8 0 i) (conj (Nat.le_0_l i) Ht))).
  cbv beta zeta in A.
  apply andb_true_iff in A as [A A3]. apply andb_true_iff in A as [A1 A2].
  apply N.leb_le in A1. apply N.ltb_lt in A2. apply N.eqb_eq in A3.
  exists (N.sqrt (nth i Spec.primes 0 * 2 ^ 64)). split; [split | ]; assumption.
Qed.

(** ** The schedule *)

Definition expanded (w0 : list N) (n : nat) : list N := fold_left extend (seq 16 n) w0.
Lemma expanded_S w0 n : expanded w0 (S n) = extend (expanded w0 n) (16 + n).
Proof. unfold expanded. rewrite seq_S, fold_left_app. reflexivity. Qed.
Lemma expanded_len w0 n : length w0 = 16%nat -> length (expanded w0 n) = (16 + n)%nat.
Proof.
  intros H. induction n as [ | n IH].
  - cbn. lia.
  - rewrite expanded_S. unfold extend. rewrite app_length, IH. cbn. lia.
Qed.
Lemma expanded_nth w0 n : length w0 = 16%nat ->
  (forall t, (t < 16)%nat -> nth t (expanded w0 n) 0 = nth t w0 0) /\
  (forall t, (16 <= t < 16 + n)%nat ->
     nth t (expanded w0 n) 0 =
     Spec.plus [Spec.sig1 (nth (t - 2) (expanded w0 n) 0); nth (t - 7) (expanded w0 n) 0;
                Spec.sig0 (nth (t - 15) (expanded w0 n) 0); nth (t - 16) (expanded w0 n) 0]).
Proof.
  intros H. induction n as [ | n [IH1 IH2]].
  - split; [reflexivity | intros t Ht; lia].
  - pose proof (expanded_len w0 n H) as L. rewrite expanded_S. unfold extend. split.
    + intros t Ht. rewrite app_nth1 by lia. apply IH1, Ht.
    + intros t Ht. destruct (Nat.eq_dec t (16 + n)) as [-> | Ne].
      * rewrite app_nth2 by lia. rewrite L, Nat.sub_diag. cbn [nth].
        rewrite !(app_nth1 _ _ 0) by lia. rewrite add32_lll.
        unfold Spec.plus. cbn [fold_right]. f_equal.
        change (ssig0 ?x) with (Spec.sig0 x). change (ssig1 ?x) with (Spec.sig1 x). lia.
      * rewrite !(app_nth1 _ _ 0) by lia. apply IH2. lia.
Qed.

Lemma nth_map_seq {B} (f : nat -> B) d n t : (t < n)%nat -> nth t (map f (seq 0 n)) d = f t.
Proof.
  intros H. rewrite (nth_indep _ d (f 0%nat)) by (rewrite map_length, seq_length; exact H).
  rewrite map_nth, seq_nth by exact H. reflexivity.
Qed.
Lemma expand_eq blk : Model.expand blk = expanded (block_words blk) 48.
Proof. unfold Model.expand, expanded. reflexivity. Qed.
Lemma schedule_ok p i blk :
  blk = firstn 64 (skipn (64 * i) p) ->
  Spec.schedule p i (fun t => nth t (Model.expand blk) 0).
Proof.
  intros E. assert (L : length (block_words blk) = 16%nat) by (unfold block_words; rewrite map_length, seq_length; reflexivity).
  destruct (expanded_nth (block_words blk) 48 L) as [A B].
  rewrite expand_eq. split.
  - intros t Ht. cbv beta. rewrite A by exact Ht.
    unfold block_words, Spec.word.
    rewrite nth_map_seq by exact Ht. f_equal.
    rewrite E, skipn_firstn_comm, firstn_firstn.
    rewrite (Nat.min_l 4 (64 - 4 * t)) by lia.
    f_equal. rewrite skipn_skipn. f_equal. lia.
  - intros t Ht. apply B. lia.
Qed.

(** ** The main loop *)

Definition small (s : regs) : Prop :=
  ra s < 2 ^ 32 /\ rb s < 2 ^ 32 /\ rc s < 2 ^ 32 /\ rd s < 2 ^ 32 /\
  re s < 2 ^ 32 /\ rf s < 2 ^ 32 /\ rg s < 2 ^ 32 /\ rh s < 2 ^ 32.
Lemma round_small s kw : small s -> small (round s kw).
Proof.
  intros (A & B & C & D & E & F & G & I). unfold small, round. cbn [ra rb rc rd re rf rg rh].
  pose proof add32_lt. auto 10.
Qed.
Lemma rounds_small l : forall s, small s -> small (fold_left round l s).
Proof. induction l; intros s Hs; cbn; auto using round_small. Qed.
Lemma add_small s t : small (add_regs s t).
Proof. unfold small, add_regs. cbn [ra rb rc rd re rf rg rh]. pose proof add32_lt. auto 10. Qed.
Lemma hash_block_small s b : small (hash_block s b).
Proof. apply add_small. Qed.
Lemma H_small : small H.
Proof. unfold small, H. cbn [ra rb rc rd re rf rg rh]. repeat split; reflexivity. Qed.

Lemma round_spec s k w : small s -> Spec.iteration k w (vars_of s) (vars_of (round s (k, w))).
Proof.
  intros (A & B & C & D & E & F & G & I). unfold Spec.iteration, vars_of, round.
  cbn [nth ra rb rc rd re rf rg rh fst snd].
  assert (T : add32 (add32 (add32 (add32 (rh s) (bsig1 (re s))) (choice (re s) (rf s) (rg s))) k) w =
              Spec.plus [rh s; Spec.Sum1 (re s); Spec.Ch (re s) (rf s) (rg s); k; w]).
  { rewrite add32_5. unfold choice, Spec.Ch. rewrite not32_spec by exact E. reflexivity. }
  rewrite T, !plus_2. repeat split.
Qed.

Lemma firstn_snoc {A} (d : A) n l : (n < length l)%nat -> firstn (n + 1) l = firstn n l ++ [nth n l d].
Proof.
  revert n. induction l as [ | x l IH]; intros n Hn; [cbn in Hn; lia | ].
  destruct n; [reflexivity | ]. cbn in *. f_equal. apply IH. lia.
Qed.

Lemma hash_block_spec p i s : small s ->
  Spec.block p i (vars_of s) (vars_of (hash_block s (firstn 64 (skipn (64 * i) p)))).
Proof.
  intros Hs. set (blk := firstn 64 (skipn (64 * i) p)).
  set (l := combine K (Model.expand blk)).
  assert (Le : length (Model.expand blk) = 64%nat) by (rewrite expand_eq; apply (expanded_len (block_words blk) 48); unfold block_words; rewrite map_length, seq_length; reflexivity).
  assert (Ll : length l = 64%nat) by (unfold l; rewrite combine_length, Le; reflexivity).
  exists (fun t => nth t (Model.expand blk) 0), (fun t => nth t K 0),
         (fun t => vars_of (fold_left round (firstn t l) s)).
  split; [apply schedule_ok; reflexivity | ].
  split; [exact K_spec | ].
  split; [reflexivity | ].
  split.
  - intros t Ht. rewrite (firstn_snoc (0, 0)) by lia. rewrite fold_left_app. cbn [fold_left].
    unfold l at 3. rewrite combine_nth by (rewrite Le; reflexivity).
    apply round_spec, rounds_small, Hs.
  - intros j Hj. rewrite firstn_all2 by lia.
    fold l. unfold hash_block, add_regs, vars_of. fold l. cbv beta.
    set (s' := fold_left round l s).
    do 8 (destruct j as [ | j]; [cbn [nth ra rb rc rd re rf rg rh]; unfold add32, Spec.plus, WORD; cbn [fold_right];
      rewrite N.add_0_r; f_equal; apply N.add_comm | ]). lia.
Qed.

(** ** Blocks *)

Fixpoint iter (n : nat) (s : regs) (l : bytes) : regs :=
  match n with O => s | S n' => iter n' (hash_block s (firstn 64 l)) (skipn 64 l) end.
Lemma iter_app n : forall s a b, (64 * n <= length a)%nat -> iter n s (a ++ b) = iter n s a.
Proof.
  induction n as [ | n IH]; intros s a b Ha; [reflexivity | ]. cbn [iter].
  rewrite firstn_app, skipn_app. replace (64 - length a)%nat with O by lia.
  rewrite firstn_O, app_nil_r. change (skipn 0 b) with b. apply IH. rewrite skipn_length. lia.
Qed.
Lemma iter_add n : forall m s a b, length a = (64 * n)%nat -> iter (n + m) s (a ++ b) = iter m (iter n s a) b.
Proof.
  induction n as [ | n IH]; intros m s a b Ha.
  - destruct a; [reflexivity | cbn in Ha; lia].
  - cbn [iter Nat.add]. rewrite firstn_app, skipn_app. replace (64 - length a)%nat with O by lia.
    rewrite firstn_O, app_nil_r. change (skipn 0 b) with b. apply IH. rewrite skipn_length. lia.
Qed.
Lemma iter_S n s l : iter (n + 1) s l = hash_block (iter n s l) (firstn 64 (skipn (64 * n) l)).
Proof.
  revert s l. induction n as [ | n IH]; intros s l; [reflexivity | ].
  change (S n + 1)%nat with (S (n + 1)). cbn [iter]. rewrite IH. f_equal. rewrite skipn_skipn. f_equal. f_equal. lia.
Qed.
Lemma iter_small n : forall s l, small s -> small (iter n s l).
Proof. induction n; intros s l Hs; cbn; auto using hash_block_small. Qed.

Lemma full_blocks_ok fuel : forall s l, (length l < 64 * (fuel + 1))%nat ->
  full_blocks fuel s l = (iter (length l / 64) s l, skipn (64 * (length l / 64)) l).
Proof.
  induction fuel as [ | fuel IH]; intros s l Hl; cbn [full_blocks].
  - rewrite Nat.div_small by lia. reflexivity.
  - destruct (length l <? 64)%nat eqn:E.
    + apply Nat.ltb_lt in E. rewrite Nat.div_small by lia. reflexivity.
    + apply Nat.ltb_ge in E. rewrite IH by (rewrite skipn_length; lia).
      rewrite skipn_length.
      assert (D : (length l / 64 = S ((length l - 64) / 64))%nat).
      { replace (length l) with (length l - 64 + 1 * 64)%nat at 1 by lia.
        rewrite Nat.div_add by lia. lia. }
      rewrite D. cbn [iter]. rewrite skipn_skipn. f_equal. f_equal. lia.
Qed.

(** The state after the message [m]. *)
Definition absorbed (m : bytes) (s : sha) : Prop :=
  exists n a b, m = a ++ b /\ length a = (64 * n)%nat /\ (length b < 64)%nat /\
    s_state s = iter n H a /\ length (s_block s) = 64%nat /\ firstn (length b) (s_block s) = b /\
    s_total s = Nlen m.

Lemma cursor_of n (a b m : bytes) : m = a ++ b -> length a = (64 * n)%nat -> (length b < 64)%nat ->
  N.to_nat (Nlen m mod 64) = length b.
Proof.
  intros -> Ha Hb. unfold Nlen. rewrite app_length, Ha. lia.
Qed.
Lemma new_absorbed : absorbed [] sha_new.
Proof. exists O, [], []. repeat split; cbn; lia. Qed.

Lemma copy_len block c l : length block = 64%nat -> (c + length l <= 64)%nat -> length (copy_at block c l) = 64%nat.
Proof. intros H1 H2. unfold copy_at. rewrite !app_length, firstn_length, skipn_length. lia. Qed.
Lemma copy_firstn block c l : length block = 64%nat -> (c + length l <= 64)%nat ->
  firstn (c + length l) (copy_at block c l) = firstn c block ++ l.
Proof.
  intros H1 H2. unfold copy_at. rewrite app_assoc, firstn_app.
  rewrite firstn_all2 by (rewrite app_length, firstn_length; lia).
  rewrite app_length, firstn_length. replace (c + length l - (Nat.min c (length block) + length l))%nat with O by lia.
  rewrite firstn_O, app_nil_r. reflexivity.
Qed.

Lemma update_ok width m s l : absorbed m s -> Nlen (m ++ l) < 2 ^ width ->
  exists s', update width s l = Some s' /\ absorbed (m ++ l) s'.
Proof.
  intros (n & a & b & Em & Ha & Hb & Hst & Hbl & Hfb & Ht) Hlen.
  unfold update. rewrite Ht, (cursor_of n a b m Em Ha Hb).
  assert (Hl : Nlen m + Nlen l = Nlen (m ++ l)) by (unfold Nlen; rewrite app_length; lia).
  rewrite Hl. destruct (2 ^ width <=? Nlen (m ++ l)) eqn:E; [apply N.leb_le in E; lia | ]. clear E.
  destruct (length l <? 64 - length b)%nat eqn:E.
  - apply Nat.ltb_lt in E. eexists; split; [reflexivity | ].
    exists n, a, (b ++ l). cbn [s_state s_block s_total].
    split; [rewrite Em, app_assoc; reflexivity | ]. split; [exact Ha | ].
    split; [rewrite app_length; lia | ]. split; [exact Hst | ].
    split; [apply copy_len; [exact Hbl | lia] | ].
    split; [ | reflexivity].
    rewrite app_length, copy_firstn by (try exact Hbl; lia). rewrite Hfb. reflexivity.
  - apply Nat.ltb_ge in E.
    set (left := (64 - length b)%nat) in *.
    set (block := copy_at (s_block s) (length b) (firstn left l)).
    assert (Lf : length (firstn left l) = left) by (rewrite firstn_length; lia).
    assert (Bk : block = b ++ firstn left l).
    { unfold block. pose proof (copy_firstn (s_block s) (length b) (firstn left l) Hbl) as C.
      rewrite Lf in C. rewrite Hfb in C. rewrite <- C by (unfold left; lia).
      symmetry. apply firstn_all2. rewrite copy_len; [unfold left; lia | exact Hbl | rewrite Lf; unfold left; lia]. }
    assert (Lb : length block = 64%nat) by (rewrite Bk, app_length, Lf; unfold left; lia).
    set (rest := skipn left l).
    assert (Lr : length rest = (length l - left)%nat) by (apply skipn_length).
    rewrite full_blocks_ok by (rewrite Lr; lia).
    set (q := (length rest / 64)%nat).
    assert (Q : (64 * q <= length rest < 64 * q + 64)%nat).
    { unfold q. pose proof (Nat.div_mod (length rest) 64 ltac:(lia)).
      pose proof (Nat.mod_upper_bound (length rest) 64 ltac:(lia)). lia. }
    eexists; split; [reflexivity | ].
    exists (n + (1 + q))%nat, (a ++ block ++ firstn (64 * q) rest), (skipn (64 * q) rest).
    cbn [s_state s_block s_total].
    assert (Lq : length (skipn (64 * q) rest) = (length rest - 64 * q)%nat) by apply skipn_length.
    split.
    { rewrite Em, Bk, <- !app_assoc. f_equal. f_equal.
      rewrite (firstn_skipn (64 * q) rest). unfold rest. symmetry. apply firstn_skipn. }
    split; [rewrite !app_length, Ha, Lb, firstn_length; lia | ].
    split; [lia | ].
    split.
    { rewrite iter_add by exact Ha. rewrite <- Hst.
      rewrite (iter_add 1) by (rewrite Lb; reflexivity). cbn [iter]. rewrite (firstn_all2 block) by lia.
      rewrite <- (firstn_skipn (64 * q) rest) at 1. rewrite iter_app; [reflexivity | rewrite firstn_length; lia]. }
    split; [apply copy_len; [exact Lb | lia] | ].
    split; [ | reflexivity].
    pose proof (copy_firstn block 0 (skipn (64 * q) rest) Lb ltac:(lia)) as C. cbn [Nat.add firstn app] in C. exact C.
Qed.

Lemma updates_ok width l : forall m s, absorbed m s -> Nlen (m ++ concat l) < 2 ^ width ->
  exists s', updates width s l = Some s' /\ absorbed (m ++ concat l) s'.
Proof.
  induction l as [ | c l IH]; intros m s Hs Hlen; cbn [updates concat] in *.
  - exists s. rewrite app_nil_r. auto.
  - rewrite app_assoc in *.
    destruct (update_ok width m s c Hs) as (s' & -> & Hs').
    { apply N.le_lt_trans with (2 := Hlen). unfold Nlen. rewrite (app_length (m ++ c)). lia. }
    destruct (IH (m ++ c) s' Hs' Hlen) as (s'' & -> & Hs''). exists s''. auto.
Qed.

Lemma repeat_plus {A} (x : A) a b : repeat x (a + b) = repeat x a ++ repeat x b.
Proof. induction a; cbn; congruence. Qed.

(** What finalize does: it pads and hashes the last block or two. *)
Lemma finalize_ok m s : absorbed m s -> 8 * Nlen m < 2 ^ 64 ->
  exists p n, Spec.padded m p /\ length p = (64 * n)%nat /\ finalize s = Some (encode (iter n H p)).
Proof.
  intros (n & a & b & Em & Ha & Hb & Hst & Hbl & Hfb & Ht) Hlen.
  unfold finalize. rewrite Ht, (cursor_of n a b m Em Ha Hb).
  set (c := length b).
  assert (C1 : length (copy_at (s_block s) c [0x80]) = 64%nat) by (apply copy_len; [exact Hbl | cbn; unfold c; lia]).
  pose proof (copy_firstn (s_block s) c [0x80] Hbl ltac:(cbn; unfold c; lia)) as C2.
  cbn [length] in C2. unfold c in C2 at 3. rewrite Hfb in C2. rewrite C2.
  replace (Nlen m * 8) with (8 * Nlen m) by lia.
  destruct (2 ^ 64 <=? 8 * Nlen m) eqn:E; [apply N.leb_le in E; lia | ]. clear E.
  set (len := be_bytes 8 (8 * Nlen m)). assert (Ll : length len = 8%nat) by apply be_bytes_length.
  assert (Lm : length m = (64 * n + c)%nat) by (rewrite Em, app_length, Ha; reflexivity).
  destruct (56 <=? c)%nat eqn:E.
  - apply Nat.leb_le in E.
    exists (a ++ (b ++ [0x80]) ++ repeat 0 (64 - (c + 1)) ++ repeat 0 56 ++ len), (n + 2)%nat.
    split; [ | split].
    + exists (64 - (c + 1) + 56)%nat.
      split; [fold len; clearbody len; rewrite Em, repeat_plus, <- !app_assoc; reflexivity | ].
      split; [lia | ]. rewrite Lm.
      replace (64 * n + c + 1 + (64 - (c + 1) + 56))%nat with (56 + (n + 1) * 64)%nat by (unfold c; lia).
      rewrite Nat.mod_add by lia. reflexivity.
    + rewrite !app_length, !repeat_length, Ha, Ll. fold c. cbn [length]. unfold c. lia.
    + f_equal. f_equal. rewrite iter_add by exact Ha. rewrite <- Hst.
      rewrite (app_assoc (b ++ [0x80])).
      assert (L1 : length ((b ++ [0x80]) ++ repeat 0 (64 - (c + 1))) = 64%nat).
      { rewrite !app_length, repeat_length. fold c. cbn [length]. unfold c; lia. }
      rewrite (iter_add 1) by (rewrite L1; reflexivity). cbn [iter].
      rewrite (firstn_all2 ((b ++ [0x80]) ++ _)) by (rewrite L1; lia).
      f_equal.
  - apply Nat.leb_gt in E.
    exists (a ++ (b ++ [0x80]) ++ repeat 0 (55 - c) ++ len), (n + 1)%nat.
    split; [ | split].
    + exists (55 - c)%nat. split; [fold len; clearbody len; rewrite Em, <- !app_assoc; reflexivity | ].
      split; [lia | ]. rewrite Lm. replace (64 * n + c + 1 + (55 - c))%nat with (56 + n * 64)%nat by lia.
      rewrite Nat.mod_add by lia. reflexivity.
    + rewrite !app_length, !repeat_length, Ha, Ll. fold c. cbn [length]. lia.
    + f_equal. f_equal. rewrite iter_add by exact Ha. rewrite <- Hst. cbn [iter]. f_equal.
      assert (L1 : length ((b ++ [0x80]) ++ repeat 0 (55 - c) ++ len) = 64%nat).
      { rewrite !app_length, repeat_length, Ll. fold c. cbn [length]. lia. }
      rewrite firstn_all2 by (rewrite L1; lia).
      unfold copy_at. rewrite Ll.
      replace (64 - (c + 1))%nat with (55 - c + 8)%nat by lia. rewrite repeat_plus.
      rewrite !app_assoc.
      assert (L2 : length ((b ++ [0x80]) ++ repeat 0 (55 - c)) = 56%nat).
      { rewrite !app_length, repeat_length. fold c. cbn [length]. lia. }
      set (front := (b ++ [0x80]) ++ repeat 0 (55 - c)) in *.
      rewrite (firstn_app 56 front), (firstn_all2 front) by lia. rewrite L2, Nat.sub_diag, firstn_O, app_nil_r.
      rewrite skipn_all2 by (rewrite app_length, L2, repeat_length; lia). rewrite app_nil_r. reflexivity.
Qed.

Lemma stream_ok width l : Nlen (concat l) < 2 ^ width -> 8 * Nlen (concat l) < 2 ^ 64 ->
  exists d, stream width l = Some d /\ Spec.is_sha256 (concat l) d.
Proof.
  intros H1 H2. unfold stream.
  destruct (updates_ok width l [] sha_new new_absorbed H1) as (s & -> & Hs). cbn [app] in Hs.
  destruct (finalize_ok (concat l) s Hs H2) as (p & n & Hp & Lp & ->).
  eexists; split; [reflexivity | ].
  exists p, (fun i => vars_of (iter i H p)), n.
  split; [exact Hp | ]. split; [exact Lp | ]. split; [exact H_spec | ].
  split; [ | reflexivity].
  intros i Hi. rewrite iter_S. apply hash_block_spec, iter_small, H_small.
Qed.


(** ** The specification determines the hash *)

Lemma cube_mono a b : a <= b -> a ^ 3 <= b ^ 3.
Proof. intros. apply N.pow_le_mono_l. assumption. Qed.
Lemma is_K_fun t a b : Spec.is_K t a -> Spec.is_K t b -> a = b.
Proof.
  intros (r & [A1 A2] & ->) (r' & [B1 B2] & ->). f_equal.
  destruct (N.lt_trichotomy r r') as [L | [E | L]]; [ | exact E | ]; exfalso.
  - pose proof (cube_mono (r + 1) r' ltac:(lia)). lia.
  - pose proof (cube_mono (r' + 1) r ltac:(lia)). lia.
Qed.
Lemma is_H_fun t a b : Spec.is_H t a -> Spec.is_H t b -> a = b.
Proof.
  intros (r & [A1 A2] & ->) (r' & [B1 B2] & ->). f_equal.
  destruct (N.lt_trichotomy r r') as [L | [E | L]]; [ | exact E | ]; exfalso.
  - pose proof (N.pow_le_mono_l (r + 1) r' 2 ltac:(lia)). lia.
  - pose proof (N.pow_le_mono_l (r' + 1) r 2 ltac:(lia)). lia.
Qed.
Lemma padded_fun m p q : Spec.padded m p -> Spec.padded m q -> p = q.
Proof.
  intros (k & -> & K1 & K2) (k' & -> & L1 & L2).
  assert (k = k'); [ | subst; reflexivity].
  pose proof (Nat.div_mod (length m + 1 + k) 64 ltac:(lia)).
  pose proof (Nat.div_mod (length m + 1 + k') 64 ltac:(lia)). lia.
Qed.
Lemma schedule_fun p i W W' : Spec.schedule p i W -> Spec.schedule p i W' -> forall t, (t < 64)%nat -> W t = W' t.
Proof.
  intros [A1 A2] [B1 B2] t. induction t as [t IH] using lt_wf_ind. intros Ht.
  destruct (Nat.lt_ge_cases t 16).
  - rewrite A1, B1 by assumption. reflexivity.
  - rewrite A2, B2 by lia. rewrite !IH by lia. reflexivity.
Qed.
Definition same (v v' : Spec.vars) : Prop := forall j, (j < 8)%nat -> v j = v' j.
Lemma iteration_fun k w v1 v2 u1 u2 : same v1 v2 -> Spec.iteration k w v1 u1 -> Spec.iteration k w v2 u2 -> same u1 u2.
Proof.
  intros E A B. unfold Spec.iteration in *.
  rewrite <- !(E 0%nat), <- !(E 1%nat), <- !(E 2%nat), <- !(E 3%nat), <- !(E 4%nat), <- !(E 5%nat), <- !(E 6%nat),
    <- !(E 7%nat) in B by lia. cbv zeta in A, B.
  destruct A as (A7 & A6 & A5 & A4 & A3 & A2 & A1 & A0). destruct B as (B7 & B6 & B5 & B4 & B3 & B2 & B1 & B0).
  intros j Hj. do 8 (destruct j as [ | j]; [congruence | ]). lia.
Qed.
Lemma block_fun p i v1 v2 u1 u2 : same v1 v2 -> Spec.block p i v1 u1 -> Spec.block p i v2 u2 -> same u1 u2.
Proof.
  intros E (W & C & v & S1 & K1 & V0 & V1 & V2) (W' & C' & v' & S1' & K1' & V0' & V1' & V2').
  assert (G : forall t, (t <= 64)%nat -> same (v t) (v' t)).
  { induction t as [ | t IH]; intros Ht; [rewrite V0, V0'; exact E | ].
    replace (S t) with (t + 1)%nat by lia.
    pose proof (V1 t ltac:(lia)) as A. pose proof (V1' t ltac:(lia)) as B.
    rewrite <- (schedule_fun p i W W' S1 S1' t ltac:(lia)) in B.
    rewrite <- (is_K_fun t (C t) (C' t) (K1 t ltac:(lia)) (K1' t ltac:(lia))) in B.
    exact (iteration_fun _ _ _ _ _ _ (IH ltac:(lia)) A B). }
  intros j Hj. rewrite V2, V2' by exact Hj. rewrite (G 64%nat) by lia. rewrite (E j Hj). reflexivity.
Qed.
Lemma is_sha256_fun m d d' : Spec.is_sha256 m d -> Spec.is_sha256 m d' -> d = d'.
Proof.
  intros (p & Hs & n & P & L & I & B & ->) (p' & Hs' & n' & P' & L' & I' & B' & ->).
  rewrite (padded_fun _ _ _ P P') in *. assert (n = n') by lia. subst n'.
  assert (G : forall i, (i <= n)%nat -> same (Hs i) (Hs' i)).
  { induction i as [ | i IH]; intros Hi.
    - intros j Hj. exact (is_H_fun j _ _ (I j Hj) (I' j Hj)).
    - replace (S i) with (i + 1)%nat by lia.
      exact (block_fun _ _ _ _ _ _ (IH ltac:(lia)) (B i ltac:(lia)) (B' i ltac:(lia))). }
  assert (F : forall l, (forall j, In j l -> (j < 8)%nat) ->
    flat_map (fun j => be_bytes 4 (Hs n j)) l = flat_map (fun j => be_bytes 4 (Hs' n j)) l).
  { induction l as [ | j l IH]; intros Hl; [reflexivity | ]. cbn [flat_map].
    rewrite (G n (le_n n) j) by (apply Hl; left; reflexivity). rewrite IH; [reflexivity | ].
    intros j' Hj'. apply Hl. right. exact Hj'. }
  apply F. intros j Hj. apply in_seq in Hj. lia.
Qed.

(** ** HMAC and HKDF *)

Lemma encode_len s : length (encode s) = 32%nat.
Proof. reflexivity. Qed.
Lemma stream_len width l d : stream width l = Some d -> length d = 32%nat.
Proof.
  unfold stream. destruct (updates width sha_new l) as [s | ]; [ | discriminate]. unfold finalize.
  destruct (if (56 <=? N.to_nat (s_total s mod 64))%nat then _ else _) as [st bl].
  destruct (2 ^ 64 <=? s_total s * 8); [discriminate | ]. intros E. injection E as <-. apply encode_len.
Qed.

Lemma stream_hash width l : Nlen (concat l) < 2 ^ width -> 8 * Nlen (concat l) < 2 ^ 64 ->
  stream width l = hash width (concat l).
Proof.
  intros H1 H2. destruct (stream_ok width l H1 H2) as (d & E & D). unfold hash.
  assert (C : concat [concat l] = concat l) by (cbn [concat]; apply app_nil_r).
  rewrite <- C in H1, H2. destruct (stream_ok width [concat l] H1 H2) as (d' & E' & D').
  rewrite C in D'. rewrite E, (is_sha256_fun _ _ _ D D'). symmetry. exact E'.
Qed.

Lemma xor_repeat pad n : forall k, length k = n ->
  Spec.xor k (repeat pad n) = map (fun x => N.lxor pad x) k.
Proof.
  unfold Spec.xor. induction n as [ | n IH]; intros k Hk; destruct k as [ | x k]; try (cbn in Hk; lia); [reflexivity | ].
  cbn. rewrite N.lxor_comm. f_equal. apply IH. cbn in Hk. lia.
Qed.
Lemma xor_pad_ok h pad key : length key = 32%nat ->
  Spec.xor (Spec.pad_key h key) (repeat pad 64) = xor_pad pad key.
Proof.
  intros L. unfold Spec.pad_key. rewrite L. change (64 <? 32)%nat with false. cbv iota zeta.
  rewrite (xor_repeat pad 64) by (rewrite app_length, L, repeat_length; reflexivity).
  rewrite map_app. unfold xor_pad. rewrite L. f_equal.
  change (64 - 32)%nat with 32%nat. cbn [repeat map]. rewrite !N.lxor_0_r. reflexivity.
Qed.
Lemma xor_pad_len pad key : length key = 32%nat -> length (xor_pad pad key) = 64%nat.
Proof. intros L. unfold xor_pad. rewrite app_length, map_length, repeat_length, L. reflexivity. Qed.
