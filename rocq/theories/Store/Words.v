(** What the words the store writes parse to, completely and partially written. *)
From Verif Require Import Base Facts.
From Verif.Kv Require Import Model.
From Verif.Store Require Import Format Bits.
Open Scope N_scope.

Lemma word_of_bytes b0 b1 b2 b3 : b0 < 256 -> b1 < 256 -> b2 < 256 -> b3 < 256 ->
  word_bytes (word_of b0 b1 b2 b3) = [b0; b1; b2; b3].
Proof. intros. unfold word_bytes, word_of. repeat f_equal; lia. Qed.
Lemma word_bytes_of w : w32 w ->
  word_of (w mod 256) (w / 256 mod 256) (w / 65536 mod 256) (w / 16777216 mod 256) = w.
Proof. unfold word_of, w32. lia. Qed.
Lemma word_of_w32 b0 b1 b2 b3 : b0 < 256 -> b1 < 256 -> b2 < 256 -> b3 < 256 ->
  w32 (word_of b0 b1 b2 b3).
Proof. unfold word_of, w32. lia. Qed.
Lemma word_of_erased b0 b1 b2 b3 : b0 < 256 -> b1 < 256 -> b2 < 256 -> b3 < 256 ->
  word_of b0 b1 b2 b3 = ERASED -> b0 = 255 /\ b1 = 255 /\ b2 = 255 /\ b3 = 255.
Proof. unfold word_of, ERASED. lia. Qed.
Lemma to_words_4 n : to_words (S (S (S (S n)))) = S (to_words n).
Proof.
  unfold to_words. replace (S (S (S (S n))) + 3)%nat with (n + 3 + 1 * 4)%nat by lia.
  rewrite Nat.div_add by discriminate. lia.
Qed.
Lemma to_words_mono a b : (a <= b)%nat -> (to_words a <= to_words b)%nat.
Proof. intros H. unfold to_words. apply Nat.div_le_mono; lia. Qed.
Lemma to_words_0 a : to_words a = 0%nat -> a = 0%nat.
Proof. unfold to_words. intros H. apply Nat.div_small_iff in H; lia. Qed.

Ltac Zify.zify_post_hook ::= idtac.

Lemma bytes4_ind (P : bytes -> Prop) :
  P [] -> (forall a, P [a]) -> (forall a b, P [a; b]) -> (forall a b c, P [a; b; c]) ->
  (forall a b c d l, P l -> P (a :: b :: c :: d :: l)) -> forall l, P l.
Proof.
  intros H0 H1 H2 H3 H4.
  assert (G : forall n l, (length l <= n)%nat -> P l).
  { induction n as [|n IH]; intros l Hl.
    - destruct l; [exact H0|cbn in Hl; lia].
    - destruct l as [|a [|b [|c [|d l]]]]; auto. apply H4, IH. cbn in Hl. lia. }
  intros l. apply (G (length l)). lia.
Qed.

Lemma bytes_cons_ok a (l : bytes) : bytes_ok (a :: l) = true -> a < 256 /\ bytes_ok l = true.
Proof.
  cbn [bytes_ok forallb]. intros H. apply andb_true_iff in H as [H1 H2].
  apply N.ltb_lt in H1. auto.
Qed.
Ltac split_ok H :=
  match type of H with
  | bytes_ok (_ :: _) = true =>
      let H' := fresh H in apply bytes_cons_ok in H as [H' H]; split_ok H
  | _ => idtac
  end.

Lemma words_of_length v : length (words_of v) = to_words (length v).
Proof.
  induction v using bytes4_ind; try reflexivity.
  cbn [words_of length]. rewrite to_words_4, IHv. reflexivity.
Qed.
Lemma words_of_nil v : words_of v = [] -> v = [].
Proof. destruct v as [|a [|b [|c [|d l]]]]; cbn; congruence. Qed.
Lemma words_of_w32 v : bytes_ok v = true -> Forall w32 (words_of v).
Proof.
  induction v using bytes4_ind; cbn [words_of]; intros H; split_ok H;
    repeat constructor; try (apply word_of_w32; lia). auto.
Qed.
(** The value followed by bytes 0xff. *)
Lemma bytes_of_words_of v : bytes_ok v = true ->
  exists p, bytes_of (words_of v) = v ++ repeat 255 p.
Proof.
  induction v using bytes4_ind; cbn [words_of]; intros H; split_ok H.
  - exists O. reflexivity.
  - exists 3%nat. unfold bytes_of. cbn [flat_map app]. rewrite word_of_bytes by lia. reflexivity.
  - exists 2%nat. unfold bytes_of. cbn [flat_map app]. rewrite word_of_bytes by lia. reflexivity.
  - exists 1%nat. unfold bytes_of. cbn [flat_map app]. rewrite word_of_bytes by lia. reflexivity.
  - destruct IHv as [p IH]; [exact H|]. exists p. unfold bytes_of in *. cbn [flat_map app].
    rewrite word_of_bytes by lia. rewrite IH. reflexivity.
Qed.

(** store.rs 471-487: the value read back from the words after the header. *)
Definition set_last (l : bytes) (x : N) : bytes :=
  match l with [] => [] | _ => removelast l ++ [x] end.
Definition value_of (flipped : bool) (len : nat) (ws : list N) : bytes :=
  let r := firstn len (bytes_of ws) in
  if flipped then set_last r 255 else r.

Lemma firstn_exact {A} (a b : list A) : firstn (length a) (a ++ b) = a.
Proof. rewrite firstn_app, Nat.sub_diag, firstn_all. cbn. apply app_nil_r. Qed.

Definition flip_of (v : bytes) : bool :=
  match words_of v with [] => false | _ => last (words_of v) 0 =? ERASED end.
Definition value_words (v : bytes) : list N :=
  if flip_of v then removelast (words_of v) ++ [FLIPPED_WORD] else words_of v.

Lemma last_cons {A} (x y : A) l d : last (x :: y :: l) d = last (y :: l) d.
Proof. reflexivity. Qed.

Lemma flip_of_4 a b c d e l : flip_of (a :: b :: c :: d :: e :: l) = flip_of (e :: l).
Proof.
  unfold flip_of. destruct l as [|f [|g [|h l]]]; cbn [words_of]; try reflexivity.
Qed.
Lemma words_of_cons_ne e l : exists x xs, words_of (e :: l) = x :: xs.
Proof. destruct l as [|f [|g [|h l]]]; cbn [words_of]; eauto. Qed.
Lemma value_words_4 a b c d e l :
  value_words (a :: b :: c :: d :: e :: l) = word_of a b c d :: value_words (e :: l).
Proof.
  unfold value_words. rewrite flip_of_4. destruct (words_of_cons_ne e l) as (x & xs & E).
  change (words_of (a :: b :: c :: d :: e :: l))
    with (word_of a b c d :: words_of (e :: l)).
  rewrite E. destruct (flip_of (e :: l)); reflexivity.
Qed.

Lemma value_words_length v : length (value_words v) = to_words (length v).
Proof.
  rewrite <- words_of_length. unfold value_words. destruct (flip_of v) eqn:F; [|reflexivity].
  unfold flip_of in F. destruct (words_of v) as [|x l] eqn:E; [discriminate|].
  rewrite app_length. cbn [length].
  pose proof (@app_removelast_last N (x :: l) 0) as A.
  assert (x :: l <> []) as Ne by discriminate. specialize (A Ne).
  apply (f_equal (@length N)) in A. rewrite app_length in A. cbn [length] in A. lia.
Qed.

(** The value comes back from its words. *)
Lemma value_roundtrip v : bytes_ok v = true ->
  value_of (flip_of v) (length v) (value_words v) = v.
Proof.
  intros H. unfold value_of.
  induction v using bytes4_ind.
  - reflexivity.
  - split_ok H. unfold value_words, flip_of. cbn [words_of last removelast app].
    destruct (word_of a 255 255 255 =? ERASED) eqn:E; unfold bytes_of; cbn [flat_map app length].
    + apply N.eqb_eq in E. apply word_of_erased in E as (-> & _); [|lia..]. reflexivity.
    + rewrite word_of_bytes by lia. reflexivity.
  - split_ok H. unfold value_words, flip_of. cbn [words_of last removelast app].
    destruct (word_of a b 255 255 =? ERASED) eqn:E; unfold bytes_of; cbn [flat_map app length].
    + apply N.eqb_eq in E. apply word_of_erased in E as (-> & -> & _); [|lia..]. reflexivity.
    + rewrite word_of_bytes by lia. reflexivity.
  - split_ok H. unfold value_words, flip_of. cbn [words_of last removelast app].
    destruct (word_of a b c 255 =? ERASED) eqn:E; unfold bytes_of; cbn [flat_map app length].
    + apply N.eqb_eq in E. apply word_of_erased in E as (-> & -> & -> & _); [|lia..]. reflexivity.
    + rewrite word_of_bytes by lia. reflexivity.
  - split_ok H. destruct v as [|e l].
    + unfold value_words, flip_of. cbn [words_of last removelast app].
      destruct (word_of a b c d =? ERASED) eqn:E; unfold bytes_of; cbn [flat_map app length].
      * apply N.eqb_eq in E. apply word_of_erased in E as (-> & -> & -> & ->); [|lia..].
        reflexivity.
      * rewrite word_of_bytes by lia. reflexivity.
    + rewrite value_words_4, flip_of_4. specialize (IHv H).
      unfold bytes_of in *. cbn [flat_map length]. rewrite word_of_bytes by lia.
      change (S (S (S (S (S (length l)))))) with (4 + length (e :: l))%nat.
      cbn [app Nat.add firstn].
      destruct (flip_of (e :: l)).
      * set (r := firstn (length (e :: l)) (flat_map word_bytes (value_words (e :: l)))) in *.
        destruct r as [|r0 r]; [discriminate|].
        transitivity (a :: b :: c :: d :: set_last (r0 :: r) 255); [reflexivity|].
        rewrite IHv. reflexivity.
      * rewrite IHv. reflexivity.
Qed.

(* ------------------------------------------------------- footers of values *)

Lemma count_zeros_pos w : w32 w -> w <> ERASED -> 1 <= count_zeros w.
Proof.
  intros Hw Ne. unfold count_zeros, count_ones.
  destruct (ones_sub 32 w ERASED (proj1 (sub_erased w) Hw)) as [L E].
  assert (O : ones 32 ERASED = 32) by reflexivity. rewrite O in *.
  destruct (N.eq_dec (ones 32 w) 32) as [Eq|Nq]; [|lia].
  exfalso. apply Ne. specialize (E Eq). apply N.bits_inj. intros i.
  destruct (N.lt_ge_cases i 32) as [Hi|Hi]; [apply E; exact Hi|].
  rewrite (proj1 (w32_bit w) Hw), (proj1 (w32_bit ERASED) w32_erased) by exact Hi. reflexivity.
Qed.
Lemma count_zeros_le w : count_zeros w <= 32.
Proof. unfold count_zeros. lia. Qed.
Lemma count_zeros_erased : count_zeros ERASED = 0.
Proof. reflexivity. Qed.
Lemma count_zeros_sub a b : w32 b -> sub a b ->
  count_zeros b <= count_zeros a /\ (count_zeros b = count_zeros a -> a = b).
Proof.
  intros Hb H. assert (Ha : w32 a) by (eapply w32_sub; eauto).
  unfold count_zeros, count_ones. destruct (ones_sub 32 a b H) as [L E].
  pose proof (ones_le 32 a). pose proof (ones_le 32 b). change (N.of_nat 32) with 32 in *.
  split; [lia|]. intros Eq. assert (E1 : ones 32 a = ones 32 b) by lia. specialize (E E1).
  apply N.bits_inj. intros i. destruct (N.lt_ge_cases i 32) as [Hi|Hi]; [apply E; exact Hi|].
  rewrite (proj1 (w32_bit a) Ha), (proj1 (w32_bit b) Hb) by exact Hi. reflexivity.
Qed.

Lemma Forall_removelast {A} (P : A -> Prop) l : Forall P l -> Forall P (removelast l).
Proof.
  induction l as [|x l IH]; [auto|]. intros H. inversion_clear H as [|? ? H1 H2].
  destruct l; [constructor|]. cbn [removelast]. constructor; auto.
Qed.
Lemma Forall_last {A} (P : A -> Prop) l d : Forall P l -> l <> [] -> P (last l d).
Proof.
  induction l as [|x l IH]; [congruence|]. intros H _. inversion_clear H as [|? ? H1 H2].
  destruct l; [exact H1|]. rewrite last_cons. apply IH; [exact H2|discriminate].
Qed.
Lemma value_words_w32 v : bytes_ok v = true -> Forall w32 (value_words v).
Proof.
  intros H. unfold value_words. pose proof (words_of_w32 v H) as W.
  destruct (flip_of v); [|exact W].
  apply Forall_app. split; [apply Forall_removelast, W|].
  constructor; [reflexivity|constructor].
Qed.
Lemma value_footer v : bytes_ok v = true -> value_words v <> [] ->
  last (value_words v) 0 <> ERASED.
Proof.
  intros H Ne. unfold value_words in *. destruct (flip_of v) eqn:F.
  - rewrite last_last. discriminate.
  - unfold flip_of in F. destruct (words_of v) as [|x l] eqn:E; [congruence|].
    apply N.eqb_neq in F. exact F.
Qed.

(* ------------------------------------------------------------------ fields *)

Lemma f_set_get f w v w' : f_set f w v = Ok w' -> f_get f w' = v.
Proof.
  unfold f_set. intros E. destruct (negb (N.land _ _ =? _)); [discriminate|].
  match type of E with (if negb (?a =? ?b) then _ else _) = _ => destruct (a =? b) eqn:X end;
    [|discriminate]. cbn [negb] in E. injection E as <-. apply N.eqb_eq in X. exact X.
Qed.
Lemma f_get_ext f a b :
  (forall i, in_field f i = true -> N.testbit a i = N.testbit b i) -> f_get f a = f_get f b.
Proof.
  intros H. apply N.bits_inj. intros i. rewrite !f_get_bit.
  destruct (i <? f_len f) eqn:E; [|reflexivity]. cbn [andb]. apply H. unfold in_field.
  apply N.ltb_lt in E. apply andb_true_iff. split; [apply N.leb_le|apply N.ltb_lt]; lia.
Qed.
Lemma f_get_low f w i : i < f_len f -> N.testbit w (i + f_pos f) = N.testbit (f_get f w) i.
Proof.
  intros H. rewrite f_get_bit. replace (i <? f_len f) with true by (symmetry; apply N.ltb_lt, H).
  reflexivity.
Qed.

Ltac fits := first [reflexivity | eapply N.le_lt_trans; [eassumption|reflexivity]].
Ltac not_field :=
  match goal with
  | |- context [in_field ?f ?i] =>
      replace (in_field f i) with false
        by (symmetry; unfold in_field; cbn [f_pos f_len INIT_CYCLE INIT_PREFIX COMPACT_TAIL WORD_CHECKSUM HEADER_LENGTH HEADER_KEY HEADER_CHECKSUM]; apply andb_false_iff;
            first [left; apply N.leb_gt; lia | right; apply N.ltb_ge; lia])
  end.
Ltac is_field H :=
  unfold in_field in H; cbn [f_pos f_len INIT_CYCLE INIT_PREFIX COMPACT_TAIL WORD_CHECKSUM HEADER_LENGTH HEADER_KEY HEADER_CHECKSUM] in H; apply andb_true_iff in H;
  rewrite N.leb_le, N.ltb_lt in H.

(** A word made of a constant identifier and a field over erased bits, with its checksum. *)
Lemma erased_ones i : i < 32 -> N.testbit ERASED i = true.
Proof. intros H. rewrite erased_bit. apply N.ltb_lt, H. Qed.

(** format.rs 339-345. *)
Lemma build_init_spec cycle prefix :
  (N.of_nat cycle <= 65535) -> (N.of_nat prefix <= 511) ->
  exists w, build_init cycle prefix = Ok w /\ w32 w /\ cs_get WORD_CHECKSUM w = Ok 0 /\
    f_get INIT_CYCLE w = N.of_nat cycle /\ f_get INIT_PREFIX w = N.of_nat prefix.
Proof.
  intros H1 H2. unfold build_init.
  destruct (f_set_spec INIT_CYCLE ERASED (N.of_nat cycle)) as (w1 & E1 & W1 & B1);
    [reflexivity|discriminate|fits|intros i Hi; is_field Hi; apply erased_ones; lia|].
  rewrite E1. cbn [rbind]. pose proof (f_set_get _ _ _ _ E1) as G1.
  destruct (f_set_spec INIT_PREFIX w1 (N.of_nat prefix)) as (w2 & E2 & W2 & B2);
    [exact W1|discriminate|fits| |].
  { intros i Hi. is_field Hi. rewrite B1. not_field. apply erased_ones; lia. }
  rewrite E2. cbn [rbind]. pose proof (f_set_get _ _ _ _ E2) as G2.
  destruct (cs_set_spec WORD_CHECKSUM w2 0) as (w3 & E3 & W3 & C3 & L3 & _);
    [reflexivity|exact W2| |reflexivity|].
  { intros i Hi. is_field Hi. rewrite B2. not_field. rewrite B1. not_field. apply erased_ones; lia. }
  exists w3. split; [exact E3|]. split; [exact W3|]. split; [exact C3|]. split.
  - rewrite <- G1. apply f_get_ext. intros i Hi. is_field Hi.
    rewrite L3 by (cbn; lia). rewrite B2. not_field. reflexivity.
  - rewrite <- G2. apply f_get_ext. intros i Hi. is_field Hi.
    rewrite L3 by (cbn; lia). reflexivity.
Qed.
(** format.rs 373-378. *)
Lemma build_compact_spec tail :
  (N.of_nat tail <= 65535) ->
  exists w, build_compact tail = Ok w /\ w32 w /\ cs_get WORD_CHECKSUM w = Ok 0 /\
    f_get COMPACT_TAIL w = N.of_nat tail.
Proof.
  intros H1. unfold build_compact.
  destruct (f_set_spec COMPACT_TAIL ERASED (N.of_nat tail)) as (w1 & E1 & W1 & B1);
    [reflexivity|discriminate|fits|intros i Hi; is_field Hi; apply erased_ones; lia|].
  rewrite E1. cbn [rbind]. pose proof (f_set_get _ _ _ _ E1) as G1.
  destruct (cs_set_spec WORD_CHECKSUM w1 0) as (w3 & E3 & W3 & C3 & L3 & _);
    [reflexivity|exact W1| |reflexivity|].
  { intros i Hi. is_field Hi. rewrite B1. not_field. apply erased_ones; lia. }
  exists w3. split; [exact E3|]. split; [exact W3|]. split; [exact C3|].
  rewrite <- G1. apply f_get_ext. intros i Hi. is_field Hi. apply L3. cbn. lia.
Qed.

Lemma cs_get_not_erased f w : f = WORD_CHECKSUM -> cs_get f w = Ok 0 -> w <> ERASED.
Proof. intros -> H ->. vm_compute in H. discriminate. Qed.

(** The value of a word or the erased word in case of error; no error occurs. *)
Definition ok_or {A} (r : res store_error A) (d : A) : A := match r with Ok a => a | Err _ => d end.
Definition init_word (cycle prefix : nat) : N := ok_or (build_init cycle prefix) ERASED.
Definition compact_word (tail : nat) : N := ok_or (build_compact tail) ERASED.
Definition int_word (i : internal) : N := ok_or (build_internal i) ERASED.
Definition user_words (k : N) (v : bytes) : list N := ok_or (build_user k v) [].

Lemma init_word_parse F cycle prefix :
  (cycle <= max_page_erases F)%nat -> (prefix <= max_prefix F)%nat ->
  N.of_nat cycle <= 65535 -> N.of_nat prefix <= 511 ->
  build_init cycle prefix = Ok (init_word cycle prefix) /\
  w32 (init_word cycle prefix) /\ init_word cycle prefix <> ERASED /\
  parse_init_word F (init_word cycle prefix) = Ok (Valid (cycle, prefix)) /\
  (forall x, w32 x -> sub (init_word cycle prefix) x -> x <> init_word cycle prefix ->
     parse_init_word F x = Ok Erased \/ parse_init_word F x = Ok Partial).
Proof.
  intros H1 H2 H3 H4. unfold init_word.
  destruct (build_init_spec cycle prefix H3 H4) as (w & E & W & C & G1 & G2).
  rewrite E. cbn [ok_or]. split; [reflexivity|]. split; [exact W|].
  assert (Ne : w <> ERASED) by (eapply cs_get_not_erased; eauto).
  split; [exact Ne|]. split.
  - unfold parse_init_word. apply N.eqb_neq in Ne. rewrite Ne, C. cbn [rbind].
    rewrite N.eqb_refl. cbn [negb]. rewrite G1, G2, !Nat2N.id.
    replace (max_page_erases F <? cycle)%nat with false by (symmetry; apply Nat.ltb_ge; lia).
    replace (max_prefix F <? prefix)%nat with false by (symmetry; apply Nat.ltb_ge; lia).
    reflexivity.
  - intros x Wx S Nx. unfold parse_init_word. destruct (x =? ERASED); [auto|].
    destruct (cs_get_sub WORD_CHECKSUM w x 0) as (d & D & L & Q); [reflexivity|assumption..|].
    rewrite D. cbn [rbind]. destruct (d =? 0) eqn:Z; [|right; reflexivity].
    apply N.eqb_eq in Z. subst d. exfalso. apply Nx. symmetry. apply Q. reflexivity.
Qed.

Lemma compact_word_parse F tail :
  (tail <= window_size F)%nat -> N.of_nat tail <= 65535 ->
  build_compact tail = Ok (compact_word tail) /\
  w32 (compact_word tail) /\ compact_word tail <> ERASED /\
  parse_compact_word F (compact_word tail) = Ok (Valid tail) /\
  (forall x, w32 x -> sub (compact_word tail) x -> x <> compact_word tail ->
     x <> ERASED -> parse_compact_word F x = Ok Partial).
Proof.
  intros H1 H3. unfold compact_word.
  destruct (build_compact_spec tail H3) as (w & E & W & C & G1).
  rewrite E. cbn [ok_or]. split; [reflexivity|]. split; [exact W|].
  assert (Ne : w <> ERASED) by (eapply cs_get_not_erased; eauto).
  split; [exact Ne|]. split.
  - unfold parse_compact_word. apply N.eqb_neq in Ne. rewrite Ne, C. cbn [rbind].
    rewrite N.eqb_refl. cbn [negb]. rewrite G1, !Nat2N.id.
    replace (window_size F <? tail)%nat with false by (symmetry; apply Nat.ltb_ge; lia).
    reflexivity.
  - intros x Wx S Nx Nex. unfold parse_compact_word. apply N.eqb_neq in Nex. rewrite Nex.
    destruct (cs_get_sub WORD_CHECKSUM w x 0) as (d & D & L & Q); [reflexivity|assumption..|].
    rewrite D. cbn [rbind]. destruct (d =? 0) eqn:Z; [|reflexivity].
    apply N.eqb_eq in Z. subst d. exfalso. apply Nx. symmetry. apply Q. reflexivity.
Qed.

(* ---------------------------------------------------------- internal words *)

Lemma const_field_spec (id v : N) (g : field) :
  id <= 31 -> f_pos g = 5 -> 5 + f_len g <= 27 -> v < 2 ^ f_len g ->
  exists w, (w0 <- (w <- f_set (mkField 0 5) ERASED id ;; f_set g w v) ;; cs_set WORD_CHECKSUM w0 0)
    = Ok w /\ w32 w /\ cs_get WORD_CHECKSUM w = Ok 0 /\
    f_get (mkField 0 5) w = id /\ f_get g w = v.
Proof.
  intros H1 P5 L27 Hv.
  destruct (f_set_spec (mkField 0 5) ERASED id) as (w1 & E1 & W1 & B1);
    [reflexivity|discriminate|fits|intros i Hi; is_field Hi; apply erased_ones; lia|].
  rewrite E1. cbn [rbind]. pose proof (f_set_get _ _ _ _ E1) as G1.
  destruct (f_set_spec g w1 v) as (w2 & E2 & W2 & B2);
    [exact W1|lia|exact Hv| |].
  { intros i Hi. is_field Hi. rewrite B1. not_field. apply erased_ones; lia. }
  rewrite E2. cbn [rbind]. pose proof (f_set_get _ _ _ _ E2) as G2.
  destruct (cs_set_spec WORD_CHECKSUM w2 0) as (w3 & E3 & W3 & C3 & L3 & _);
    [reflexivity|exact W2| |reflexivity|].
  { intros i Hi. is_field Hi. rewrite B2. not_field. rewrite B1. not_field. apply erased_ones; lia. }
  exists w3. split; [exact E3|]. split; [exact W3|]. split; [exact C3|]. split.
  - rewrite <- G1. apply f_get_ext. intros i Hi. is_field Hi.
    rewrite L3 by (cbn; lia). rewrite B2. not_field. reflexivity.
  - rewrite <- G2. apply f_get_ext. intros i Hi. is_field Hi.
    rewrite L3 by (cbn; lia). reflexivity.
Qed.

Definition int_ok (i : internal) : Prop :=
  match i with
  | IErase p => N.of_nat p <= 63 | IClear k => k <= 4095
  | IMarker n => N.of_nat n <= 31 | IRemove k => k <= 4095
  end.
Definition int_id (i : internal) : N :=
  match i with IErase _ => 3 | IClear _ => 19 | IMarker _ => 11 | IRemove _ => 27 end.
Definition int_field (i : internal) : field :=
  match i with
  | IErase _ => ERASE_PAGE | IClear _ => CLEAR_MIN_KEY | IMarker _ => MARKER_COUNT
  | IRemove _ => REMOVE_KEY
  end.
Definition int_val (i : internal) : N :=
  match i with IErase p => N.of_nat p | IClear k => k | IMarker n => N.of_nat n | IRemove k => k end.

Lemma build_internal_spec i : int_ok i ->
  exists w, build_internal i = Ok w /\ w32 w /\ cs_get WORD_CHECKSUM w = Ok 0 /\
    f_get (mkField 0 5) w = int_id i /\ f_get (int_field i) w = int_val i.
Proof.
  intros H. destruct i as [p|k|n|k]; cbn in H.
  - apply (const_field_spec 3 (N.of_nat p) ERASE_PAGE); first [discriminate | fits].
  - apply (const_field_spec 19 k CLEAR_MIN_KEY); first [discriminate | fits].
  - apply (const_field_spec 11 (N.of_nat n) MARKER_COUNT); first [discriminate | fits].
  - apply (const_field_spec 27 k REMOVE_KEY); first [discriminate | fits].
Qed.

Lemma id_bits w : N.testbit w 0 = N.testbit (f_get (mkField 0 5) w) 0 /\
  N.testbit w 1 = N.testbit (f_get (mkField 0 5) w) 1 /\
  N.testbit w 2 = N.testbit (f_get (mkField 0 5) w) 2.
Proof.
  split; [|split].
  - apply (f_get_low (mkField 0 5) w 0). cbn. lia.
  - apply (f_get_low (mkField 0 5) w 1). cbn. lia.
  - apply (f_get_low (mkField 0 5) w 2). cbn. lia.
Qed.

Lemma check_padding w : c_check ID_PADDING w = negb (N.testbit w 0).
Proof.
  unfold c_check, ID_PADDING. cbn [fst snd].
  pose proof (f_get_low (mkField 0 1) w 0) as B. cbn [f_len f_pos] in B.
  change (0 + 0) with 0 in B. rewrite B by lia.
  pose proof (f_get_lt (mkField 0 1) w) as L. cbn [f_len] in L. change (2 ^ 1) with 2 in L.
  destruct (f_get (mkField 0 1) w) as [|[p|p|]]; try reflexivity; lia.
Qed.
Lemma check_header w : c_check ID_HEADER w = N.testbit w 0 && negb (N.testbit w 1).
Proof.
  unfold c_check, ID_HEADER. cbn [fst snd].
  pose proof (f_get_low (mkField 0 2) w 0) as B0. pose proof (f_get_low (mkField 0 2) w 1) as B1.
  cbn [f_len f_pos] in B0, B1.
  change (0 + 0) with 0 in B0. change (1 + 0) with 1 in B1. rewrite B0, B1 by lia.
  pose proof (f_get_lt (mkField 0 2) w) as L. cbn [f_len] in L. change (2 ^ 2) with 4 in L.
  destruct (f_get (mkField 0 2) w) as [|[[p|p|]|[p|p|]|]]; try reflexivity; lia.
Qed.
Lemma deleted_bit w : b_get HEADER_DELETED w = negb (N.testbit w 2).
Proof.
  unfold b_get, HEADER_DELETED.
  destruct (N.testbit w 2) eqn:E; cbn [negb].
  - apply N.eqb_neq. intros X.
    assert (Y : N.testbit (N.land w (N.shiftl 1 2)) 2 = false) by (rewrite X; apply N.bits_0).
    rewrite N.land_spec, E in Y. cbn in Y. discriminate.
  - apply N.eqb_eq. apply N.bits_inj. intros i. rewrite N.land_spec, N.bits_0.
    destruct (N.eq_dec i 2) as [->|Ne]; [rewrite E; reflexivity|].
    change (N.shiftl 1 2) with (2 ^ 2). rewrite N.pow2_bits_eqb.
    replace (2 =? i) with false by (symmetry; apply N.eqb_neq; congruence).
    apply andb_false_r.
Qed.

(** Internal words are never confused with anything, even partially written. *)
Lemma int_word_parse F i : int_ok i -> internal_invalid F i = false ->
  build_internal i = Ok (int_word i) /\ w32 (int_word i) /\ int_word i <> ERASED /\
  parse_word F (int_word i) = Ok (Valid (PInternal i)) /\
  (forall x, w32 x -> sub (int_word i) x -> x <> int_word i ->
     parse_word F x = Ok Erased \/ parse_word F x = Ok Partial).
Proof.
  intros H Hi. unfold int_word.
  destruct (build_internal_spec i H) as (w & E & W & C & G1 & G2).
  rewrite E. cbn [ok_or]. split; [reflexivity|]. split; [exact W|].
  assert (Ne : w <> ERASED) by (eapply cs_get_not_erased; eauto).
  split; [exact Ne|].
  destruct (id_bits w) as (B0 & B1 & B2). rewrite G1 in B0, B1, B2.
  assert (T0 : N.testbit w 0 = true) by (rewrite B0; destruct i; reflexivity).
  assert (T1 : N.testbit w 1 = true) by (rewrite B1; destruct i; reflexivity).
  split.
  - unfold parse_word. rewrite check_padding, check_header, T0, T1. cbn [negb andb].
    rewrite C. cbn [rbind]. rewrite N.eqb_refl. cbn [negb].
    unfold c_check, ID_ERASE, ID_CLEAR, ID_MARKER, ID_REMOVE. cbn [fst snd]. rewrite G1.
    destruct i as [p|k|n|k]; cbn [int_id int_field int_val] in *; rewrite G2.
    + change (3 =? 3) with true. cbv iota. rewrite Nat2N.id, Hi. reflexivity.
    + change (19 =? 3) with false. change (19 =? 19) with true. cbv iota. rewrite Hi. reflexivity.
    + change (11 =? 3) with false. change (11 =? 19) with false. change (11 =? 11) with true.
      cbv iota. rewrite Nat2N.id, Hi. reflexivity.
    + change (27 =? 3) with false. change (27 =? 19) with false. change (27 =? 11) with false.
      change (27 =? 27) with true. cbv iota. rewrite Hi. reflexivity.
  - intros x Wx S Nx. unfold parse_word.
    rewrite check_padding, check_header, (S 0 T0), (S 1 T1). cbn [negb andb].
    destruct (cs_get_sub WORD_CHECKSUM w x 0) as (d & D & L & Q); [reflexivity|assumption..|].
    rewrite D. cbn [rbind].
    assert (Z : (d =? 0) = false).
    { apply N.eqb_neq. intros ->. apply Nx. symmetry. apply Q. reflexivity. }
    rewrite Z. cbn [negb].
    repeat match goal with |- context [if ?b then _ else _] => destruct b end; auto.
Qed.

(* -------------------------------------------------------------- user words *)

Lemma flip_bit_spec w (b : bool) : w32 w ->
  let w' := if b then b_set HEADER_FLIPPED w else w in
  w32 w' /\ (forall i, i <> 3 -> N.testbit w' i = N.testbit w i) /\
  (N.testbit w 3 = true -> N.testbit w' 3 = negb b).
Proof.
  intros W. cbn zeta. destruct b; cbn [negb].
  - unfold b_set, HEADER_FLIPPED. split; [apply w32_land, W|].
    assert (G : forall i, N.testbit (N.land w (lnot32 (N.shiftl 1 3))) i =
                          N.testbit w i && negb (i =? 3)).
    { intros i. rewrite N.land_spec, lnot32_bit. change (N.shiftl 1 3) with (2 ^ 3).
      rewrite N.pow2_bits_eqb. rewrite (N.eqb_sym 3 i).
      destruct (i =? 3) eqn:E.
      - apply N.eqb_eq in E. subst i. cbn. reflexivity.
      - cbn [xorb negb]. rewrite andb_true_r. destruct (i <? 32) eqn:L; [apply andb_true_r|].
        apply N.ltb_ge in L. rewrite (proj1 (w32_bit w) W i L). reflexivity. }
    split.
    + intros i Hi. rewrite G. apply N.eqb_neq in Hi. rewrite Hi. apply andb_true_r.
    + intros _. rewrite G. apply andb_false_r.
  - split; [exact W|]. split; [reflexivity|auto].
Qed.

(** The zeros of the footer, as counted in the header. *)
Definition footer_zeros (v : bytes) : N :=
  match value_words v with [] => 0 | _ => count_zeros (last (value_words v) 0) end.

Lemma build_user_spec k v : k <= 4095 -> Nlen v <= 1023 ->
  exists w, build_user k v = Ok (w :: value_words v) /\ w32 w /\
    N.testbit w 0 = true /\ N.testbit w 1 = false /\ N.testbit w 2 = true /\
    b_get HEADER_FLIPPED w = flip_of v /\
    f_get HEADER_LENGTH w = Nlen v /\ f_get HEADER_KEY w = k /\
    cs_get HEADER_CHECKSUM w = Ok (footer_zeros v).
Proof.
  intros Hk Hv. unfold build_user.
  fold (flip_of v). fold (value_words v). fold (footer_zeros v). unfold c_set, ID_HEADER.
  cbn [fst snd].
  destruct (f_set_spec (mkField 0 2) ERASED 1) as (w1 & E1 & W1 & B1);
    [reflexivity|discriminate|fits|intros i Hi; is_field Hi; apply erased_ones; lia|].
  rewrite E1. cbn [rbind].
  destruct (flip_bit_spec w1 (flip_of v) W1) as (W2 & B2 & B2').
  set (w2 := if flip_of v then _ else _) in *.
  destruct (f_set_spec HEADER_LENGTH w2 (Nlen v)) as (w3 & E3 & W3 & B3);
    [exact W2|discriminate|fits| |].
  { intros i Hi. is_field Hi. rewrite B2 by lia. rewrite B1. not_field. apply erased_ones; lia. }
  rewrite E3. cbn [rbind]. pose proof (f_set_get _ _ _ _ E3) as G3.
  destruct (f_set_spec HEADER_KEY w3 k) as (w4 & E4 & W4 & B4);
    [exact W3|discriminate|fits| |].
  { intros i Hi. is_field Hi. rewrite B3. not_field. rewrite B2 by lia. rewrite B1. not_field.
    apply erased_ones; lia. }
  rewrite E4. cbn [rbind]. pose proof (f_set_get _ _ _ _ E4) as G4.
  assert (Z : footer_zeros v <= 32).
  { unfold footer_zeros. destruct (value_words v); [lia|]. apply count_zeros_le. }
  destruct (cs_set_spec HEADER_CHECKSUM w4 (footer_zeros v)) as (w5 & E5 & W5 & C5 & L5 & _);
    [reflexivity|exact W4| |apply N.le_lt_trans with (26 + 32); [cbn [f_pos HEADER_CHECKSUM]; lia|reflexivity]|].
  { intros i Hi. is_field Hi. rewrite B4. not_field. rewrite B3. not_field. rewrite B2 by lia.
    rewrite B1. not_field. apply erased_ones; lia. }
  rewrite E5. cbn [rbind]. exists w5. split; [reflexivity|]. split; [exact W5|].
  assert (Low : forall i, i < 4 -> N.testbit w5 i = N.testbit w2 i).
  { intros i Hi. rewrite L5 by (cbn; lia). rewrite B4. not_field. rewrite B3. not_field.
    reflexivity. }
  split; [rewrite Low by lia; rewrite B2 by lia; rewrite B1; reflexivity|].
  split; [rewrite Low by lia; rewrite B2 by lia; rewrite B1; reflexivity|].
  split; [rewrite Low by lia; rewrite B2 by lia; rewrite B1; reflexivity|].
  split.
  { unfold b_get, HEADER_FLIPPED.
    assert (T3 : N.testbit w5 3 = negb (flip_of v)).
    { rewrite Low by lia. apply B2'. rewrite B1. reflexivity. }
    destruct (flip_of v); cbn [negb] in T3.
    - apply N.eqb_eq. apply N.bits_inj. intros i. rewrite N.land_spec, N.bits_0.
      destruct (N.eq_dec i 3) as [->|Ne]; [rewrite T3; reflexivity|].
      change (N.shiftl 1 3) with (2 ^ 3). rewrite N.pow2_bits_eqb.
      replace (3 =? i) with false by (symmetry; apply N.eqb_neq; congruence).
      apply andb_false_r.
    - apply N.eqb_neq. intros X.
      assert (Y : N.testbit (N.land w5 (N.shiftl 1 3)) 3 = false) by (rewrite X; apply N.bits_0).
      rewrite N.land_spec, T3 in Y. cbn in Y. discriminate. }
  split.
  - rewrite <- G3. apply f_get_ext. intros i Hi. is_field Hi.
    rewrite L5 by (cbn; lia). rewrite B4. not_field. reflexivity.
  - split; [|exact C5].
    rewrite <- G4. apply f_get_ext. intros i Hi. is_field Hi. apply L5. cbn. lia.
Qed.

Definition head_word (k : N) (v : bytes) : N := hd ERASED (user_words k v).

(** What a header parses to, completely and partially written. *)
Lemma user_word_parse F k v : k <= 4095 -> Nlen v <= 1023 ->
  build_user k v = Ok (user_words k v) /\ user_words k v = head_word k v :: value_words v /\
  w32 (head_word k v) /\ head_word k v <> ERASED /\
  parse_word F (head_word k v) =
    Ok (Valid (PHeader (mkHeader (flip_of v) (length v) k (footer_zeros v)))) /\
  (forall x, w32 x -> sub (head_word k v) x -> x <> head_word k v ->
     parse_word F x = Ok Erased \/ parse_word F x = Ok Partial \/
     exists h, parse_word F x = Ok (Valid (PHeader h)) /\
       (length v <= h_length h)%nat /\ footer_zeros v < h_checksum h /\ h_key h <= 4095).
Proof.
  intros Hk Hv. unfold head_word, user_words.
  destruct (build_user_spec k v Hk Hv) as (w & E & W & T0 & T1 & T2 & Fl & G1 & G2 & C).
  rewrite E. cbn [ok_or hd]. split; [reflexivity|]. split; [reflexivity|]. split; [exact W|].
  split.
  { intros ->. cbn in T1. discriminate. }
  split.
  - unfold parse_word. rewrite check_padding, check_header, deleted_bit, T0, T1, T2.
    cbn [negb andb]. rewrite C. cbn [rbind]. rewrite Fl, G1, G2. unfold Nlen.
    rewrite Nat2N.id. reflexivity.
  - intros x Wx S Nx. unfold parse_word.
    rewrite check_padding, check_header, deleted_bit, (S 0 T0), (S 2 T2). cbn [negb andb].
    destruct (N.testbit x 1) eqn:X1; cbn [negb].
    + assert (Id : forall c, c_check (mkField 0 5, c) x = true -> N.testbit c 2 = true).
      { intros c Hc. unfold c_check in Hc. cbn [fst snd] in Hc. apply N.eqb_eq in Hc.
        rewrite <- Hc. destruct (id_bits x) as (_ & _ & B2). rewrite <- B2. exact (S 2 T2). }
      unfold ID_ERASE, ID_CLEAR, ID_MARKER, ID_REMOVE.
      destruct (c_check (mkField 0 5, 3) x) eqn:D1; [apply Id in D1; discriminate|].
      destruct (c_check (mkField 0 5, 19) x) eqn:D2; [apply Id in D2; discriminate|].
      destruct (c_check (mkField 0 5, 11) x) eqn:D3; [apply Id in D3; discriminate|].
      destruct (c_check (mkField 0 5, 27) x) eqn:D4; [apply Id in D4; discriminate|].
      destruct (x =? ERASED); auto.
    + right. right.
      destruct (cs_get_sub HEADER_CHECKSUM w x (footer_zeros v)) as (d & D & L & Q);
        [reflexivity|assumption..|].
      rewrite D. cbn [rbind]. eexists. split; [reflexivity|]. cbn [h_length h_checksum h_key].
      split; [|split].
      * pose proof (sub_le _ _ (f_get_sub HEADER_LENGTH _ _ S)) as Le. rewrite G1 in Le.
        unfold Nlen in Le. lia.
      * destruct (N.eq_dec (footer_zeros v) d) as [Eq|Nq]; [|lia].
        exfalso. apply Nx. symmetry. apply Q, Eq.
      * pose proof (f_get_lt HEADER_KEY x) as Lt. cbn [f_len HEADER_KEY] in Lt.
        change (2 ^ 12) with 4096 in Lt. lia.
Qed.

(** Marking as padding or as deleted. *)
Lemma pad_word_spec F w : w32 w ->
  exists w', pad_word w = Ok w' /\ w32 w' /\ sub w' w /\ w' <> ERASED /\
    parse_word F w' = Ok (Valid (PPadding 0)).
Proof.
  intros W. unfold pad_word, c_set, ID_PADDING, f_set. cbn [fst snd].
  change (N.land 0 (f_mask (mkField 0 1)) =? 0) with true. cbn [negb].
  set (w' := N.land w _).
  assert (T0 : N.testbit w' 0 = false).
  { unfold w'. rewrite N.land_spec. apply andb_false_r. }
  assert (G : f_get (mkField 0 1) w' = 0).
  { pose proof (check_padding w') as P. rewrite T0 in P. unfold c_check in P. cbn [fst snd] in P.
    apply N.eqb_eq in P. exact P. }
  rewrite G. change (0 =? 0) with true. cbn [negb]. exists w'. split; [reflexivity|].
  split; [apply w32_land, W|]. split; [apply land_sub_l|].
  split; [intros X; rewrite X in T0; discriminate|].
  unfold parse_word. rewrite check_padding, T0. reflexivity.
Qed.
Lemma del_word_bits w : w32 w ->
  w32 (del_word w) /\ sub (del_word w) w /\ N.testbit (del_word w) 2 = false /\
  (forall i, i <> 2 -> N.testbit (del_word w) i = N.testbit w i).
Proof.
  intros W. unfold del_word, b_set, HEADER_DELETED.
  split; [apply w32_land, W|]. split; [apply land_sub_l|].
  assert (G : forall i, N.testbit (N.land w (lnot32 (N.shiftl 1 2))) i =
                        N.testbit w i && negb (i =? 2)).
  { intros i. rewrite N.land_spec, lnot32_bit. change (N.shiftl 1 2) with (2 ^ 2).
    rewrite N.pow2_bits_eqb. rewrite (N.eqb_sym 2 i).
    destruct (i =? 2) eqn:E.
    - apply N.eqb_eq in E. subst i. cbn. reflexivity.
    - cbn [xorb negb]. rewrite andb_true_r. destruct (i <? 32) eqn:L; [apply andb_true_r|].
      apply N.ltb_ge in L. rewrite (proj1 (w32_bit w) W i L). reflexivity. }
  split; [rewrite G; apply andb_false_r|].
  intros i Hi. rewrite G. apply N.eqb_neq in Hi. rewrite Hi. apply andb_true_r.
Qed.
Lemma del_word_parse F w h : w32 w -> parse_word F w = Ok (Valid (PHeader h)) ->
  (h_length h <= max_value F)%nat ->
  parse_word F (del_word w) = Ok (Valid (PPadding (to_words (h_length h)))).
Proof.
  intros W P L. destruct (del_word_bits w W) as (W' & _ & T2 & B).
  unfold parse_word in P.
  destruct (c_check ID_PADDING w) eqn:C0; [discriminate|].
  destruct (c_check ID_HEADER w) eqn:C1.
  2:{ exfalso. revert P.
      repeat match goal with
      | |- context [cs_get ?a ?b] => destruct (cs_get a b); cbn [rbind]
      | |- context [if ?b then _ else _] => destruct b end; discriminate. }
  destruct (b_get HEADER_DELETED w); [|].
  { exfalso. revert P. destruct (_ <? _)%nat; discriminate. }
  destruct (cs_get HEADER_CHECKSUM w); cbn [rbind] in P; [|discriminate].
  injection P as <-. cbn [h_length] in *.
  unfold parse_word. rewrite check_padding in *. rewrite check_header in *. rewrite deleted_bit.
  rewrite !B by lia. rewrite T2, C0, C1. cbn [negb].
  assert (E : f_get HEADER_LENGTH (del_word w) = f_get HEADER_LENGTH w).
  { apply f_get_ext. intros i Hi. is_field Hi. apply B. lia. }
  rewrite E. replace (max_value F <? N.to_nat (f_get HEADER_LENGTH w))%nat with false
    by (symmetry; apply Nat.ltb_ge; exact L). reflexivity.
Qed.
Lemma del_word_ne w : w32 w -> del_word w <> ERASED.
Proof. intros W X. destruct (del_word_bits w W) as (_ & _ & T & _). rewrite X in T. discriminate. Qed.
Lemma zero_word_parse F : parse_word F 0 = Ok (Valid (PPadding 0)).
Proof. reflexivity. Qed.
Lemma erased_parse F : parse_word F ERASED = Ok Erased.
Proof. reflexivity. Qed.
Lemma erased_init_parse F : parse_init_word F ERASED = Ok Erased.
Proof. reflexivity. Qed.
Lemma erased_compact_parse F : parse_compact_word F ERASED = Ok Erased.
Proof. reflexivity. Qed.
(** A word which parses as padding or as a header is not erased. *)
Lemma valid_not_erased F w p : parse_word F w = Ok (Valid p) -> w <> ERASED.
Proof. intros H ->. rewrite erased_parse in H. discriminate. Qed.
