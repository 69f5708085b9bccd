(** Properties C12, C13 and C14: the words of the store and its positions. *)
From Verif Require Import Base Facts.
From Verif.Kv Require Import Model.
From Verif.Store Require Import Format Bits Words Geom.
Open Scope nat_scope.

(** Specification. A storage of at least 3 and at most 64 pages of at most 4096 bytes, as
    Store::new accepts it, has a format. *)
Definition has_format (s : storage) (F : format) : Prop := format_new s = Some F.

(** [between old new w]: what a word may be while [new] is being written over [old]: every bit is
    as in one of them. *)
Definition between (old new w : N) : Prop :=
  forall i, N.testbit w i = N.testbit old i \/ N.testbit w i = N.testbit new i.

Lemma between_erased new w : w32 new -> between ERASED new w -> w32 w /\ sub new w.
Proof.
  intros Hn B. split.
  - apply w32_bit. intros i Hi. destruct (B i) as [E|E]; rewrite E.
    + rewrite erased_bit. apply N.ltb_ge, Hi.
    + apply w32_bit; assumption.
  - intros i Hi. destruct (B i) as [E|E]; rewrite E; [|exact Hi].
    rewrite erased_bit. apply N.ltb_lt. destruct (N.lt_ge_cases i 32) as [L|L]; [exact L|].
    rewrite (proj1 (w32_bit new) Hn i L) in Hi. discriminate.
Qed.

(** An entry is in range if the store may write it. *)
Definition internal_in_range (F : format) (i : internal) : Prop :=
  match i with
  | IErase page => page < num_pages F
  | IClear key | IRemove key => (key <= 4095)%N
  | IMarker count => count <= 31
  end.
Lemma in_range_ok F i : wff F -> internal_in_range F i ->
  int_ok i /\ internal_invalid F i = false.
Proof.
  intros G H. pose proof (g_N F G). destruct i as [p|k|n|k]; cbn in *.
  - split; [lia|]. apply Nat.ltb_ge. lia.
  - split; [lia|]. apply N.ltb_ge. exact H.
  - split; [lia|]. apply N.ltb_ge. unfold MAX_UPDATES. lia.
  - split; [lia|]. apply N.ltb_ge. exact H.
Qed.

(** The page headers: what is written is what is read, and it is not an erased word. *)
Theorem C12_init : forall s F cycle prefix,
  has_format s F -> cycle <= max_page_erases F -> prefix <= max_prefix F ->
  exists w, build_init cycle prefix = Ok w /\ (w < 2 ^ 32)%N /\ w <> ERASED /\
    parse_init_word F w = Ok (Valid (cycle, prefix)).
Proof.
  intros s F cycle prefix Hf H1 H2. pose proof (format_wff _ _ Hf) as G.
  destruct (init_word_parse F cycle prefix) as (A & B & C & D & _); try assumption.
  - pose proof (g_E F G). lia.
  - pose proof (g_M256 F G). lia.
  - eexists. split; [exact A|]. split; [exact B|]. split; assumption.
Qed.
Theorem C12_compact : forall s F tail,
  has_format s F -> tail <= window_size F ->
  exists w, build_compact tail = Ok w /\ (w < 2 ^ 32)%N /\ w <> ERASED /\
    parse_compact_word F w = Ok (Valid tail).
Proof.
  intros s F tail Hf H1. pose proof (format_wff _ _ Hf) as G.
  destruct (compact_word_parse F tail) as (A & B & C & D & _); try assumption.
  - pose proof (window_eq F G). destruct (g_Q F G), (g_N F G).
    assert ((num_pages F - 1) * virt_page_size F <= 63 * 1022) by (apply Nat.mul_le_mono; lia).
    lia.
  - eexists. split; [exact A|]. split; [exact B|]. split; assumption.
Qed.
(** Internal entries. *)
Theorem C12_internal : forall s F i,
  has_format s F -> internal_in_range F i ->
  exists w, build_internal i = Ok w /\ (w < 2 ^ 32)%N /\ w <> ERASED /\
    parse_word F w = Ok (Valid (PInternal i)).
Proof.
  intros s F i Hf H. pose proof (format_wff _ _ Hf) as G.
  destruct (in_range_ok F i G H) as [H1 H2].
  destruct (int_word_parse F i H1 H2) as (A & B & C & D & _).
  eexists. split; [exact A|]. split; [exact B|]. split; assumption.
Qed.
(** User entries: the header gives the key and the length, its checksum is the one of the last
    word, and the value is read back from the words after the header. *)
Theorem C12_user : forall s F key value,
  has_format s F -> (key <= 4095)%N -> length value <= max_value F ->
  bytes_ok value = true ->
  exists w ws h, build_user key value = Ok (w :: ws) /\ (w < 2 ^ 32)%N /\
    Forall (fun x => (x < 2 ^ 32)%N) ws /\ length ws = to_words (length value) /\
    parse_word F w = Ok (Valid (PHeader h)) /\
    h_key h = key /\ h_length h = length value /\
    h_checksum h = match ws with [] => 0%N | _ => count_zeros (last ws 0%N) end /\
    value_of (h_flipped h) (h_length h) ws = value.
Proof.
  intros s F key value Hf Hk Hl Hb. pose proof (format_wff _ _ Hf) as G.
  assert (Hn : (Nlen value <= 1023)%N) by (unfold Nlen; pose proof (g_len F G); lia).
  destruct (user_word_parse F key value Hk Hn) as (A & B & C & D & P & _).
  exists (head_word key value), (value_words value).
  eexists. split; [rewrite A, B; reflexivity|]. split; [exact C|].
  split; [apply value_words_w32, Hb|]. split; [apply value_words_length|].
  split; [exact P|]. cbn [h_key h_length h_checksum h_flipped].
  split; [reflexivity|]. split; [reflexivity|]. split; [reflexivity|].
  apply value_roundtrip, Hb.
Qed.
(** Padding: any word with its padding bit cleared; a header marked as deleted is a padding of the
    same length. *)
Theorem C12_padding : forall s F w,
  has_format s F -> (w < 2 ^ 32)%N ->
  (exists w', pad_word w = Ok w' /\ w' <> ERASED /\ parse_word F w' = Ok (Valid (PPadding 0))) /\
  (forall h, parse_word F w = Ok (Valid (PHeader h)) -> h_length h <= max_value F ->
     del_word w <> ERASED /\
     parse_word F (del_word w) = Ok (Valid (PPadding (to_words (h_length h))))).
Proof.
  intros s F w Hf Hw. split.
  - destruct (pad_word_spec F w Hw) as (w' & A & _ & _ & B & C). eauto.
  - intros h P L. split; [apply del_word_ne, Hw|]. apply del_word_parse; assumption.
Qed.
(** Different entries have different words, and none is the erased word. *)
Theorem C12_no_confusion : forall s F,
  has_format s F ->
  (forall i j w, internal_in_range F i -> internal_in_range F j ->
     build_internal i = Ok w -> build_internal j = Ok w -> i = j) /\
  (forall i key value w ws, internal_in_range F i -> (key <= 4095)%N ->
     length value <= max_value F -> build_user key value = Ok (w :: ws) ->
     build_internal i <> Ok w /\ w <> ERASED) /\
  (forall key value key' value', (key <= 4095)%N -> length value <= max_value F ->
     (key' <= 4095)%N -> length value' <= max_value F ->
     bytes_ok value = true -> bytes_ok value' = true ->
     build_user key value = build_user key' value' -> key = key' /\ value = value') /\
  parse_word F ERASED = Ok Erased /\ parse_init_word F ERASED = Ok Erased /\
  parse_compact_word F ERASED = Ok Erased.
Proof.
  intros s F Hf. split; [|split; [|split; [|repeat split]]].
  - intros i j w Hi Hj Bi Bj.
    destruct (C12_internal s F i Hf Hi) as (wi & Bi' & _ & _ & Pi).
    destruct (C12_internal s F j Hf Hj) as (wj & Bj' & _ & _ & Pj). congruence.
  - intros i key value w ws Hi Hk Hl Bu.
    pose proof (format_wff _ _ Hf) as G.
    assert (Hn : (Nlen value <= 1023)%N) by (unfold Nlen; pose proof (g_len F G); lia).
    destruct (user_word_parse F key value Hk Hn) as (A & B & C & D & P & _).
    rewrite A, B in Bu. injection Bu as <- <-. split; [|exact D].
    intros Bi. destruct (C12_internal s F i Hf Hi) as (wi & Bi' & _ & _ & Pi). congruence.
  - intros key value key' value' Hk Hl Hk' Hl' Hb Hb' E.
    destruct (C12_user s F key value Hf Hk Hl Hb) as (w & ws & h & B & _ & _ & _ & P & K & _ & _ & V).
    destruct (C12_user s F key' value' Hf Hk' Hl' Hb')
      as (w' & ws' & h' & B' & _ & _ & _ & P' & K' & _ & _ & V').
    rewrite B, B' in E. injection E as E1 E2. subst w' ws'.
    assert (h = h') by congruence. subst h'. split; congruence.
Qed.
Example C12_nonvacuous :
  exists s F, has_format s F /\ internal_in_range F (IMarker 31) /\
    parse_init_word F (match build_init 7 5 with Ok w => w | Err _ => 0%N end)
      = Ok (Valid (7, 5)).
Proof.
  exists (mkStorage 4 256 8 2 10000). eexists. split; [reflexivity|].
  split; [cbn; lia|]. vm_compute. reflexivity.
Qed.

(* -------------------------------------------------------------------- C13 *)

(** Interrupted while being written over an erased word, a word of the page header is either
    complete or recognised as not complete. *)
Theorem C13_init : forall s F cycle prefix w x,
  has_format s F -> cycle <= max_page_erases F -> prefix <= max_prefix F ->
  build_init cycle prefix = Ok w -> between ERASED w x ->
  x = w \/ parse_init_word F x = Ok Erased \/ parse_init_word F x = Ok Partial.
Proof.
  intros s F cycle prefix w x Hf H1 H2 Bw Bt. pose proof (format_wff _ _ Hf) as G.
  destruct (init_word_parse F cycle prefix) as (A & B & C & D & P); try assumption.
  { pose proof (g_E F G). lia. } { pose proof (g_M256 F G). lia. }
  rewrite A in Bw. injection Bw as <-.
  destruct (between_erased _ _ B Bt) as [Wx Sx].
  destruct (N.eq_dec x (init_word cycle prefix)) as [E|E]; [left; exact E|right]. apply P; assumption.
Qed.
Theorem C13_compact : forall s F tail w x,
  has_format s F -> tail <= window_size F ->
  build_compact tail = Ok w -> between ERASED w x ->
  x = w \/ parse_compact_word F x = Ok Erased \/ parse_compact_word F x = Ok Partial.
Proof.
  intros s F tail w x Hf H1 Bw Bt. pose proof (format_wff _ _ Hf) as G.
  destruct (compact_word_parse F tail) as (A & B & C & D & P); try assumption.
  { pose proof (window_eq F G). destruct (g_Q F G), (g_N F G).
    assert ((num_pages F - 1) * virt_page_size F <= 63 * 1022) by (apply Nat.mul_le_mono; lia).
    lia. }
  rewrite A in Bw. injection Bw as <-.
  destruct (between_erased _ _ B Bt) as [Wx Sx].
  destruct (N.eq_dec x (compact_word tail)) as [E|E]; [left; exact E|right].
  destruct (N.eq_dec x ERASED) as [->|E']; [left; reflexivity|right; apply P; assumption].
Qed.
Theorem C13_internal : forall s F i w x,
  has_format s F -> internal_in_range F i ->
  build_internal i = Ok w -> between ERASED w x ->
  x = w \/ parse_word F x = Ok Erased \/ parse_word F x = Ok Partial.
Proof.
  intros s F i w x Hf Hi Bw Bt. pose proof (format_wff _ _ Hf) as G.
  destruct (in_range_ok F i G Hi) as [H1 H2].
  destruct (int_word_parse F i H1 H2) as (A & B & C & D & P).
  rewrite A in Bw. injection Bw as <-.
  destruct (between_erased _ _ B Bt) as [Wx Sx].
  destruct (N.eq_dec x (int_word i)) as [E|E]; [left; exact E|right]. apply P; assumption.
Qed.

(** format.rs 888-897: Header::check. *)
Definition header_check (h : header) (footer : option N) : bool :=
  (match footer with None => 0%N | Some w => count_zeros w end =? h_checksum h)%N.

(** A user entry, header [w] and value [ws], interrupted while written over erased words: [x] is in
    the place of the header and [f] is the word at the end of the value the header [x] announces,
    which is either a possibly incomplete word of the entry's end or an erased word. The entry is
    accepted only if both are complete. *)
Theorem C13_user : forall s F key value w ws x f h,
  has_format s F -> (key <= 4095)%N -> length value <= max_value F -> bytes_ok value = true ->
  build_user key value = Ok (w :: ws) -> between ERASED w x ->
  (match ws with
   | [] => f = None \/ f = Some ERASED
   | _ => exists y, f = Some y /\ between ERASED (last ws 0%N) y
   end) ->
  parse_word F x = Ok (Valid (PHeader h)) -> header_check h f = true ->
  x = w /\ h_key h = key /\ h_length h = length value /\
  match ws with [] => True | _ => f = Some (last ws 0%N) end.
Proof.
  intros s F key value w ws x f h Hf Hk Hl Hb Bu Bt Hfo P Ck.
  pose proof (format_wff _ _ Hf) as G.
  assert (Hn : (Nlen value <= 1023)%N) by (unfold Nlen; pose proof (g_len F G); lia).
  destruct (user_word_parse F key value Hk Hn) as (A & B & C & D & Pw & Pp).
  rewrite A, B in Bu. injection Bu as <- <-.
  destruct (between_erased _ _ C Bt) as [Wx Sx].
  unfold header_check in Ck. apply N.eqb_eq in Ck.
  assert (Z : (match f with None => 0 | Some y => count_zeros y end <= footer_zeros value /\
    (match f with None => 0 | Some y => count_zeros y end = footer_zeros value ->
      match value_words value with [] => True | _ => f = Some (last (value_words value) 0) end))%N).
  { unfold footer_zeros. pose proof (value_words_w32 value Hb) as Wv.
    destruct (value_words value) as [|v0 vs] eqn:Ev.
    - destruct Hfo as [->| ->]; [|rewrite count_zeros_erased]; split; auto; lia.
    - destruct Hfo as (y & -> & By).
      assert (Wl : w32 (last (v0 :: vs) 0%N)) by (apply Forall_last; [exact Wv|discriminate]).
      destruct (between_erased _ _ Wl By) as [Wy Sy].
      destruct (count_zeros_sub _ _ Wy Sy) as [L E]. split; [exact L|].
      intros X. rewrite (E X). reflexivity. }
  destruct Z as [Z1 Z2].
  destruct (N.eq_dec x (head_word key value)) as [E|E].
  - subst x. rewrite Pw in P. injection P as <-. cbn [h_key h_length h_checksum] in *.
    split; [reflexivity|]. split; [reflexivity|]. split; [reflexivity|]. apply Z2, Ck.
  - exfalso. destruct (Pp x Wx Sx E) as [X|[X|(h' & X & _ & L & _)]]; try congruence.
    assert (h' = h) by congruence. subst h'. lia.
Qed.
Lemma between_lor new m : w32 new -> w32 m -> between ERASED new (N.lor new m).
Proof.
  intros Hn Hm i. rewrite N.lor_spec, erased_bit.
  destruct (N.lt_ge_cases i 32) as [L|L].
  - apply N.ltb_lt in L. rewrite L. destruct (N.testbit new i), (N.testbit m i); auto.
  - right. rewrite (proj1 (w32_bit m) Hm i L). apply orb_false_r.
Qed.
Example C13_nonvacuous :
  exists s F w x, has_format s F /\ internal_in_range F (IClear 7) /\
    build_internal (IClear 7) = Ok w /\
    between ERASED w x /\ x <> w /\ x <> ERASED /\ parse_word F x = Ok Partial.
Proof.
  exists (mkStorage 4 256 8 2 10000). eexists.
  destruct (build_internal (IClear 7)) as [w|] eqn:E; [|vm_compute in E; discriminate].
  assert (Ew : w = match build_internal (IClear 7) with Ok w => w | Err _ => 0%N end)
    by (rewrite E; reflexivity).
  exists w, (N.lor w 256). split; [reflexivity|]. split; [discriminate|]. split; [reflexivity|].
  vm_compute in Ew. rewrite Ew. split; [apply between_lor; reflexivity|].
  split; [apply N.eqb_neq; reflexivity|]. split; [apply N.eqb_neq; reflexivity|]. vm_compute. reflexivity.
Qed.

(* -------------------------------------------------------------------- C14 *)

(** Positions and coordinates determine each other. *)
Theorem C14_bijection : forall s F,
  has_format s F ->
  (forall pos, exists cycle page word,
     page < num_pages F /\ word < virt_page_size F /\ pos = position F cycle page word) /\
  (forall cycle page word, page < num_pages F -> word < virt_page_size F ->
     pos_cycle F (position F cycle page word) = cycle /\
     pos_page F (position F cycle page word) = page /\
     pos_word F (position F cycle page word) = word).
Proof.
  intros s F Hf. pose proof (format_wff _ _ Hf) as G. split.
  - intros pos. destruct (pos_parts F pos G) as (E & H1 & H2). eauto 6.
  - intros. apply parts_pos; assumption.
Qed.
(** Positions are ordered as their coordinates are: cycle first, then page, then word. *)
Theorem C14_monotone : forall s F c p w c' p' w',
  has_format s F -> p < num_pages F -> w < virt_page_size F ->
  p' < num_pages F -> w' < virt_page_size F ->
  (position F c p w < position F c' p' w' <->
   c < c' \/ (c = c' /\ (p < p' \/ (p = p' /\ w < w')))).
Proof.
  intros s F c p w c' p' w' Hf Hp Hw Hp' Hw'. unfold position.
  assert (A : forall x y a b, a < virt_page_size F -> b < virt_page_size F -> x < y ->
              x * virt_page_size F + a < y * virt_page_size F + b).
  { intros x y a b Ha Hb Hxy.
    assert (S x * virt_page_size F <= y * virt_page_size F) by (apply Nat.mul_le_mono_r; lia).
    cbn [Nat.mul] in *. lia. }
  assert (B : forall x y a b, a < num_pages F -> b < num_pages F -> x < y ->
              x * num_pages F + a < y * num_pages F + b).
  { intros x y a b Ha Hb Hxy.
    assert (S x * num_pages F <= y * num_pages F) by (apply Nat.mul_le_mono_r; lia).
    cbn [Nat.mul] in *. lia. }
  assert (T : forall x y, x < y \/ x = y \/ y < x) by (intros; lia).
  destruct (T c c') as [Lc|[Ec|Lc]]; [split; [lia|]|subst c'|split; [|lia]].
  - intros _. apply A; auto.
  - destruct (T p p') as [Lp|[Ep|Lp]]; [split; [lia|]|subst p'; lia|split; [|lia]].
    + intros _. apply A; auto. lia.
    + intros H. exfalso. pose proof (A (c * num_pages F + p') (c * num_pages F + p) w' w). lia.
  - intros H. exfalso.
    pose proof (A (c' * num_pages F + p') (c * num_pages F + p) w' w Hw' Hw (B _ _ _ _ Hp' Hp Lc)).
    lia.
Qed.
(** The next position is the next word of the page, or the first of the next page, or the first of
    the first page in the next cycle. *)
Theorem C14_successor : forall s F c p w,
  has_format s F -> p < num_pages F -> w < virt_page_size F ->
  position F c p w + 1 =
    (if w + 1 <? virt_page_size F then position F c p (w + 1)
     else if p + 1 <? num_pages F then position F c (p + 1) 0
     else position F (c + 1) 0 0).
Proof.
  intros s F c p w Hf Hp Hw. unfold position.
  destruct (w + 1 <? virt_page_size F) eqn:E1; [lia|]. apply Nat.ltb_ge in E1.
  assert (virt_page_size F = w + 1) as -> by lia.
  destruct (p + 1 <? num_pages F) eqn:E2; [lia|]. apply Nat.ltb_ge in E2.
  assert (num_pages F = p + 1) as -> by lia. lia.
Qed.
(** Where a position is stored (format.rs 762-770): a word of its page after the two words of the
    page header; positions less than a whole storage apart are stored in different places. *)
Theorem C14_storage : forall s F a b,
  has_format s F -> a < b < a + num_pages F * virt_page_size F ->
  CONTENT_WORD + pos_word F a < page_size F / 4 /\
  (pos_page F a, CONTENT_WORD + pos_word F a) <> (pos_page F b, CONTENT_WORD + pos_word F b).
Proof.
  intros s F a b Hf Hab. pose proof (format_wff _ _ Hf) as G.
  destruct (pos_parts F a G) as (Ea & Pa & Wa). destruct (pos_parts F b G) as (Eb & Pb & Wb).
  split.
  - rewrite (g_P F G). rewrite (Nat.mul_comm 4), Nat.div_mul by discriminate.
    unfold CONTENT_WORD. lia.
  - intros X. injection X as X1 X2. unfold CONTENT_WORD in X2.
    assert (X2' : pos_word F a = pos_word F b) by lia.
    rewrite X1, X2' in Ea. unfold position in Ea, Eb.
    destruct (Nat.le_gt_cases (pos_cycle F b) (pos_cycle F a)) as [L|L].
    + assert (pos_cycle F b * num_pages F <= pos_cycle F a * num_pages F)
        by (apply Nat.mul_le_mono_r; lia).
      assert ((pos_cycle F b * num_pages F + pos_page F b) * virt_page_size F <=
              (pos_cycle F a * num_pages F + pos_page F b) * virt_page_size F)
        by (apply Nat.mul_le_mono_r; lia).
      lia.
    + assert (S (pos_cycle F a) * num_pages F <= pos_cycle F b * num_pages F)
        by (apply Nat.mul_le_mono_r; lia).
      assert ((S (pos_cycle F a) * num_pages F + pos_page F b) * virt_page_size F <=
              (pos_cycle F b * num_pages F + pos_page F b) * virt_page_size F)
        by (apply Nat.mul_le_mono_r; lia).
      cbn [Nat.mul] in *. lia.
Qed.
(** All positions up to one window after the lifetime of the storage fit in 32 bits. *)
Theorem C14_range : forall s F,
  has_format s F ->
  (N.of_nat (total_lifetime F) + N.of_nat (window_size F) + N.of_nat (max_prefix F) < 2 ^ 32)%N.
Proof.
  intros s F Hf. pose proof (format_wff _ _ Hf) as G.
  pose proof (window_eq F G) as We. destruct (g_Q F G) as [Q1 Q2], (g_N F G) as [N1 N2].
  pose proof (g_E F G) as E1.
  assert (A : total_lifetime F + (window_size F + max_prefix F) =
              (max_page_erases F * num_pages F + (num_pages F - 1) + (num_pages F - 1))
              * virt_page_size F).
  { rewrite We. unfold total_lifetime, position. lia. }
  rewrite <- N.add_assoc, <- !Nat2N.inj_add, A, Nat2N.inj_mul, !Nat2N.inj_add, Nat2N.inj_mul.
  apply N.le_lt_trans with ((65535 * 64 + 63 + 63) * 1022)%N; [|reflexivity].
  apply N.mul_le_mono; [|lia]. apply N.add_le_mono; [|lia]. apply N.add_le_mono; [|lia].
  apply N.mul_le_mono; lia.
Qed.
Example C14_nonvacuous :
  exists s F, has_format s F /\ num_pages F = 8 /\ virt_page_size F = 62 /\
    pos_page F 500 = 0 /\ pos_cycle F 500 = 1 /\ pos_word F 500 = 4.
Proof. exists (mkStorage 4 256 8 2 10000). eexists. repeat split. Qed.

Print Assumptions C12_init.
Print Assumptions C12_compact.
Print Assumptions C12_internal.
Print Assumptions C12_user.
Print Assumptions C12_padding.
Print Assumptions C12_no_confusion.
Print Assumptions C13_init.
Print Assumptions C13_compact.
Print Assumptions C13_internal.
Print Assumptions C13_user.
Print Assumptions C14_bijection.
Print Assumptions C14_monotone.
Print Assumptions C14_successor.
Print Assumptions C14_storage.
Print Assumptions C14_range.
