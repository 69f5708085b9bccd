(** The representation of the key-value store in flash: libraries/persistent_store/src/format.rs
    and libraries/persistent_store/src/format/bitfield.rs.

    Words are the [u32] of the code, as [N] below 2^32. Geometry and positions ([Nat], a [u32]) are
    [nat]; that they stay below 2^32 is proved in PropsFormat.v. *)
From Verif Require Import Base.
From Verif.Kv Require Import Model.
Open Scope N_scope.

(* ------------------------------------------------------------ bitfield.rs *)

(** u32::count_ones and count_zeros over the [n] low bits. *)
Fixpoint ones (n : nat) (w : N) : N :=
  match n with
  | O => 0
  | S n' => (if N.testbit w (N.of_nat n') then 1 else 0) + ones n' w
  end.
Definition count_ones (w : N) : N := ones 32 w.
Definition count_zeros (w : N) : N := 32 - count_ones w.
(** format.rs 120: ERASED_WORD. *)
Definition ERASED : N := 4294967295.
(** The [!] of [u32]. *)
Definition lnot32 (w : N) : N := N.lxor w ERASED.

(** bitfield.rs 29-35: Field; 37-66: get, set, mask. *)
Record field := mkField { f_pos : N; f_len : N }.
Definition f_mask (f : field) : N := N.shiftl 1 (f_len f) - 1.
Definition f_get (f : field) (w : N) : N := N.land (N.shiftr w (f_pos f)) (f_mask f).
Definition f_set (f : field) (w v : N) : res store_error N :=
  if negb (N.land v (f_mask f) =? v) then Err InvalidStorage
  else
    let w' := N.land w (N.lor (lnot32 (N.shiftl (f_mask f) (f_pos f))) (N.shiftl v (f_pos f))) in
    if negb (f_get f w' =? v) then Err InvalidStorage else Ok w'.

(** bitfield.rs 69-91: ConstField; a pair of a field and its value. *)
Definition c_check (c : field * N) (w : N) : bool := f_get (fst c) w =? snd c.
Definition c_set (c : field * N) (w : N) : res store_error N := f_set (fst c) w (snd c).

(** bitfield.rs 93-113: Bit, which is set when it is zero. *)
Definition b_get (pos w : N) : bool := N.land w (N.shiftl 1 pos) =? 0.
Definition b_set (pos w : N) : N := N.land w (lnot32 (N.shiftl 1 pos)).

(** bitfield.rs 115-151: Checksum. The number of zeros outside the field is never negative, so
    the subtraction of lines 131 does not wrap. The debug assertion of line 148 is not
    modelled. *)
Definition cs_get (f : field) (w : N) : res store_error N :=
  let checksum := f_get f w in
  let zeros := count_zeros w - (f_len f - count_ones checksum) in
  if (checksum <? zeros) then Err InvalidStorage else Ok (checksum - zeros).
Definition cs_set (f : field) (w v : N) : res store_error N := f_set f w (count_zeros w + v).

(* -------------------------------------------------------------- format.rs *)

(** storage.rs 48-68: the numbers a Storage declares. *)
Record storage := mkStorage {
  s_word_size : N; s_page_size : N; s_num_pages : N; s_max_word_writes : N;
  s_max_page_erases : N }.

(** format.rs 124-150: Format. *)
Record format := mkFormat { page_size : nat; num_pages : nat; max_page_erases : nat }.

(** format.rs 181-193: is_storage_supported. *)
Definition supported (s : storage) : bool :=
  (s_word_size s =? 4) && (s_page_size s mod s_word_size s =? 0) &&
  ((8 * s_word_size s <=? s_page_size s) && (s_page_size s <=? 4096)) &&
  ((3 <=? s_num_pages s) && (s_num_pages s <=? 64)) &&
  (2 <=? s_max_word_writes s) && (s_max_page_erases s <=? 65535).

(** format.rs 153-166: Format::new. *)
Definition format_new (s : storage) : option format :=
  if supported s
  then Some (mkFormat (N.to_nat (s_page_size s)) (N.to_nat (s_num_pages s))
                      (N.to_nat (s_max_page_erases s)))
  else None.

(** format.rs 563-565, 929-937: bytes_to_words and div_ceil. *)
Definition to_words (n : nat) : nat := (n + 3) / 4.

(** format.rs 241-243: virt_page_size, Q. *)
Definition virt_page_size (F : format) : nat := (page_size F / 4 - 2)%nat.
(** format.rs 248-253: max_value_len. *)
Definition max_value (F : format) : nat :=
  Nat.min ((virt_page_size F - 1) * 4) (N.to_nat 1023).
(** format.rs 261-263: max_prefix_len, M. *)
Definition max_prefix (F : format) : nat := to_words (max_value F).
(** format.rs 271-273: window_size, W. *)
Definition window_size (F : format) : nat :=
  ((num_pages F - 1) * virt_page_size F - max_prefix F)%nat.
(** format.rs 282-284: virt_size, V. *)
Definition virt_size (F : format) : nat :=
  ((num_pages F - 1) * (virt_page_size F - 1) - max_prefix F)%nat.
(** format.rs 294-298: total_capacity, C. *)
Definition capacity_of (F : format) : nat := (virt_size F - num_pages F)%nat.

(** format.rs 747-753: Position::new; 790-803: cycle, page and word; 772-787: page_begin and
    next_page. *)
Definition position (F : format) (cycle page word : nat) : nat :=
  ((cycle * num_pages F + page) * virt_page_size F + word)%nat.
Definition pos_cycle (F : format) (pos : nat) : nat := (pos / virt_page_size F / num_pages F)%nat.
Definition pos_page (F : format) (pos : nat) : nat := ((pos / virt_page_size F) mod num_pages F)%nat.
Definition pos_word (F : format) (pos : nat) : nat := (pos mod virt_page_size F)%nat.
Definition page_begin (F : format) (pos : nat) : nat :=
  (pos / virt_page_size F * virt_page_size F)%nat.
Definition next_page (F : format) (pos : nat) : nat :=
  ((pos / virt_page_size F + 1) * virt_page_size F)%nat.
(** format.rs 303-305: total_lifetime. *)
Definition total_lifetime (F : format) : nat :=
  position F (max_page_erases F) (num_pages F - 1) 0.

(** format.rs 569-577: INIT_WORD, COMPACT_WORD and CONTENT_WORD. *)
Definition INIT_WORD : nat := 0.
Definition COMPACT_WORD : nat := 1.
Definition CONTENT_WORD : nat := 2.

(** format.rs 586-701: the fields, at the positions the bitfield! macro (bitfield.rs 170-290)
    computes from their order and ranges. *)
Definition WORD_CHECKSUM := mkField 27 5.
Definition INIT_CYCLE := mkField 0 16.
Definition INIT_PREFIX := mkField 16 9.
Definition COMPACT_TAIL := mkField 0 16.
Definition ID_PADDING := (mkField 0 1, 0).
Definition ID_HEADER := (mkField 0 2, 1).
Definition HEADER_DELETED : N := 2.
Definition HEADER_FLIPPED : N := 3.
Definition HEADER_LENGTH := mkField 4 10.
Definition HEADER_KEY := mkField 14 12.
Definition HEADER_CHECKSUM := mkField 26 6.
Definition ID_ERASE := (mkField 0 5, 3).
Definition ERASE_PAGE := mkField 5 6.
Definition ID_CLEAR := (mkField 0 5, 19).
Definition CLEAR_MIN_KEY := mkField 5 12.
Definition ID_MARKER := (mkField 0 5, 11).
Definition MARKER_COUNT := mkField 5 5.
Definition ID_REMOVE := (mkField 0 5, 27).
Definition REMOVE_KEY := mkField 5 12.

(** format.rs 807-816: WordState. *)
Inductive word_state (A : Type) := Erased | Partial | Valid (a : A).
Arguments Erased {A}. Arguments Partial {A}. Arguments Valid {A} a.

(** format.rs 858-898: Header; 900-930: InternalEntry; 838-855: ParsedWord. *)
Record header := mkHeader { h_flipped : bool; h_length : nat; h_key : N; h_checksum : N }.
Inductive internal :=
| IErase (page : nat) | IClear (min_key : N) | IMarker (count : nat) | IRemove (key : N).
Inductive parsed_word := PPadding (length : nat) | PHeader (h : header) | PInternal (i : internal).

(** format.rs 323-336: parse_init. *)
Definition parse_init_word (F : format) (w : N) : res store_error (word_state (nat * nat)) :=
  if w =? ERASED then Ok Erased
  else
    c <- cs_get WORD_CHECKSUM w ;;
    if negb (c =? 0) then Ok Partial
    else
      let cycle := N.to_nat (f_get INIT_CYCLE w) in
      let prefix := N.to_nat (f_get INIT_PREFIX w) in
      if (max_page_erases F <? cycle)%nat || (max_prefix F <? prefix)%nat
      then Err InvalidStorage
      else Ok (Valid (cycle, prefix)).

(** format.rs 339-345: build_init. *)
Definition build_init (cycle prefix : nat) : res store_error N :=
  w <- f_set INIT_CYCLE ERASED (N.of_nat cycle) ;;
  w <- f_set INIT_PREFIX w (N.of_nat prefix) ;;
  cs_set WORD_CHECKSUM w 0.

(** format.rs 357-370: parse_compact. *)
Definition parse_compact_word (F : format) (w : N) : res store_error (word_state nat) :=
  if w =? ERASED then Ok Erased
  else
    c <- cs_get WORD_CHECKSUM w ;;
    if negb (c =? 0) then Ok Partial
    else
      let tail := N.to_nat (f_get COMPACT_TAIL w) in
      if (window_size F <? tail)%nat then Err InvalidStorage else Ok (Valid tail).

(** format.rs 373-378: build_compact. *)
Definition build_compact (tail : nat) : res store_error N :=
  w <- f_set COMPACT_TAIL ERASED (N.of_nat tail) ;;
  cs_set WORD_CHECKSUM w 0.

(** format.rs 381-404: build_internal. *)
Definition build_internal (i : internal) : res store_error N :=
  w <- match i with
       | IErase page => w <- c_set ID_ERASE ERASED ;; f_set ERASE_PAGE w (N.of_nat page)
       | IClear k => w <- c_set ID_CLEAR ERASED ;; f_set CLEAR_MIN_KEY w k
       | IMarker n => w <- c_set ID_MARKER ERASED ;; f_set MARKER_COUNT w (N.of_nat n)
       | IRemove k => w <- c_set ID_REMOVE ERASED ;; f_set REMOVE_KEY w k
       end ;;
  cs_set WORD_CHECKSUM w 0.

(** format.rs 452-457: whether an internal entry is out of range. *)
Definition internal_invalid (F : format) (i : internal) : bool :=
  match i with
  | IErase page => (num_pages F - 1 <? page)%nat
  | IClear k => MAX_KEY <? k
  | IMarker n => MAX_UPDATES <? N.of_nat n
  | IRemove k => MAX_KEY <? k
  end.

(** format.rs 407-463: parse_word. *)
Definition parse_word (F : format) (w : N) : res store_error (word_state parsed_word) :=
  let finish (i : internal) :=
    c <- cs_get WORD_CHECKSUM w ;;
    if negb (c =? 0) then Ok Partial
    else if internal_invalid F i then Err InvalidStorage
    else Ok (Valid (PInternal i)) in
  if c_check ID_PADDING w then Ok (Valid (PPadding 0))
  else if c_check ID_HEADER w then
    if b_get HEADER_DELETED w then
      let length := N.to_nat (f_get HEADER_LENGTH w) in
      if (max_value F <? length)%nat then Err InvalidStorage
      else Ok (Valid (PPadding (to_words length)))
    else
      let flipped := b_get HEADER_FLIPPED w in
      let length := N.to_nat (f_get HEADER_LENGTH w) in
      let key := f_get HEADER_KEY w in
      c <- cs_get HEADER_CHECKSUM w ;;
      Ok (Valid (PHeader (mkHeader flipped length key c)))
  else if c_check ID_ERASE w then finish (IErase (N.to_nat (f_get ERASE_PAGE w)))
  else if c_check ID_CLEAR w then finish (IClear (f_get CLEAR_MIN_KEY w))
  else if c_check ID_MARKER w then finish (IMarker (N.to_nat (f_get MARKER_COUNT w)))
  else if c_check ID_REMOVE w then finish (IRemove (f_get REMOVE_KEY w))
  else if w =? ERASED then Ok Erased
  else Ok Partial.

(** u32::from_le_bytes and to_le_bytes (format.rs 55-61: Word::from_slice and as_slice). *)
Definition word_of (b0 b1 b2 b3 : N) : N := b0 + 256 * b1 + 65536 * b2 + 16777216 * b3.
Definition word_bytes (w : N) : bytes :=
  [w mod 256; w / 256 mod 256; w / 65536 mod 256; w / 16777216 mod 256].
(** A value in words, completed with 0xff as the buffer of lines 471-472 is. *)
Fixpoint words_of (v : bytes) : list N :=
  match v with
  | [] => []
  | [b0] => [word_of b0 255 255 255]
  | [b0; b1] => [word_of b0 b1 255 255]
  | [b0; b1; b2] => [word_of b0 b1 b2 255]
  | b0 :: b1 :: b2 :: b3 :: v' => word_of b0 b1 b2 b3 :: words_of v'
  end.
Definition bytes_of (ws : list N) : bytes := flat_map word_bytes ws.

(** format.rs 464-484: build_user. The result is in words: header, then value. The last word of
    the value, if it has none of its bits at zero, gets its last bit cleared (line 478). *)
Definition FLIPPED_WORD : N := 2147483647.
Definition build_user (key : N) (v : bytes) : res store_error (list N) :=
  let ws := words_of v in
  let footer := last ws 0 in
  let flip := match ws with [] => false | _ => footer =? ERASED end in
  w <- c_set ID_HEADER ERASED ;;
  let w := if flip then b_set HEADER_FLIPPED w else w in
  let ws := if flip then removelast ws ++ [FLIPPED_WORD] else ws in
  w <- f_set HEADER_LENGTH w (Nlen v) ;;
  w <- f_set HEADER_KEY w key ;;
  w <- cs_set HEADER_CHECKSUM w (match ws with [] => 0 | _ => count_zeros (last ws 0) end) ;;
  Ok (w :: ws).

(** format.rs 487-496: set_padding and set_deleted. *)
Definition pad_word (w : N) : res store_error N := c_set ID_PADDING w.
Definition del_word (w : N) : N := b_set HEADER_DELETED w.
