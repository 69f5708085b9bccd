(** The linear view of a paged storage. Source: libraries/persistent_store/src/linear.rs and
    storage.rs. Numbers are unbounded: the sums of offsets and lengths are below the size of the
    storage, except in [read], where a range that ends within a page of the largest usize overflows
    in the code (a panic in debug builds) and is out of bounds here. *)
From Verif Require Import Base.
Open Scope nat_scope.

(** storage.rs 33-43: StorageError; CustomError is a failure of the hardware, not modelled. *)
Inductive storage_error := NotAligned | OutOfBounds.

(** storage.rs 59-105: a storage is given by its word size, page size and number of pages, and by
    what writing a byte over another leaves: flash clears bits, other storages overwrite. *)
Record geometry := mkGeometry {
  word_size : nat; page_size : nat; num_pages : nat; written : N -> N -> N }.
(** The bytes of the pages. *)
Definition mem := nat -> nat -> N.
(** storage.rs 23-26: StorageIndex. *)
Record index := mkIndex { page : nat; byte : nat }.

Definition M (A : Type) := mem -> res storage_error A * mem.
Definition ret {A} (a : A) : M A := fun m => (Ok a, m).
Definition fail {A} (e : storage_error) : M A := fun m => (Err e, m).
Definition bind {A B} (x : M A) (k : A -> M B) : M B :=
  fun m => match x m with (Ok a, m') => k a m' | (Err e, m') => (Err e, m') end.
Notation "a <~ x ;; k" := (bind x (fun a => k)) (at level 61, x at next level, right associativity).

Section LINEAR.
Variable g : geometry.

(** storage.rs 95-98: is_valid. *)
Definition is_valid (i : index) (length : nat) : bool :=
  (page i <? num_pages g) && ((length <=? page_size g) && (byte i <=? page_size g - length)).
(** storage.rs 81-87, buffer.rs 304-306: read_slice. *)
Definition read_slice (i : index) (length : nat) : M bytes := fun m =>
  if is_valid i length then (Ok (map (fun k => m (page i) (byte i + k)) (seq 0 length)), m)
  else (Err OutOfBounds, m).
(** storage.rs 89-97, buffer.rs 308-327: write_slice. *)
Definition write_slice (i : index) (value : bytes) : M unit := fun m =>
  if negb ((byte i mod word_size g =? 0) && (length value mod word_size g =? 0)) then (Err NotAligned, m)
  else if is_valid i (length value) then
    (Ok tt, fun p x => if (p =? page i) && ((byte i <=? x) && (x <? byte i + length value))
                       then written g (m p x) (nth (x - byte i) value 0%N) else m p x)
  else (Err OutOfBounds, m).
(** storage.rs 99-104, buffer.rs 329-341: erase_page. *)
Definition erase_page (pg : nat) : M unit := fun m =>
  if is_valid (mkIndex pg 0) (page_size g)
  then (Ok tt, fun p x => if (p =? pg) && (x <? page_size g) then 255%N else m p x) else (Err OutOfBounds, m).

(** linear.rs 37-39: length. *)
Definition linear_length : nat := num_pages g * page_size g.

(** linear.rs 64-71: the loop of read; one iteration uses a byte at least, so that [fuel], the
    length, is enough. *)
Fixpoint read_loop (fuel : nat) (i : index) (length : nat) : M bytes :=
  match fuel with
  | O => ret []
  | S fuel' =>
      if length =? 0 then ret []
      else
        let slice_length := Nat.min length (page_size g - byte i) in
        a <~ read_slice i slice_length ;;
        b <~ read_loop fuel' (mkIndex (page i + 1) 0) (length - slice_length) ;;
        ret (a ++ b)
  end.
(** linear.rs 45-73: read; the test of lines 50-52 is never true, since such ranges are empty. *)
Definition read (start end_ : nat) : M bytes :=
  if end_ <=? start then ret []
  else if end_ <? start then fail OutOfBounds
  else
    let i := mkIndex (start / page_size g) (start mod page_size g) in
    let length := end_ - start in
    if end_ <=? (page i + 1) * page_size g then read_slice i length
    else read_loop length i length.

(** The words a slice is put in: copy_from_slice from index [at_]. *)
Definition put (word : bytes) (at_ : nat) (value : bytes) : bytes :=
  firstn at_ word ++ value ++ skipn (at_ + length value) word.
(** linear.rs 132-158: write_unaligned. *)
Definition write_unaligned (i : index) (value : bytes) : M unit :=
  let unaligned := byte i mod word_size g in
  iv <~ (if negb (unaligned =? 0) then
           let len := Nat.min (length value) (word_size g - unaligned) in
           let i' := mkIndex (page i) (byte i - unaligned) in
           word <~ read_slice i' (word_size g) ;;
           _ <~ write_slice i' (put word unaligned (firstn len value)) ;;
           ret (mkIndex (page i) (byte i' + word_size g), skipn len value)
         else ret (i, value)) ;;
  let (i, value) := iv in
  let len := length value - length value mod word_size g in
  _ <~ write_slice i (firstn len value) ;;
  let value := skipn len value in
  let i := mkIndex (page i) (byte i + len) in
  match value with
  | [] => ret tt
  | _ => word <~ read_slice i (word_size g) ;; write_slice i (put word 0 value)
  end.
(** linear.rs 164-174: erase_within, with save_complement (176-199) and restore_complement
    (201-214). *)
Definition erase_within (i : index) (length_ : nat) : M unit :=
  previous <~ read_slice i length_ ;;
  if forallb (fun x => (x =? 255)%N) previous then ret tt
  else
    prefix <~ read_slice (mkIndex (page i) 0) (byte i) ;;
    suffix <~ read_slice (mkIndex (page i) (byte i + length_)) (page_size g - byte i - length_) ;;
    _ <~ erase_page (page i) ;;
    _ <~ write_unaligned (mkIndex (page i) 0) prefix ;;
    write_unaligned (mkIndex (page i) (page_size g - length suffix)) suffix.
(** linear.rs 127-130: write_within. *)
Definition write_within (i : index) (value : bytes) : M unit :=
  _ <~ erase_within i (length value) ;; write_unaligned i value.
(** linear.rs 88-95: the loop of write. *)
Fixpoint write_loop (fuel : nat) (i : index) (value : bytes) : M unit :=
  match fuel with
  | O => ret tt
  | S fuel' =>
      match value with
      | [] => ret tt
      | _ =>
          let len := Nat.min (length value) (page_size g - byte i) in
          _ <~ write_within i (firstn len value) ;;
          write_loop fuel' (mkIndex (page i + 1) 0) (skipn len value)
      end
  end.
(** linear.rs 79-97: write. *)
Definition write (offset : nat) (value : bytes) : M unit :=
  if (linear_length <? length value) || (linear_length - length value <? offset) then fail OutOfBounds
  else write_loop (length value) (mkIndex (offset / page_size g) (offset mod page_size g)) value.
(** linear.rs 112-119: the loop of erase. *)
Fixpoint erase_loop (fuel : nat) (i : index) (length_ : nat) : M unit :=
  match fuel with
  | O => ret tt
  | S fuel' =>
      if length_ =? 0 then ret tt
      else
        let len := Nat.min length_ (page_size g - byte i) in
        _ <~ erase_within i len ;; erase_loop fuel' (mkIndex (page i + 1) 0) (length_ - len)
  end.
(** linear.rs 104-121: erase. *)
Definition erase (start end_ : nat) : M unit :=
  if (end_ <? start) || (linear_length <? end_) then fail OutOfBounds
  else erase_loop (end_ - start) (mkIndex (start / page_size g) (start mod page_size g)) (end_ - start).
End LINEAR.
