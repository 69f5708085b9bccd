(** Model of libraries/persistent_store/src/store.rs over a flash storage.

    Simplifications. Bytes of the storage are grouped in words of 4 bytes (the store only reads and
    writes whole words). Storage operations do not fail: an operation is either completed or
    interrupted by a loss of power, and interruptions are read off the log of the writes and erases
    an execution performs. Loops have fuel; running out of it is the error [SPanic], like
    everything that would panic, and is proved not to happen. Sums of positions do not overflow
    (theorem C14_range). [debug_assert!] is not modelled. *)
From Verif Require Import Base.
From Verif.Kv Require Import Model.
From Verif.Store Require Import Format.
Open Scope nat_scope.

(** storage.rs 38-46: the words of each page. Like in buffer.rs 34-51, the flash also counts, for each word,
    how often it was written since its page was erased, and, for each page, how often it was erased.
    The store cannot read these counters. *)
Record flash := mkFlash {
  cells :> nat -> nat -> N;
  writes : nat -> nat -> nat;
  erases : nat -> nat }.
(** storage.rs 62-87: write_slice and erase_page. *)
Inductive action := AWrite (page word : nat) (ws : list N) | AErase (page : nat).

(** Writing can only clear bits; erasing sets them all. *)
Definition act_cells (f : flash) (a : action) (p x : nat) : N :=
  match a with
  | AWrite page word ws =>
      if (p =? page) && ((word <=? x) && (x <? word + length ws))
      then N.land (f p x) (nth (x - word) ws 0%N) else f p x
  | AErase page => if p =? page then ERASED else f p x
  end.
(** buffer.rs 218-228, 245-268, 308-342: a word is counted when it changes, a page when it is erased. *)
Definition do_action (f : flash) (a : action) : flash :=
  mkFlash (act_cells f a)
    (fun p x =>
      match a with
      | AWrite _ _ _ => if (act_cells f a p x =? f p x)%N then writes f p x else S (writes f p x)
      | AErase page => if p =? page then 0 else writes f p x
      end)
    (fun p =>
      match a with
      | AWrite _ _ _ => erases f p
      | AErase page => if p =? page then S (erases f p) else erases f p
      end).

(** store.rs 203-217: Store, without the constant format. The log has each modification of the
    storage with the storage before it. *)
Record st := mkSt { fl : flash; st_head : option nat; st_ents : option (list nat) }.
Definition set_fl (s : st) (f : flash) : st := mkSt f (st_head s) (st_ents s).
Definition set_head (s : st) (h : nat) : st := mkSt (fl s) (Some h) (st_ents s).
Definition set_ents (s : st) (l : option (list nat)) : st := mkSt (fl s) (st_head s) l.
Definition log := list (flash * action).
Definition M (A : Type) : Type := st -> res store_error A * st * log.

Definition ret {A} (a : A) : M A := fun s => (Ok a, s, []).
Definition fail {A} (e : store_error) : M A := fun s => (Err e, s, []).
Definition lift {A} (r : res store_error A) : M A := fun s => (r, s, []).
Definition bind {A B} (m : M A) (k : A -> M B) : M B := fun s =>
  match m s with
  | (Ok a, s1, l1) => match k a s1 with (r, s2, l2) => (r, s2, l1 ++ l2) end
  | (Err e, s1, l1) => (Err e, s1, l1)
  end.
Notation "x <~ m ;; k" := (bind m (fun x => k))
  (at level 61, m at next level, right associativity).
Notation "' p <~ m ;; k" := (bind m (fun x => let 'p := x in k))
  (at level 61, p pattern, m at next level, right associativity).
(** Reading the storage. *)
Definition reads {A} (g : flash -> res store_error A) : M A := fun s => (g (fl s), s, []).
(** store.rs 83-86: or_invalid, for the head. *)
Definition the_head : M nat := fun s =>
  (match st_head s with Some h => Ok h | None => Err InvalidStorage end, s, []).
Definition put_head (h : nat) : M unit := fun s => (Ok tt, set_head s h, []).
Definition the_ents : M (option (list nat)) := fun s => (Ok (st_ents s), s, []).
Definition put_ents (l : option (list nat)) : M unit := fun s => (Ok tt, set_ents s l, []).
Definition or_invalid {A} (o : option A) : M A :=
  match o with Some a => ret a | None => fail InvalidStorage end.

(* ------------------------------------------------ reading and writing words *)

Section STORE.
Variable F : format.

(** store.rs 1081-1083: read_word; format.rs 780-788: index. *)
Definition read_word (f : flash) (pos : nat) : N :=
  f (pos_page F pos) (CONTENT_WORD + pos_word F pos).
(** store.rs 1067-1082: read_slice, in words; the words of a slice which spans two pages are at
    consecutive positions. *)
Definition read_words (f : flash) (pos n : nat) : list N :=
  map (fun i => read_word f (pos + i)) (seq 0 n).

(** store.rs 1285-1296: is_write_needed. *)
Fixpoint write_needed (source target : bytes) : res store_error bool :=
  match source, target with
  | s :: source', t :: target' =>
      if negb (N.land s t =? t)%N then Err InvalidStorage
      else if negb (s =? t)%N then Ok true
      else write_needed source' target'
  | _, _ => Ok false
  end.
(** store.rs 1124-1137: the words which need not be written are skipped. *)
Fixpoint skip_written (f : flash) (page word : nat) (ws : list N)
  : res store_error (option (nat * list N)) :=
  match ws with
  | [] => Ok None
  | w :: ws' =>
      b <- write_needed (word_bytes (f page word)) (word_bytes w) ;;
      if b then Ok (Some (word, ws)) else skip_written f page (S word) ws'
  end.
(** store.rs 1115-1141: storage_write_slice. *)
Definition storage_write (page word : nat) (ws : list N) : M unit := fun s =>
  match skip_written (fl s) page word ws with
  | Err e => (Err e, s, [])
  | Ok None => (Ok tt, s, [])
  | Ok (Some (word', ws')) =>
      let a := AWrite page word' ws' in
      (Ok tt, set_fl s (do_action (fl s) a), [(fl s, a)])
  end.
(** store.rs 1103-1113: write_slice. *)
Definition write_slice (pos : nat) (ws : list N) : M unit :=
  let max_length := virt_page_size F - pos_word F pos in
  _ <~ storage_write (pos_page F pos) (CONTENT_WORD + pos_word F pos)
         (firstn (Nat.min (length ws) max_length) ws) ;;
  if max_length <? length ws
  then let pos' := next_page F pos in
       storage_write (pos_page F pos') (CONTENT_WORD + pos_word F pos') (skipn max_length ws)
  else ret tt.
(** store.rs 1086-1092: read_page; format.rs 926-928: is_erased. *)
Definition page_erased (f : flash) (page : nat) : bool :=
  forallb (fun x => (f page x =? ERASED)%N) (seq 0 (virt_page_size F + 2)).
(** lib.rs 108-130: an interrupted operation modifies an arbitrary subset of the bits the complete
    operation would modify. buffer.rs 151-183: a word that is written completely counts, and so
    does a page that is erased completely. *)
Definition interrupted (f : flash) (a : action) (f' : flash) : Prop :=
  (forall p x i,
    N.testbit (f' p x) i = N.testbit (f p x) i \/
    N.testbit (f' p x) i = N.testbit (do_action f a p x) i) /\
  match a with
  | AWrite _ _ _ =>
      (forall p x, writes f' p x = if (f' p x =? do_action f a p x)%N
                                   then writes (do_action f a) p x else writes f p x) /\
      (forall p, erases f' p = erases f p)
  | AErase page =>
      (forall p x, writes f' p x = if (p =? page) && page_erased f' page then 0 else writes f p x) /\
      (forall p, erases f' p = if (p =? page) && page_erased f' page
                               then S (erases f p) else erases f p)
  end.
(** store.rs 1144-1149: storage_erase_page. *)
Definition storage_erase (page : nat) : M unit := fun s =>
  if page_erased (fl s) page then (Ok tt, s, [])
  else let a := AErase page in (Ok tt, set_fl s (do_action (fl s) a), [(fl s, a)]).

(* ----------------------------------------------------------------- parsing *)

(** store.rs 1236-1275: ParsedEntry. *)
Inductive pentry :=
| EPadding | EUser (h : header) | EInternal (i : internal) | EPartialUser | EPartial | ETail.

(** store.rs 1028-1042: parse_partial. *)
Definition parse_partial (f : flash) (pos : nat) : pentry * nat :=
  match fold_left (fun acc i => if (read_word f (pos + i) =? ERASED)%N then acc else Some i)
                  (seq 0 (max_prefix F)) None with
  | None => (ETail, pos)
  | Some length => (EPartial, pos + (1 + length))
  end.
(** format.rs 888-897: Header::check. *)
Definition header_check (h : header) (footer : option N) : bool :=
  (match footer with None => 0%N | Some w => count_zeros w end =? h_checksum h)%N.
(** store.rs 982-1022: parse_entry. *)
Definition parse_entry (f : flash) (pos : nat) : res store_error (pentry * nat) :=
  p <- parse_word F (read_word f pos) ;;
  match p with
  | Erased | Partial => Ok (parse_partial f pos)
  | Valid (PPadding length) => Ok (EPadding, pos + (1 + length))
  | Valid (PHeader h) =>
      if max_value F <? h_length h then Ok (parse_partial f pos)
      else
        let length := to_words (h_length h) in
        let footer := if length =? 0 then None else Some (read_word f (pos + length)) in
        if header_check h footer then
          if (MAX_KEY <? h_key h)%N then Err InvalidStorage
          else Ok (EUser h, pos + (1 + length))
        else if match footer with None => true | Some w => (w =? ERASED)%N end
        then Ok (parse_partial f pos)
        else Ok (EPartialUser, pos + (1 + length))
  | Valid (PInternal i) => Ok (EInternal i, pos + 1)
  end.
(** store.rs 1045-1057: parse_init and parse_compact. *)
Definition parse_init (f : flash) (page : nat) := parse_init_word F (f page INIT_WORD).
Definition parse_compact (f : flash) (page : nat) := parse_compact_word F (f page COMPACT_WORD).

(** store.rs 913-931: get_extremum_page_head. *)
Fixpoint extremum_from (f : flash) (better : nat -> nat -> bool) (pages : list nat)
  (best : option nat) : res store_error (option nat) :=
  match pages with
  | [] => Ok best
  | page :: pages' =>
      init <- parse_init f page ;;
      match init with
      | Valid (cycle, prefix) =>
          let pos := position F cycle page prefix in
          let best' := match best with
                       | None => Some pos
                       | Some x => if better pos x then Some pos else best
                       end in
          extremum_from f better pages' best'
      | _ => extremum_from f better pages' best
      end
  end.
Definition extremum (better : nat -> nat -> bool) (f : flash) : res store_error nat :=
  best <- extremum_from f better (seq 0 (num_pages F)) None ;;
  match best with Some pos => Ok pos | None => Err InvalidStorage end.
Definition latest : flash -> res store_error nat := extremum (fun pos x => x <? pos).
Definition oldest : flash -> res store_error nat := extremum (fun pos x => pos <? x).

(** store.rs 947-956: tail. *)
Fixpoint tail_loop (f : flash) (fuel pos e : nat) : res store_error nat :=
  if e <=? pos then Ok pos
  else match fuel with
       | O => Err SPanic
       | S n =>
           r <- parse_entry f pos ;;
           match r with
           | (ETail, pos') => Ok pos'
           | (_, pos') => tail_loop f n pos' e
           end
       end.
Definition tail (f : flash) : res store_error nat :=
  pos <- latest f ;;
  tail_loop f (virt_page_size F) pos (next_page F pos).

(** store.rs 246-259: iter; 264-272: capacity. *)
Fixpoint handles (f : flash) (head : nat) (offsets : list nat)
  : res store_error (list (nat * header)) :=
  match offsets with
  | [] => Ok []
  | o :: offsets' =>
      r <- parse_entry f (head + o) ;;
      match fst r with
      | EUser h => hs <- handles f head offsets' ;; Ok ((head + o, h) :: hs)
      | _ => Err InvalidStorage
      end
  end.
Definition iter : M (list (nat * header)) :=
  head <~ the_head ;;
  l <~ the_ents ;;
  l <~ or_invalid l ;;
  reads (fun f => handles f head l).
Definition used : M nat :=
  hs <~ iter ;;
  ret (fold_right (fun h n => 1 + to_words (h_length (snd h)) + n) 0 hs).
(** store.rs 106-121, 264-272: the remaining capacity; [used] exceeds the total for no store that
    operations lead to, else the subtraction panics. *)
Definition remaining : M nat :=
  u <~ used ;;
  if capacity_of F <? u then fail SPanic else ret (capacity_of F - u).
(** store.rs 934-938: immediate_capacity. *)
Definition immediate : M nat :=
  t <~ reads tail ;;
  head <~ the_head ;;
  ret (head + virt_size F - t).

(** store.rs 471-487: get_value, with the check of line 472 and the position of the handle. *)
Definition get_value (pos : nat) : M bytes :=
  head <~ the_head ;;
  if pos <? head then fail InvalidArgument
  else
    reads (fun f =>
      r <- parse_entry f pos ;;
      match fst r with
      | EUser h =>
          let v := firstn (h_length h) (bytes_of (read_words f (pos + 1) (to_words (h_length h)))) in
          if h_flipped h
          then match v with [] => Err SPanic | _ => Ok (removelast v ++ [255%N]) end
          else Ok v
      | EPadding => Err InvalidArgument
      | _ => Err InvalidStorage
      end).
(** store.rs 395-414: find and find_handle. The iteration stops at the first entry found. *)
Fixpoint find_handle (f : flash) (head : nat) (offsets : list nat) (key : N)
  : res store_error (option nat) :=
  match offsets with
  | [] => Ok None
  | o :: offsets' =>
      r <- parse_entry f (head + o) ;;
      match fst r with
      | EUser h => if (h_key h =? key)%N then Ok (Some (head + o))
                   else find_handle f head offsets' key
      | _ => Err InvalidStorage
      end
  end.
Definition find (key : N) : M (option bytes) :=
  head <~ the_head ;;
  l <~ the_ents ;;
  l <~ or_invalid l ;;
  o <~ reads (fun f => find_handle f head l key) ;;
  match o with
  | None => ret None
  | Some pos => v <~ get_value pos ;; ret (Some v)
  end.

(* ------------------------------------------------------- elementary writes *)

(** store.rs 868-889: init_page. *)
Definition init_page (first last : nat) : M unit :=
  let write (new_first : nat) :=
    let page := pos_page F new_first in
    init <~ reads (fun f => parse_init f page) ;;
    match init with
    | Valid _ => ret tt
    | _ =>
        w <~ lift (build_init (pos_cycle F new_first) (pos_word F new_first)) ;;
        storage_write page INIT_WORD [w]
    end in
  if pos_word F first =? 0 then write first
  else if pos_page F first =? pos_page F last then ret tt
  else write (last + 1).
(** store.rs 892-905: set_padding and set_deleted. *)
Definition set_padding (pos : nat) : M unit :=
  w <~ reads (fun f => pad_word (read_word f pos)) ;;
  write_slice pos [w].
Definition set_deleted (pos : nat) : M unit :=
  w <~ reads (fun f => Ok (del_word (read_word f pos))) ;;
  write_slice pos [w].
(** store.rs 908-911: wipe_span. *)
Definition wipe_span (pos length : nat) : M unit := write_slice pos (repeat 0%N length).
(** store.rs 856-860: delete_pos. *)
Definition delete_pos (pos length : nat) : M unit :=
  _ <~ set_deleted pos ;; wipe_span (pos + 1) length.

(** store.rs 958-979: push_entry and remove_entry. *)
Definition offset_of (pos head : nat) : M nat :=
  if pos <? head then fail SPanic
  else if (65535 <? N.of_nat (pos - head))%N then fail InvalidStorage
  else ret (pos - head).
Definition push_entry (pos : nat) : M unit :=
  l <~ the_ents ;;
  match l with
  | None => ret tt
  | Some l =>
      head <~ the_head ;;
      o <~ offset_of pos head ;;
      put_ents (Some (l ++ [o]))
  end.
(** Vec::swap_remove. *)
Definition swap_remove (l : list nat) (i : nat) : list nat :=
  let l' := removelast l in
  if i =? length l' then l' else list_set l' i (last l 0).
Fixpoint index_of (o : nat) (l : list nat) : option nat :=
  match l with
  | [] => None
  | x :: l' => if x =? o then Some 0 else match index_of o l' with
                                          | Some i => Some (S i)
                                          | None => None
                                          end
  end.
Definition remove_entry (pos : nat) : M unit :=
  l <~ the_ents ;;
  match l with
  | None => ret tt
  | Some l =>
      head <~ the_head ;;
      o <~ offset_of pos head ;;
      i <~ or_invalid (index_of o l) ;;
      put_ents (Some (swap_remove l i))
  end.

(** store.rs 831-853: delete_if. The entries are taken out of the store during the loop. *)
Fixpoint delete_loop (fuel head e : nat) (del : N -> bool) (l : list nat) (i : nat)
  : M (list nat) :=
  match nth_error l i with
  | None => ret l
  | Some o =>
      match fuel with
      | O => fail SPanic
      | S n =>
          let pos := head + o in
          if e <=? pos then ret l
          else
            r <~ reads (fun f => parse_entry f pos) ;;
            match fst r with
            | EUser h =>
                if del (h_key h)
                then _ <~ delete_pos pos (to_words (h_length h)) ;;
                     delete_loop n head e del (swap_remove l i) i
                else delete_loop n head e del l (S i)
            | _ => fail InvalidStorage
            end
      end
  end.
Definition delete_if (e : nat) (del : N -> bool) : M unit :=
  head <~ the_head ;;
  l <~ the_ents ;;
  l <~ or_invalid l ;;
  _ <~ put_ents None ;;
  l <~ delete_loop (length l) head e del l 0 ;;
  put_ents (Some l).
(** store.rs 826-828: delete_keys; the sorted keys are a list of keys in any order, as only
    membership matters. *)
Definition delete_keys (keys : list N) (e : nat) : M unit :=
  delete_if e (fun k => existsb (N.eqb k) keys).

(* -------------------------------------------------------------- compaction *)

(** store.rs 781-785: the offsets are relative to the new head. *)
Fixpoint shift_all (d : nat) (l : list nat) : option (list nat) :=
  match l with
  | [] => Some []
  | o :: l' => if o <? d then None
               else match shift_all d l' with Some r => Some (o - d :: r) | None => None end
  end.
(** store.rs 763-791: compact_erase. *)
Definition compact_erase (erase : nat) : M unit :=
  r <~ reads (fun f => parse_entry f erase) ;;
  match fst r with
  | EInternal (IErase page) =>
      _ <~ storage_erase page ;;
      let page := (page + 1) mod num_pages F in
      init <~ reads (fun f => parse_init f page) ;;
      match init with
      | Valid (cycle, prefix) =>
          let head := position F cycle page prefix in
          l <~ the_ents ;;
          _ <~ match l with
               | None => ret tt
               | Some l =>
                   old <~ the_head ;;
                   d <~ offset_of head old ;;
                   l <~ or_invalid (shift_all d l) ;;
                   put_ents (Some l)
               end ;;
          _ <~ put_head head ;;
          let pos := page_begin F head in
          _ <~ wipe_span pos (head - pos) ;;
          set_padding erase
      | _ => fail InvalidStorage
      end
  | _ => fail InvalidStorage
  end.
(** store.rs 733-755: the loop of compact_copy; returns the tail. *)
Fixpoint copy_loop (fuel pos e t : nat) : M nat :=
  if e <=? pos then ret t
  else match fuel with
       | O => fail SPanic
       | S n =>
           r <~ reads (fun f => parse_entry f pos) ;;
           match r with
           | (ETail, _) => ret t
           | (EPartial, pos') => if e <? pos' then ret t else fail InvalidStorage
           | (EPadding, pos') => copy_loop n pos' e t
           | (EUser _, pos') =>
               let length := pos' - pos in
               ws <~ reads (fun f => Ok (read_words f pos length)) ;;
               _ <~ remove_entry pos ;;
               _ <~ write_slice t ws ;;
               _ <~ push_entry t ;;
               _ <~ init_page t (t + (length - 1)) ;;
               copy_loop n pos' e (t + length)
           | _ => fail InvalidStorage
           end
       end.
(** store.rs 722-760: compact_copy. *)
Definition compact_copy : M unit :=
  head <~ the_head ;;
  let page := pos_page F head in
  let e := next_page F head in
  c <~ reads (fun f => parse_compact f page) ;;
  match c with
  | Valid off =>
      let t := head + off in
      if t <? e then fail InvalidStorage
      else
        t <~ copy_loop (virt_page_size F) head e t ;;
        w <~ lift (build_internal (IErase page)) ;;
        _ <~ write_slice t [w] ;;
        _ <~ init_page t t ;;
        compact_erase t
  | _ => fail InvalidStorage
  end.
(** store.rs 707-719: compact. *)
Definition compact : M unit :=
  head <~ the_head ;;
  if max_page_erases F <=? pos_cycle F head then fail NoLifetime
  else
    t <~ reads tail ;;
    let t := Nat.max t (next_page F head) in
    w <~ lift (build_compact (t - head)) ;;
    _ <~ storage_write (pos_page F head) COMPACT_WORD [w] ;;
    compact_copy.

(** store.rs 693-695 and 363-365: compaction until there is room. At most two rounds over the pages
    are needed. *)
Fixpoint make_room (fuel length : nat) : M unit :=
  i <~ immediate ;;
  if i <? length
  then match fuel with O => fail SPanic | S n => _ <~ compact ;; make_room n length end
  else ret tt.
(** store.rs 689-697: reserve. *)
Definition reserve (length : nat) : M unit :=
  r <~ remaining ;;
  if r <? length then fail NoCapacity else make_room (2 * num_pages F) length.

(* -------------------------------------------------------------- operations *)

(** store.rs 700-704: insert_init. *)
Definition insert_init (pos length : nat) (key : N) : M unit :=
  _ <~ init_page pos (pos + length) ;;
  delete_keys [key] pos.
(** store.rs 322-329, 426-432: an entry is written before its footer. *)
Definition write_entry (pos : nat) (ws : list N) : M unit :=
  let footer := length ws - 1 in
  _ <~ write_slice pos (firstn footer ws) ;;
  write_slice (pos + footer) (skipn footer ws).
(** store.rs 417-434: insert. *)
Definition insert (key : N) (value : bytes) : M unit :=
  if (MAX_KEY <? key)%N || (max_value F <? length value) then fail InvalidArgument
  else
    ws <~ lift (build_user key value) ;;
    _ <~ reserve (length ws) ;;
    t <~ reads tail ;;
    _ <~ write_entry t ws ;;
    _ <~ push_entry t ;;
    insert_init t (length ws - 1) key.
(** store.rs 439-445: remove. *)
Definition remove (key : N) : M unit :=
  if (MAX_KEY <? key)%N then fail InvalidArgument
  else t <~ reads tail ;; delete_keys [key] t.

(** store.rs 799-811: the loop of transaction_apply. *)
Fixpoint apply_loop (fuel pos e : nat) : M unit :=
  if e <=? pos then ret tt
  else match fuel with
       | O => fail SPanic
       | S n =>
           r <~ reads (fun f => parse_entry f pos) ;;
           match r with
           | (ETail, _) => ret tt
           | (EUser _, pos') => _ <~ push_entry pos ;; apply_loop n pos' e
           | (EInternal (IRemove _), pos') => _ <~ set_padding pos ;; apply_loop n pos' e
           | _ => fail InvalidStorage
           end
       end.
(** store.rs 794-812: transaction_apply. *)
Definition transaction_apply (keys : list N) (marker : nat) : M unit :=
  _ <~ delete_keys keys marker ;;
  _ <~ set_padding marker ;;
  head <~ the_head ;;
  apply_loop (window_size F) (marker + 1) (head + window_size F).
(** store.rs 319-342: the updates of a transaction are written. *)
Fixpoint write_updates (us : list update) (t : nat) : M unit :=
  match us with
  | [] => ret tt
  | UInsert k v :: us' =>
      ws <~ lift (build_user k v) ;;
      _ <~ write_entry t ws ;;
      _ <~ init_page t (t + (length ws - 1)) ;;
      write_updates us' (t + length ws)
  | URemove k :: us' =>
      w <~ lift (build_internal (IRemove k)) ;;
      _ <~ write_slice t [w] ;;
      _ <~ init_page t t ;;
      write_updates us' (t + 1)
  end.
(** The limits of the specification of transactions (format.rs 248-253, 294-298). *)
Definition limits_of : limits :=
  mkLimits (N.of_nat (max_value F)) (N.of_nat (capacity_of F)).
(** store.rs 294-346: transaction. *)
Definition transaction (us : list update) : M unit :=
  match us with
  | [] => ret tt
  | [UInsert k v] => insert k v
  | [URemove k] => remove k
  | _ =>
      if negb (transaction_valid limits_of us) then fail InvalidArgument
      else
        _ <~ reserve (N.to_nat (transaction_capacity us)) ;;
        marker <~ reads tail ;;
        w <~ lift (build_internal (IMarker (length us))) ;;
        _ <~ write_slice marker [w] ;;
        _ <~ init_page marker marker ;;
        _ <~ write_updates us (marker + 1) ;;
        transaction_apply (map update_key us) marker
  end.

(** store.rs 814-823: clear_delete. *)
Definition clear_delete (pos : nat) : M unit :=
  _ <~ init_page pos pos ;;
  r <~ reads (fun f => parse_entry f pos) ;;
  match fst r with
  | EInternal (IClear min_key) =>
      _ <~ delete_if pos (fun k => (min_key <=? k)%N) ;;
      set_padding pos
  | _ => fail InvalidStorage
  end.
(** store.rs 351-369: clear. *)
Definition clear (min_key : N) : M unit :=
  if (MAX_KEY <? min_key)%N then fail InvalidArgument
  else
    w <~ lift (build_internal (IClear min_key)) ;;
    _ <~ make_room (2 * num_pages F) 1 ;;
    t <~ reads tail ;;
    _ <~ write_slice t [w] ;;
    clear_delete t.
(** store.rs 373-381: prepare. *)
Definition prepare (length : nat) : M unit :=
  r <~ remaining ;;
  if r <? length then fail NoCapacity
  else
    i <~ immediate ;;
    if i <? length then compact else ret tt.

(* ---------------------------------------------------------------- recovery *)

(** store.rs 489-504: recover_initialize. *)
Definition untouched (f : flash) : bool :=
  forallb (fun page =>
    ((page =? 0) || (f page INIT_WORD =? ERASED)%N) &&
    forallb (fun x => (f page x =? ERASED)%N) (seq 1 (virt_page_size F + 1)))
    (seq 0 (num_pages F)).
Definition recover_initialize : M unit :=
  b <~ reads (fun f => Ok (untouched f)) ;;
  if (b : bool)
  then w <~ lift (build_init 0 0) ;; storage_write 0 INIT_WORD [w]
  else ret tt.
(** store.rs 507-521: recover_erase; the search for an erase entry. *)
Fixpoint find_erase (f : flash) (fuel pos e : nat) : res store_error (option nat) :=
  if e <=? pos then Ok None
  else match fuel with
       | O => Err SPanic
       | S n =>
           r <- parse_entry f pos ;;
           match r with
           | (EInternal (IErase _), _) => Ok (Some pos)
           | (EPadding, pos') | (EUser _, pos') => find_erase f n pos' e
           | _ => Ok None
           end
       end.
Definition recover_erase : M unit :=
  pos <~ reads latest ;;
  o <~ reads (fun f => find_erase f (virt_page_size F) pos (next_page F pos)) ;;
  match o with
  | Some erase => compact_erase erase
  | None => ret tt
  end.
(** store.rs 524-533: recover_compaction. *)
Definition recover_compaction : M unit :=
  head <~ reads oldest ;;
  _ <~ put_head head ;;
  c <~ reads (fun f => parse_compact f (pos_page F head)) ;;
  match c with
  | Erased => ret tt
  | Partial => compact
  | Valid _ => compact_copy
  end.

(** store.rs 661-673: recover_wipe_partial and recover_delete_user. *)
Definition recover_wipe_partial (pos length : nat) : M unit :=
  _ <~ wipe_span (pos + 1) length ;;
  _ <~ init_page pos (pos + length) ;;
  set_padding pos.
Definition recover_delete_user (pos length : nat) : M unit :=
  _ <~ init_page pos (pos + length) ;;
  delete_pos pos length.

(** store.rs 624-658: recover_transaction_keys: the loop, with the position of the last entry. *)
Fixpoint keys_loop (f : flash) (fuel pos e : nat) (keys : list N) (prev : nat)
  : res store_error (list N * nat) :=
  if e <=? pos then Ok (keys, prev)
  else match fuel with
       | O => Err SPanic
       | S n =>
           r <- parse_entry f pos ;;
           let add (key : N) (pos' : nat) :=
             if existsb (N.eqb key) keys then Err InvalidStorage
             else keys_loop f n pos' e (keys ++ [key]) pos in
           match r with
           | (ETail, _) | (EPadding, _) | (EPartial, _) | (EPartialUser, _) => Ok (keys, prev)
           | (EUser h, pos') => add (h_key h) pos'
           | (EInternal (IRemove key), pos') => add key pos'
           | (EInternal _, _) => Err InvalidStorage
           end
       end.
Definition recover_transaction_keys (pos e : nat) : M (list N) :=
  '(keys, prev) <~ reads (fun f => keys_loop f (window_size F) pos e [] pos) ;;
  r <~ reads (fun f => parse_entry f prev) ;;
  _ <~ match r with
       | (EUser _, pos') | (EInternal (IRemove _), pos') =>
           init_page prev (prev + (pos' - prev - 1))
       | _ => ret tt
       end ;;
  ret keys.
(** store.rs 590-615: the loop of recover_transaction. *)
Fixpoint rollback_loop (fuel pos e : nat) : M unit :=
  if e <=? pos then ret tt
  else match fuel with
       | O => fail SPanic
       | S n =>
           r <~ reads (fun f => parse_entry f pos) ;;
           match r with
           | (ETail, _) => ret tt
           | (EPadding, pos') => rollback_loop n pos' e
           | (EUser _, pos') =>
               _ <~ delete_pos pos (pos' - pos - 1) ;; rollback_loop n pos' e
           | (EInternal (IRemove _), pos') => _ <~ set_padding pos ;; rollback_loop n pos' e
           | (EPartial, pos') => recover_wipe_partial pos (pos' - pos - 1)
           | (EPartialUser, pos') => recover_delete_user pos (pos' - pos - 1)
           | (EInternal _, _) => fail InvalidStorage
           end
       end.
(** store.rs 578-619: recover_transaction. *)
Definition recover_transaction (marker e : nat) : M unit :=
  r <~ reads (fun f => parse_entry f marker) ;;
  match r with
  | (EInternal (IMarker count), pos) =>
      keys <~ recover_transaction_keys pos e ;;
      if length keys =? count then transaction_apply keys marker
      else if count <? length keys then fail InvalidStorage
      else
        _ <~ rollback_loop (window_size F) pos e ;;
        _ <~ init_page marker marker ;;
        set_padding marker
  | _ => fail InvalidStorage
  end.
(** store.rs 536-575: recover_operation. *)
Definition recover_last (prev : nat) : M unit :=
  r <~ reads (fun f => parse_entry f prev) ;;
  match r with
  | (EUser h, pos) => insert_init prev (pos - prev - 1) (h_key h)
  | _ => ret tt
  end.
Fixpoint operation_loop (fuel pos e prev : nat) : M unit :=
  if e <=? pos then recover_last prev
  else match fuel with
       | O => fail SPanic
       | S n =>
           r <~ reads (fun f => parse_entry f pos) ;;
           match r with
           | (ETail, _) => recover_last prev
           | (EUser _, pos') => _ <~ push_entry pos ;; operation_loop n pos' e pos
           | (EPadding, pos') =>
               _ <~ wipe_span (pos + 1) (pos' - pos - 1) ;; operation_loop n pos' e pos
           | (EInternal (IErase _), _) => fail InvalidStorage
           | (EInternal (IClear _), _) => clear_delete pos
           | (EInternal (IMarker _), _) => recover_transaction pos e
           | (EInternal (IRemove _), pos') => _ <~ set_padding pos ;; operation_loop n pos' e pos
           | (EPartial, pos') => recover_wipe_partial pos (pos' - pos - 1)
           | (EPartialUser, pos') => recover_delete_user pos (pos' - pos - 1)
           end
       end.
Definition recover_operation : M unit :=
  _ <~ put_ents (Some []) ;;
  head <~ the_head ;;
  operation_loop (window_size F) head (head + window_size F) head.
(** store.rs 386-392: recover. *)
Definition recover : M unit :=
  _ <~ recover_initialize ;;
  _ <~ recover_erase ;;
  _ <~ recover_compaction ;;
  recover_operation.
(** store.rs 223-238: Store::new on a supported storage. *)
Definition boot (f : flash) : res store_error unit * st * log :=
  recover (mkSt f None None).

End STORE.
