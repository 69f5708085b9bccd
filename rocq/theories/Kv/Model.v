(** The key-value store seen through its specification, and the two libraries built on top of
    it: fragmented values (persistent_store/src/fragment.rs) and concatenated values
    (persistent_store/src/concat.rs). *)
From Verif Require Import Base.

(** store.rs 37-67: StoreError. [SPanic] stands for a Rust panic and is proved unreachable. *)
Inductive store_error :=
| InvalidArgument | NoCapacity | NoLifetime | StorageErr | InvalidStorage | SPanic.

(** model.rs 26-32: StoreModel::content, a HashMap. Here an association list, in the arbitrary
    order in which [Store::iter] (store.rs 246-259) enumerates it. *)
Definition kv := list (N * bytes).
Fixpoint kv_get (m : kv) (k : N) : option bytes :=
  match m with
  | [] => None
  | (k', v) :: m' => if (k' =? k)%N then Some v else kv_get m' k
  end.
Definition kv_remove (m : kv) (k : N) : kv := filter (fun p => negb (fst p =? k)%N) m.
Definition kv_insert (m : kv) (k : N) (v : bytes) : kv := kv_remove m k ++ [(k, v)].
Definition kv_keys (m : kv) : list N := map fst m.

(** store.rs 166-190: StoreUpdate. *)
Inductive update := UInsert (k : N) (v : bytes) | URemove (k : N).
Definition update_key (u : update) : N := match u with UInsert k _ => k | URemove k => k end.

(** format.rs 563: bytes_to_words; 524: entry_size. *)
Definition bytes_to_words (n : N) : N := ((n + 3) / 4)%N.
Definition entry_size (v : bytes) : N := (1 + bytes_to_words (Nlen v))%N.

(** The numbers of a Format the specification depends on (format.rs 250, 296). *)
Record limits := mkLimits { max_value_len : N; total_capacity : N }.
Definition MAX_KEY : N := 4095.
Definition MAX_UPDATES : N := 31.

(** format.rs 497-513: transaction_capacity. *)
Definition update_capacity (u : update) : N :=
  match u with UInsert _ v => entry_size v | URemove _ => 1%N end.
Definition transaction_capacity (us : list update) : N :=
  match us with
  | [] => 0
  | [UInsert _ v] => entry_size v
  | [URemove _] => 0
  | _ => 1 + fold_right (fun u s => update_capacity u + s) 0 us
  end%N.

(** format.rs 531-555: transaction_valid (the binary search on the sorted keys only decides
    whether the key was seen before). *)
Fixpoint updates_valid (L : limits) (seen : list N) (us : list update) : bool :=
  match us with
  | [] => true
  | u :: us' =>
      (update_key u <=? MAX_KEY)%N &&
      match u with UInsert _ v => (Nlen v <=? max_value_len L)%N | _ => true end &&
      negb (existsb (N.eqb (update_key u)) seen) &&
      updates_valid L (update_key u :: seen) us'
  end.
Definition transaction_valid (L : limits) (us : list update) : bool :=
  (Nlen us <=? MAX_UPDATES)%N && updates_valid L [] us.

(** model.rs 83-92: capacity used. *)
Definition kv_used (m : kv) : N := fold_right (fun p s => entry_size (snd p) + s)%N 0%N m.

Definition apply_update (m : kv) (u : update) : kv :=
  match u with UInsert k v => kv_insert m k v | URemove k => kv_remove m k end.

(** model.rs 95-117: transaction. [fault] is an error of the layer below (end of lifetime or
    storage failure) that leaves the content unchanged. *)
Definition transaction (L : limits) (fault : option store_error) (m : kv) (us : list update)
  : res store_error kv :=
  if negb (transaction_valid L us) then Err InvalidArgument
  else if (total_capacity L <? kv_used m + transaction_capacity us)%N then Err NoCapacity
  else match fault with
       | Some e => Err e
       | None => Ok (fold_left apply_update us m)
       end.

(* ------------------------------------------------------------ fragment.rs *)

(** fragment.rs 43-60: Keys for Range<usize>. *)
Record range := mkRange { r_start : N; r_end : N }.
Definition keys_len (r : range) : nat := N.to_nat (r_end r - r_start r).
Definition keys_pos (r : range) (k : N) : option nat :=
  if ((r_start r <=? k) && (k <? r_end r))%N then Some (N.to_nat (k - r_start r)) else None.
Definition keys_key (r : range) (p : nat) : N := (r_start r + N.of_nat p)%N.

Fixpoint list_set {A} (l : list A) (i : nat) (x : A) : list A :=
  match l, i with
  | [], _ => []
  | _ :: l', O => x :: l'
  | y :: l', S i' => y :: list_set l' i' x
  end.

(** fragment.rs 150-168: the loop of get_handles; a handle is represented by the key and value
    it points to. Lines 156-158 cannot be reached for a Range and are kept. *)
Fixpoint collect (r : range) (m : kv) (hs : list (option (N * bytes)))
  : res store_error (list (option (N * bytes))) :=
  match m with
  | [] => Ok hs
  | (k, v) :: m' =>
      match keys_pos r k with
      | None => collect r m' hs
      | Some p =>
          if (keys_len r <=? p)%nat then Err InvalidArgument
          else match nth p hs None with
               | Some (k', _) => Err (if negb (k' =? k)%N then InvalidArgument else InvalidStorage)
               | None => collect r m' (list_set hs p (Some (k, v)))
               end
      end
  end.

(** fragment.rs 169-179: the Somes must form a prefix. *)
Fixpoint prefix_handles (n : nat) (hs : list (option (N * bytes)))
  : res store_error (list (N * bytes)) :=
  match hs with
  | [] => Ok []
  | h :: hs' =>
      match n, h with
      | S n', Some x => rest <- prefix_handles n' hs' ;; Ok (x :: rest)
      | O, None => prefix_handles O hs'
      | _, _ => Err InvalidStorage
      end
  end.
Definition is_some {A} (o : option A) : bool := match o with Some _ => true | None => false end.

(** fragment.rs 147-180: get_handles. *)
Definition get_handles (m : kv) (r : range) : res store_error (list (N * bytes)) :=
  hs <- collect r m (repeat None (keys_len r)) ;;
  prefix_handles (length (filter is_some hs)) hs.

(** fragment.rs 63-73: read. *)
Definition frag_read (m : kv) (r : range) : res store_error (option bytes) :=
  hs <- get_handles m r ;;
  match hs with
  | [] => Ok None
  | _ => Ok (Some (flat_map snd hs))
  end.

(** fragment.rs 94-103: the loop of read_range. *)
Fixpoint read_chunks (hs : list (N * bytes)) (lo hi offset : N) : bytes :=
  match hs with
  | [] => []
  | (_, v) :: hs' =>
      let start := (lo - offset)%N in
      let len := Nlen v in
      let e := N.min (hi - offset) len in
      (if (start <? e)%N
       then firstn (N.to_nat (e - start)) (skipn (N.to_nat start) v)
       else []) ++ read_chunks hs' lo hi (offset + len)%N
  end.

(** fragment.rs 80-105: read_range. *)
Definition frag_read_range (m : kv) (r : range) (lo hi : N) : res store_error (option bytes) :=
  if (hi <? lo)%N then Err InvalidArgument
  else
    hs <- get_handles m r ;;
    match hs with
    | [] => Ok None
    | _ => Ok (Some (read_chunks hs lo hi 0))
    end.

(** slice::chunks (fragment.rs 112); chunk size n > 0. *)
Fixpoint chunks (fuel : nat) (n : nat) (v : bytes) : list bytes :=
  match fuel, v with
  | _, [] => []
  | O, _ => []
  | S f, _ => firstn n v :: chunks f n (skipn n v)
  end.

(** fragment.rs 115-124: the update for one position, from the existing handle and the next
    chunk. *)
Definition write_step (key : N) (h : option (N * bytes)) (c : option bytes) : list update :=
  match h, c with
  | None, None => []
  | Some _, None => [URemove key]
  | Some (_, old), Some v => if list_eq_dec N.eq_dec old v then [] else [UInsert key v]
  | None, Some v => [UInsert key v]
  end.

(** fragment.rs 113-125: the loop of write over positions [pos ..]. Returns the updates and
    the chunks left. *)
Fixpoint write_loop (r : range) (todo pos : nat) (hs : list (N * bytes)) (cs : list bytes)
  : list update * list bytes :=
  match todo with
  | O => ([], cs)
  | S todo' =>
      let u := write_step (keys_key r pos) (hd_error hs) (hd_error cs) in
      let '(us, rest) := write_loop r todo' (S pos) (tl hs) (tl cs) in
      (u ++ us, rest)
  end.

(** fragment.rs 108-131: write. *)
Definition frag_write (L : limits) (fault : option store_error) (m : kv) (r : range) (v : bytes)
  : res store_error kv :=
  hs <- get_handles m r ;;
  let n := N.to_nat (max_value_len L) in
  let '(us, rest) := write_loop r (keys_len r) 0 hs (chunks (length v) n v) in
  match rest with
  | _ :: _ => Err InvalidArgument
  | [] => transaction L fault m us
  end.

(** fragment.rs 134-142: delete. *)
Definition frag_delete (L : limits) (fault : option store_error) (m : kv) (r : range)
  : res store_error kv :=
  hs <- get_handles m r ;;
  transaction L fault m (map (fun h => URemove (fst h)) hs).

(* -------------------------------------------------------------- concat.rs *)

(** concat.rs 100-116: find; [usize] subtractions are guarded as in the code, the loop has
    fuel (one per byte is enough, theorem). *)
Fixpoint cfind_from (fuel : nat) (values : bytes) (index : N) (pos : nat)
  : res store_error (option (nat * nat)) :=
  let n := length values in
  if (n <=? pos)%nat then Ok None
  else match fuel with
  | O => Err SPanic
  | S f =>
      if (pos =? n - 1)%nat then Err InvalidStorage
      else match nth_error values (pos + 1), nth_error values pos with
      | Some l, Some i =>
          let len := N.to_nat l in
          if (n <? 2)%nat then Err SPanic
          else if (n - 2 <? len)%nat || (n - 2 - len <? pos)%nat then Err InvalidStorage
          else if (index =? i)%N then Ok (Some (pos + 2, pos + 2 + len)%nat)
          else cfind_from f values index (pos + 2 + len)
      | _, _ => Err SPanic
      end
  end.
Definition cfind (values : bytes) (index : N) := cfind_from (length values) values index 0.

(** concat.rs 36-42: read. *)
Definition concat_read (m : kv) (key index : N) : res store_error (option bytes) :=
  match kv_get m key with
  | None => Ok None
  | Some values =>
      o <- cfind values index ;;
      match o with
      | None => Ok None
      | Some (s, e) =>
          if (s <=? e)%nat && (e <=? length values)%nat
          then Ok (Some (firstn (e - s) (skipn s values)))
          else Err SPanic
      end
  end.

(** slice::rotate_left/right on the tail [l[s..]]. *)
Definition rotate_left_from (s d : nat) (l : bytes) : bytes :=
  firstn s l ++ skipn d (skipn s l) ++ firstn d (skipn s l).
Definition rotate_right_from (s d : nat) (l : bytes) : bytes :=
  let t := skipn s l in
  firstn s l ++ skipn (length t - d) t ++ firstn (length t - d) t.

(** concat.rs 62-78: replacing the value found at [s..e]. *)
Definition replace_in (values : bytes) (s e : nat) (v : bytes) : bytes :=
  let values := list_set values (s - 1) (Nlen v) in
  let n := length v in
  let '(values, e) :=
    if (e - s <? n)%nat then
      let diff := (n - (e - s))%nat in
      (rotate_right_from e diff (values ++ repeat 0%N diff), (e + diff)%nat)
    else if (n <? e - s)%nat then
      let diff := (e - s - n)%nat in
      let e := (e - diff)%nat in
      let r := rotate_left_from e diff values in
      (firstn (length r - diff) r, e)
    else (values, e) in
  firstn s values ++ v ++ skipn e values.

(** concat.rs 45-82: write. *)
Definition concat_write (L : limits) (fault : option store_error) (m : kv) (key index : N)
    (v : bytes) : res store_error kv :=
  if (255 <? Nlen v)%N then Err InvalidArgument
  else
    let values := match kv_get m key with Some x => x | None => [] end in
    o <- cfind values index ;;
    let new := match o with
               | None => values ++ index :: Nlen v :: v
               | Some (s, e) => replace_in values s e v
               end in
    transaction L fault m [UInsert key new].

(** concat.rs 85-98: delete. *)
Definition concat_delete (L : limits) (fault : option store_error) (m : kv) (key index : N)
  : res store_error kv :=
  match kv_get m key with
  | None => Ok m
  | Some values =>
      o <- cfind values index ;;
      match o with
      | None => Ok m
      | Some (s, e) =>
          let s := (s - 2)%nat in
          let r := rotate_left_from s (e - s) values in
          transaction L fault m [UInsert key (firstn (length r - (e - s)) r)]
      end
  end.
