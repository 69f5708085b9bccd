(** What fragmented and concatenated values mean, independently of how they are computed. *)
From Verif Require Import Base.
From Verif.Kv Require Import Model.

(** A store content is well-formed when every key occurs at most once. *)
Definition kv_wf (m : kv) : Prop := NoDup (kv_keys m).

(** The key range [r] holds exactly the fragments [cs], at its first keys in order. *)
Definition holds (m : kv) (r : range) (cs : list bytes) : Prop :=
  (Nlen cs <= r_end r - r_start r)%N /\
  forall i : N, (i < r_end r - r_start r)%N ->
    kv_get m (r_start r + i)%N = nth_error cs (N.to_nat i).

Definition in_range (r : range) (k : N) : Prop := (r_start r <= k < r_end r)%N.

(** The bytes [lo..hi) of [v], truncated to the length of [v]. *)
Definition slice (v : bytes) (lo hi : N) : bytes :=
  firstn (N.to_nat (hi - lo)) (skipn (N.to_nat lo) v).

(** A concatenated value is a sequence of (index, payload) records. *)
Definition cencode (l : list (N * bytes)) : bytes :=
  flat_map (fun p => fst p :: Nlen (snd p) :: snd p) l.
Definition cwf (l : list (N * bytes)) : Prop :=
  Forall (fun p => (Nlen (snd p) <= 255)%N) l.
Definition clookup (l : list (N * bytes)) (i : N) : option bytes :=
  option_map snd (find (fun p => (i =? fst p)%N) l).
(** The value under a key, [nil] when there is none. *)
Definition cvalue (m : kv) (key : N) : bytes :=
  match kv_get m key with Some v => v | None => [] end.

(** A history of writes and deletions of concatenated values under one key, each with the
    possible failure of the layer below, together with the map a client expects: it changes
    exactly when the operation reports success. *)
Inductive cop := CWrite (index : N) (v : bytes) | CDelete (index : N).
Definition cstep (L : limits) (key : N) (st : kv * (N -> option bytes))
    (x : option store_error * cop) : kv * (N -> option bytes) :=
  let '(m, spec) := st in
  match snd x with
  | CWrite i v =>
      match concat_write L (fst x) m key i v with
      | Ok m' => (m', fun j => if (j =? i)%N then Some v else spec j)
      | Err _ => (m, spec)
      end
  | CDelete i =>
      match concat_delete L (fst x) m key i with
      | Ok m' => (m', fun j => if (j =? i)%N then None else spec j)
      | Err _ => (m, spec)
      end
  end.
Definition crun (L : limits) (key : N) (m : kv) (xs : list (option store_error * cop)) :=
  fold_left (cstep L key) xs (m, fun _ => None).
