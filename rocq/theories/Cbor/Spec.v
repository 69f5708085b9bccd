(** Independent specification for the CBOR properties: RFC 8949 deterministic
    encoding, nesting depth, well-formed values, key order. *)
From Verif Require Import Base Cbor.Model.

(** The head of a data item: major type and argument in shortest form
    (RFC 8949, sections 3 and 4.2.1). *)
Definition head (major n : N) : bytes :=
  if (n <? 24)%N then [(major * 32 + n)%N]
  else if (n <? 2 ^ 8)%N then (major * 32 + 24)%N :: be_bytes 1 n
  else if (n <? 2 ^ 16)%N then (major * 32 + 25)%N :: be_bytes 2 n
  else if (n <? 2 ^ 32)%N then (major * 32 + 26)%N :: be_bytes 4 n
  else (major * 32 + 27)%N :: be_bytes 8 n.

(** Deterministic encoding of a value. *)
Fixpoint enc (v : value) : bytes :=
  match v with
  | VUnsigned n => head 0 n
  | VNegative z => head 1 (Z.to_N (-1 - z))
  | VBytes b => head 2 (Nlen b) ++ b
  | VText t => head 3 (Nlen t) ++ t
  | VArray a => head 4 (Nlen a) ++ flat_map enc a
  | VMap m => head 5 (Nlen m) ++ flat_map (fun p => enc (fst p) ++ enc (snd p)) m
  | VTag t w => head 6 t ++ enc w
  | VSimple s => [(7 * 32 + simple_code s)%N]
  end.

(** Nesting depth: 0 for a value that contains no other value. *)
Definition max_list (l : list Z) : Z := fold_right Z.max 0%Z l.
Fixpoint depth (v : value) : Z :=
  match v with
  | VArray a => max_list (map (fun w => depth w + 1)%Z a)
  | VMap m => max_list (map (fun p => Z.max (depth (fst p)) (depth (snd p)) + 1)%Z m)
  | VTag _ w => (depth w + 1)%Z
  | _ => 0%Z
  end.

Definition within (v : value) (limit : option Z) : Prop :=
  match limit with Some d => (depth v <= d)%Z | None => True end.

(** Consecutive keys strictly increase in bytewise order of their encodings (the
    deterministic map key order of RFC 8949, section 4.2.1). *)
Fixpoint keys_sorted (m : list (value * value)) : Prop :=
  match m with
  | p :: ((q :: _) as m') => lexcmp (enc (fst p)) (enc (fst q)) = Lt /\ keys_sorted m'
  | _ => True
  end.

(** Values representable by the library on a target with [W]-bit usize: integers
    in range of their Rust types, strings valid, sizes addressable, map keys sorted. *)
Inductive value_ok (W : N) : value -> Prop :=
| ok_unsigned n : (n < 2 ^ 64)%N -> value_ok W (VUnsigned n)
| ok_negative z : (- 2 ^ 63 <= z < 0)%Z -> value_ok W (VNegative z)
| ok_bytes b : bytes_ok b = true -> (Nlen b < 2 ^ W)%N -> value_ok W (VBytes b)
| ok_text t : bytes_ok t = true -> utf8_valid t = true -> (Nlen t < 2 ^ W)%N -> value_ok W (VText t)
| ok_array a : (Nlen a < 2 ^ 64)%N -> Forall (value_ok W) a -> value_ok W (VArray a)
| ok_map m : (Nlen m < 2 ^ 64)%N ->
    Forall (fun p => value_ok W (fst p) /\ value_ok W (snd p)) m ->
    keys_sorted m -> value_ok W (VMap m)
| ok_tag t w : (t < 2 ^ 64)%N -> value_ok W w -> value_ok W (VTag t w)
| ok_simple s : value_ok W (VSimple s).

(** The CTAP2 canonical CBOR key order: major type, then length of the encoding, then
    bytewise. *)
Definition major_of (v : value) : N := (hd 0 (enc v) / 32)%N.
Definition ctap2_order (a b : value) : comparison :=
  match N.compare (major_of a) (major_of b) with
  | Eq => match Nat.compare (length (enc a)) (length (enc b)) with
          | Eq => lexcmp (enc a) (enc b)
          | c => c
          end
  | c => c
  end.

(** Keys that contain no other value. *)
Definition scalar (v : value) : bool :=
  match v with VArray _ | VMap _ | VTag _ _ => false | _ => true end.
