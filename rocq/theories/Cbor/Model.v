(** Model of the CBOR library, /repo/libraries/cbor/src. *)
From Verif Require Import Base.

(** values.rs 48-54: SimpleValue, with its discriminants. *)
Inductive simple := SFalse | STrue | SNull | SUndefined.
Definition simple_code (s : simple) : N :=
  match s with SFalse => 20 | STrue => 21 | SNull => 22 | SUndefined => 23 end.

(** values.rs 309-320: SimpleValue::from_integer. *)
Definition simple_from_integer (n : N) : option simple :=
  if (n =? 20)%N then Some SFalse
  else if (n =? 21)%N then Some STrue
  else if (n =? 22)%N then Some SNull
  else if (n =? 23)%N then Some SUndefined
  else None.

(** values.rs 22-45: Value / ValueImpl.  [u64] is [N], [i64] is [Z]; a String
    is its UTF-8 bytes. *)
Inductive value :=
| VUnsigned (n : N)
| VNegative (z : Z)
| VBytes (b : bytes)
| VText (t : bytes)
| VArray (a : list value)
| VMap (m : list (value * value))
| VTag (t : N) (v : value)
| VSimple (s : simple).

(** values.rs 228-244: type_label. *)
Definition type_label (v : value) : N :=
  match v with
  | VUnsigned _ => 0 | VNegative _ => 1 | VBytes _ => 2 | VText _ => 3
  | VArray _ => 4 | VMap _ => 5 | VTag _ _ => 6 | VSimple _ => 7
  end.

(** Ordering::then / then_with. *)
Definition cmp_then (c d : comparison) : comparison :=
  match c with Eq => d | _ => c end.

(** values.rs 246-293: Ord for ValueImpl.  The loops over zipped arrays and maps of
    equal length (lines 262-272, 274-284) are the inner recursions; they break at the first
    non-equal component. *)
Fixpoint value_cmp (x y : value) {struct x} : comparison :=
  match x, y with
  | VUnsigned u1, VUnsigned u2 => N.compare u1 u2
  | VNegative n1, VNegative n2 => CompOpp (Z.compare n1 n2)
  | VBytes b1, VBytes b2 => cmp_then (Nat.compare (length b1) (length b2)) (lexcmp b1 b2)
  | VText t1, VText t2 => cmp_then (Nat.compare (length t1) (length t2)) (lexcmp t1 t2)
  | VArray a1, VArray a2 =>
      if Nat.eqb (length a1) (length a2) then
        (fix go (l1 l2 : list value) : comparison :=
           match l1, l2 with
           | e1 :: r1, e2 :: r2 =>
               match value_cmp e1 e2 with Eq => go r1 r2 | c => c end
           | _, _ => Eq
           end) a1 a2
      else Nat.compare (length a1) (length a2)
  | VMap m1, VMap m2 =>
      if Nat.eqb (length m1) (length m2) then
        (fix go (l1 l2 : list (value * value)) : comparison :=
           match l1, l2 with
           | (k1, v1) :: r1, (k2, v2) :: r2 =>
               match cmp_then (value_cmp k1 k2) (value_cmp v1 v2) with
               | Eq => go r1 r2 | c => c end
           | _, _ => Eq
           end) m1 m2
      else Nat.compare (length m1) (length m2)
  | VTag t1 v1, VTag t2 v2 => cmp_then (N.compare t1 t2) (value_cmp v1 v2)
  | VSimple s1, VSimple s2 => N.compare (simple_code s1) (simple_code s2)
  | _, _ => N.compare (type_label x) (type_label y)
  end.

(** values.rs 301-307: equality is derived from cmp. *)
Definition value_eqb (x y : value) : bool :=
  match value_cmp x y with Eq => true | _ => false end.

(** Vec::sort_by on keys (values.rs 116): a stable sort, here by insertion. *)
Fixpoint map_insert (p : value * value) (m : list (value * value)) :=
  match m with
  | [] => [p]
  | q :: m' =>
      match value_cmp (fst p) (fst q) with
      | Gt => q :: map_insert p m'
      | _ => p :: m
      end
  end.
Definition map_sort (m : list (value * value)) : list (value * value) :=
  fold_right map_insert [] m.

(** Vec::dedup_by on keys (values.rs 118): whether two consecutive keys are equal. *)
Fixpoint has_dup (m : list (value * value)) : bool :=
  match m with
  | p :: ((q :: _) as m') => value_eqb (fst p) (fst q) || has_dup m'
  | _ => false
  end.

(** values.rs 115-123: Value::map; [None] is the panic of line 120. *)
Definition value_map (m : list (value * value)) : option value :=
  let s := map_sort m in
  if has_dup s then None else Some (VMap s).

(* ------------------------------------------------------------------ writer *)

(** writer.rs 22-25. *)
Inductive enc_error := EE_TooMuchNesting | EE_DuplicateMapKey.

(** writer.rs 97-111: start_item. *)
Definition start_item (label size : N) : bytes :=
  let '(first, shift) :=
    if (size <=? 23)%N then (size, 0%nat)
    else if (size <=? 0xFF)%N then (24%N, 1%nat)
    else if (size <=? 0xFFFF)%N then (25%N, 2%nat)
    else if (size <=? 0xFFFFFFFF)%N then (26%N, 4%nat)
    else (27%N, 8%nat) in
  N.lor first (N.shiftl label 5) :: be_bytes shift size.

(** [Option<i8>::map_or(false, |d| d < 0)] and [map(|d| d - 1)]. *)
Definition depth_neg (d : option Z) : bool :=
  match d with Some z => (z <? 0)%Z | None => false end.
Definition depth_dec (d : option Z) : option Z :=
  match d with Some z => Some (z - 1)%Z | None => None end.

(** writer.rs 55-95: encode_cbor.  Returns the bytes appended to the vector. *)
Fixpoint encode_cbor (v : value) (d : option Z) {struct v} : res enc_error bytes :=
  if depth_neg d then Err EE_TooMuchNesting
  else
    match v with
    | VUnsigned u => Ok (start_item 0 u)
    | VNegative n => Ok (start_item 1 (Z.to_N (- (n + 1))))
    | VBytes b => Ok (start_item 2 (Nlen b) ++ b)
    | VText t => Ok (start_item 3 (Nlen t) ++ t)
    | VArray a =>
        body <- (fix go (l : list value) : res enc_error bytes :=
           match l with
           | [] => Ok []
           | e :: r =>
               x <- encode_cbor e (depth_dec d) ;;
               y <- go r ;;
               Ok (x ++ y)
           end) a ;;
        Ok (start_item 4 (Nlen a) ++ body)
    | VMap m =>
        body <- (fix go (l : list (value * value)) : res enc_error bytes :=
           match l with
           | [] => Ok []
           | (k, w) :: r =>
               x <- encode_cbor k (depth_dec d) ;;
               y <- encode_cbor w (depth_dec d) ;;
               z <- go r ;;
               Ok (x ++ y ++ z)
           end) m ;;
        Ok (start_item 5 (Nlen m) ++ body)
    | VTag t w =>
        x <- encode_cbor w (depth_dec d) ;;
        Ok (start_item 6 t ++ x)
    | VSimple s => Ok (start_item 7 (simple_code s))
    end.

(** writer.rs 37-44 and 30-32. *)
Definition write_nested (v : value) (max_nest : option Z) : res enc_error bytes :=
  encode_cbor v max_nest.
Definition write (v : value) : res enc_error bytes := write_nested v (Some 127%Z).

(* ------------------------------------------------------------------ reader *)

(** reader.rs 26-38, plus two values that the code cannot return: the panic of
    Value::map and exhaustion of the model's fuel. *)
Inductive dec_error :=
| DE_UnsupportedMajorType | DE_UnknownAdditionalInfo | DE_IncompleteCborData
| DE_TooMuchNesting | DE_InvalidUtf8 | DE_ExtraneousData | DE_OutOfOrderKey
| DE_NonMinimalCborEncoding | DE_UnsupportedSimpleValue
| DE_UnsupportedFloatingPointValue | DE_OutOfRangeIntegerValue
| DE_Panic | DE_OutOfFuel.

(** core::str::from_utf8: well-formedness of UTF-8 (Unicode 15, table 3-7).  The
    standard library function is modelled by the table it implements. *)
Definition cont (b : N) : bool := ((0x80 <=? b) && (b <=? 0xBF))%N.
Definition inr (lo hi b : N) : bool := ((lo <=? b) && (b <=? hi))%N.
Fixpoint utf8_valid (l : bytes) : bool :=
  match l with
  | [] => true
  | b :: r =>
      if (b <? 0x80)%N then utf8_valid r
      else if inr 0xC2 0xDF b then
        match r with c1 :: r' => cont c1 && utf8_valid r' | _ => false end
      else if inr 0xE0 0xEF b then
        match r with
        | c1 :: c2 :: r' =>
            (if (b =? 0xE0)%N then inr 0xA0 0xBF c1
             else if (b =? 0xED)%N then inr 0x80 0x9F c1
             else cont c1) && cont c2 && utf8_valid r'
        | _ => false end
      else if inr 0xF0 0xF4 b then
        match r with
        | c1 :: c2 :: c3 :: r' =>
            (if (b =? 0xF0)%N then inr 0x90 0xBF c1
             else if (b =? 0xF4)%N then inr 0x80 0x8F c1
             else cont c1) && cont c2 && cont c3 && utf8_valid r'
        | _ => false end
      else false
  end.

(** reader.rs 100-108: read_bytes.  [n] is a [usize]. *)
Definition read_bytes (n : N) (l : bytes) : option (bytes * bytes) :=
  if (Nlen l <? n)%N then None
  else Some (firstn (N.to_nat n) l, skipn (N.to_nat n) l).

(** reader.rs 120-125: accumulation [size_value <<= 8; size_value += byte] on u64;
    at most 8 bytes are read, so it cannot overflow. *)
Definition read_be (l : bytes) : N := of_be l.

(** reader.rs 110-136: read_variadic_length_integer. *)
Definition read_variadic (ai : N) (l : bytes) : res dec_error (N * bytes) :=
  let go (k : N) :=
    match read_bytes k l with
    | None => Err DE_IncompleteCborData
    | Some (b, r) =>
        let size := read_be b in
        if ((k =? 1) && (size <? 24) || (size <? N.shiftl 1 (8 * N.shiftr k 1)))%N
        then Err DE_NonMinimalCborEncoding
        else Ok (size, r)
    end in
  if (ai <=? 23)%N then Ok (ai, l)
  else if (ai =? 24)%N then go 1%N
  else if (ai =? 25)%N then go 2%N
  else if (ai =? 26)%N then go 4%N
  else if (ai =? 27)%N then go 8%N
  else Err DE_UnknownAdditionalInfo.

Section Reader.
  (** Width of [usize] in bits: 32 on the embedded targets, 64 on a host. *)
  Variable W : N.
  (** [size_value as usize] (reader.rs 152, 159). *)
  Definition as_usize (n : N) : N := (n mod 2 ^ W)%N.

  (** reader.rs 168-179: loop of read_array_content.  [dec] reads one item.  The
      loop counter is a u64; [g] is model fuel, one per iteration. *)
  Fixpoint read_array (dec : bytes -> res dec_error (value * bytes))
      (g : nat) (n : N) (l : bytes) : res dec_error (list value * bytes) :=
    if (n =? 0)%N then Ok ([], l)
    else match g with
         | O => Err DE_OutOfFuel
         | S g' =>
             '(v, l1) <- dec l ;;
             '(vs, l2) <- read_array dec g' (n - 1)%N l1 ;;
             Ok (v :: vs, l2)
         end.

  (** reader.rs 181-200: loop of read_map_content.  [last] is the key of
      [value_map.last()]. *)
  Fixpoint read_map (dec : bytes -> res dec_error (value * bytes))
      (g : nat) (n : N) (last : option value) (l : bytes)
      : res dec_error (list (value * value) * bytes) :=
    if (n =? 0)%N then Ok ([], l)
    else match g with
         | O => Err DE_OutOfFuel
         | S g' =>
             '(k, l1) <- dec l ;;
             if match last with
                | Some k0 => match value_cmp k0 k with Lt => false | _ => true end
                | None => false
                end
             then Err DE_OutOfOrderKey
             else
               '(v, l2) <- dec l1 ;;
               '(m, l3) <- read_map dec g' (n - 1)%N (Some k) l2 ;;
               Ok ((k, v) :: m, l3)
         end.

  (** reader.rs 211-227: decode_to_simple_value. *)
  Definition decode_simple (size ai : N) (l : bytes) : res dec_error (value * bytes) :=
    if ((23 <? ai) && negb (ai =? 24))%N then Err DE_UnsupportedFloatingPointValue
    else match simple_from_integer size with
         | Some s => Ok (VSimple s, l)
         | None => Err DE_UnsupportedSimpleValue
         end.

  (** reader.rs 70-98: decode_complete_data_item, with the content readers of lines
      138-209 inlined.  [fuel] bounds the nesting of calls. *)
  Fixpoint decode_item (fuel : nat) (d : option Z) (l : bytes) {struct fuel}
      : res dec_error (value * bytes) :=
    match fuel with
    | O => Err DE_OutOfFuel
    | S f =>
      if depth_neg d then Err DE_TooMuchNesting
      else match l with
      | [] => Err DE_IncompleteCborData
      | first :: l0 =>
          let major := N.shiftr first 5 in
          let ai := N.land first 0x1F in
          '(size, l1) <- read_variadic ai l0 ;;
          if (major =? 0)%N then Ok (VUnsigned size, l1)
          else if (major =? 1)%N then
            (* size_value as i64 < 0 *)
            if (2 ^ 63 <=? size)%N then Err DE_OutOfRangeIntegerValue
            else Ok (VNegative (- Z.of_N size - 1)%Z, l1)
          else if (major =? 2)%N then
            match read_bytes (as_usize size) l1 with
            | Some (b, l2) => Ok (VBytes b, l2)
            | None => Err DE_IncompleteCborData
            end
          else if (major =? 3)%N then
            match read_bytes (as_usize size) l1 with
            | Some (b, l2) =>
                if utf8_valid b then Ok (VText b, l2) else Err DE_InvalidUtf8
            | None => Err DE_IncompleteCborData
            end
          else if (major =? 4)%N then
            '(a, l2) <- read_array (decode_item f (depth_dec d)) (S (length l1)) size l1 ;;
            Ok (VArray a, l2)
          else if (major =? 5)%N then
            '(m, l2) <- read_map (decode_item f (depth_dec d)) (S (length l1)) size None l1 ;;
            match value_map m with
            | Some v => Ok (v, l2)
            | None => Err DE_Panic
            end
          else if (major =? 6)%N then
            '(v, l2) <- decode_item f (depth_dec d) l1 ;;
            Ok (VTag size v, l2)
          else if (major =? 7)%N then decode_simple size ai l1
          else Err DE_UnsupportedMajorType
      end
    end.

  (** reader.rs 50-57: read_nested; the recursion depth never exceeds the
      number of input bytes, which gives the fuel. *)
  Definition read_nested (l : bytes) (max_nest : option Z) : res dec_error value :=
    '(v, r) <- decode_item (S (length l)) max_nest l ;;
    match r with
    | [] => Ok v
    | _ :: _ => Err DE_ExtraneousData
    end.

  (** reader.rs 43-45. *)
  Definition read (l : bytes) : res dec_error value := read_nested l (Some 127%Z).
End Reader.

(** opensk/src/ctap/mod.rs 96, 178-186: cbor_read and cbor_write. *)
Definition MAX_CBOR_NESTING_DEPTH : Z := 4.
Definition cbor_read (W : N) (l : bytes) : option value :=
  match read_nested W l (Some MAX_CBOR_NESTING_DEPTH) with Ok v => Some v | Err _ => None end.
Definition cbor_write (v : value) : option bytes :=
  match write_nested v (Some MAX_CBOR_NESTING_DEPTH) with Ok b => Some b | Err _ => None end.

(* ---------------------------------------------------------- destructuring *)

(** macros.rs 91-113: destructure_cbor_map_peek_value.  Returns the value found and the
    rest of the iterator. *)
Fixpoint peek_value (it : list (value * value)) (needle : value)
  : option value * list (value * value) :=
  match it with
  | [] => (None, [])
  | (k, v) :: it' =>
      match value_cmp k needle with
      | Lt => peek_value it' needle
      | Eq => (Some v, it')
      | Gt => (None, it)
      end
  end.

(** macros.rs 53-78: destructure_cbor_map: the requested keys in order. *)
Fixpoint destructure (m : list (value * value)) (keys : list value) : list (option value) :=
  match keys with
  | [] => []
  | k :: ks => let '(o, m') := peek_value m k in o :: destructure m' ks
  end.
