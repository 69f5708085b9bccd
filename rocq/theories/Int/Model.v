(** 256-bit integers and the encodings of signatures (libraries/crypto/src/ec/int256.rs, exponent256.rs,
    gfp256.rs, ecdsa.rs).  Machine integers are integers with explicit range checks: None is an overflow,
    which panics in debug builds.  Constant-time selections are if-then-else. *)
From Verif Require Import Base.
Open Scope Z_scope.

Notation "'let?' x ':=' m 'in' k" := (match m with Some x => k | None => None end)
  (at level 200, x pattern, m at level 100, k at level 200, right associativity).

Definition B : Z := 2 ^ 32.
Definition in_range (lo hi x : Z) : option Z := if (lo <=? x) && (x <? hi) then Some x else None.
(** u32, u64 and i64. *)
Definition u32 := in_range 0 (2 ^ 32).
Definition u64 := in_range 0 (2 ^ 64).
Definition i64 := in_range (- 2 ^ 63) (2 ^ 63).

(** int256.rs 37-39: Int256; the digits, least significant first. *)
Definition int256 := list Z.

(** 58-106: constants. *)
Definition c_N : int256 :=
  [0xfc632551; 0xf3b9cac2; 0xa7179e84; 0xbce6faad; 0xffffffff; 0xffffffff; 0x00000000; 0xffffffff].
Definition c_N_MIN_2 : int256 :=
  [0xfc63254f; 0xf3b9cac2; 0xa7179e84; 0xbce6faad; 0xffffffff; 0xffffffff; 0x00000000; 0xffffffff].
Definition c_P : int256 :=
  [0xffffffff; 0xffffffff; 0xffffffff; 0x00000000; 0x00000000; 0x00000000; 0x00000001; 0xffffffff].
Definition c_B : int256 :=
  [0x27d2604b; 0x3bce3c3e; 0xcc53b0f6; 0x651d06b0; 0x769886bc; 0xb3ebbd55; 0xaa3a93e7; 0x5ac635d8].
Definition c_R : int256 :=
  [0x00000002; 0x00000000; 0x00000000; 0xfffffffe; 0xffffffff; 0xffffffff; 0xfffffffd; 0x00000001].
Definition c_R_INV : int256 :=
  [0x80000000; 0x00000001; 0xffffffff; 0x00000000; 0x80000001; 0xfffffffe; 0x00000001; 0x7fffffff].
Definition c_ZERO : int256 := [0; 0; 0; 0; 0; 0; 0; 0].
Definition c_ONE : int256 := [1; 0; 0; 0; 0; 0; 0; 0].

(** ** Serialization *)

(** 136-142: from_bin. *)
Definition from_bin (src : bytes) : int256 :=
  map (fun i => Z.of_N (of_be (firstn 4 (skipn (4 * (7 - i)) src)))) (seq 0 8).
(** 144-148: to_bin. *)
Definition to_bin (x : int256) : bytes := flat_map (fun d => be_bytes 4 (Z.to_N d)) (rev x).
(** 150-164: to_minimal_encoding; the bytes from the first one that is not zero. *)
Fixpoint from_nonzero (l : bytes) : bytes :=
  match l with
  | [] => []
  | b :: l' => if (b =? 0)%N then from_nonzero l' else l
  end.
Definition to_minimal_encoding (x : int256) : bytes :=
  match from_nonzero (to_bin x) with
  | [] => [0%N]
  | b :: l => if (N.land b 0x80 =? 0x80)%N then 0%N :: b :: l else b :: l
  end.

(** ** Getters *)

(** 172-176: bit. *)
Definition bit (x : int256) (i : nat) : Z :=
  Z.land (Z.shiftr (nth (i / 32) x 0) (Z.of_nat (i mod 32))) 1.
(** 178-185: is_zero. *)
Definition is_zero (x : int256) : bool := forallb (fun d => d =? 0) x.

(** ** Shifts *)

(** 201-213: shl, for 0 < n < 32; bits shifted out of a digit are lost. *)
Fixpoint shl_digits (n below : Z) (x : list Z) : list Z :=
  match x with
  | [] => []
  | d :: x' => Z.lor (Z.shiftl d n mod B) (Z.shiftr below (32 - n)) :: shl_digits n d x'
  end.
Definition shl (x : int256) (n : Z) : int256 * Z :=
  (shl_digits n 0 x, Z.shiftr (nth 7 x 0) (32 - n)).
(** 217-226: shr. *)
Fixpoint shr (x : int256) (n : Z) : int256 :=
  match x with
  | [] => []
  | d :: x' =>
      match x' with
      | [] => [Z.shiftr d n]
      | d' :: _ => Z.lor (Z.shiftr d n) (Z.shiftl d' (32 - n) mod B) :: shr x' n
      end
  end.

(** ** Addition and subtraction *)

(** All the loops over the digits have this form: the accumulator is updated, its low 32 bits become the
    digit, and it is shifted right (arithmetically if it is signed). *)
Fixpoint loop (step : Z -> Z -> Z -> option Z) (acc : Z) (x y : list Z) : option (list Z * Z) :=
  match x, y with
  | a :: x', b :: y' =>
      let? acc := step acc a b in
      let? (r, acc') := loop step (acc / B) x' y' in
      Some (acc mod B :: r, acc')
  | _, _ => Some ([], acc)
  end.

(** 568-580: Add for &Int256. *)
Definition add_step (c a b : Z) : option Z := let? s := u64 (a + b) in u64 (c + s).
Definition add (x y : int256) : option (int256 * Z) :=
  let? (r, c) := loop add_step 0 x y in Some (r, c mod B).
(** 600-613: Add<Digit> for &Int256. *)
Definition add_digit (x : int256) (d : Z) : option (int256 * Z) :=
  let? (r, c) := loop (fun c a _ => u64 (c + a)) d x x in Some (r, c mod B).
(** 621-634: Sub for &Int256. *)
Definition sub_step (c a b : Z) : option Z := let? s := i64 (a - b) in i64 (c + s).
Definition sub (x y : int256) : option (int256 * Z) :=
  let? (r, c) := loop sub_step 0 x y in Some (r, c mod B).
(** 252-268: add_conditional. *)
Definition add_conditional (dst modd : list Z) (top : Z) (choice : bool) : option (list Z * Z) :=
  let? (r, c) := loop (fun c a b => let? c := u64 (c + a) in u64 (c + if choice then b else 0)) 0 dst modd in
  let? t := u32 (c mod B + top) in Some (r, t).
(** 272-288: sub_conditional. *)
Definition sub_conditional (dst modd : list Z) (top : Z) (choice : bool) : option (list Z * bool) :=
  let? (r, c) := loop (fun c a b => let? c := i64 (c + a) in i64 (c - if choice then b else 0)) 0 dst modd in
  let? t := i64 (c + top) in Some (r, t mod B =? B - 1).
(** 243-248: modd. *)
Definition modd (x m : int256) : option int256 :=
  let? (d, choice) := sub_conditional x m 0 true in
  let? (d, _) := add_conditional d m 0 choice in
  Some d.
(** 302-309: modsub_vartime. *)
Definition modsub_vartime (x y m : int256) : option int256 :=
  let? (diff, borrow) := sub x y in
  if negb (borrow =? 0) then let? (s, _) := add diff m in Some s else Some diff.
(** 292-299: modadd_vartime. *)
Definition modadd_vartime (x y m : int256) : option int256 :=
  let? (sum, carry) := add x y in
  let? tmp := (if negb (carry =? 0) then let? (d, _) := sub sum m in Some d else Some sum) in
  modsub_vartime tmp m m.
(** 501-523: ct_lt. *)
Definition ct_lt (x y : int256) : option bool :=
  let? (_, c) := loop sub_step 0 x y in Some (Z.land c 1 =? 1).

(** ** Multiplication *)

(** 368-379: mul_add. *)
Definition mul_step (factor c a b : Z) : option Z :=
  let? c := u64 (c + a) in let? p := u64 (b * factor) in u64 (c + p).
Definition mul_add (dst src : list Z) (factor : Z) : option (list Z * Z) :=
  let? (r, c) := loop (mul_step factor) 0 dst src in Some (r, c mod B).
(** 384-402: sub_top. *)
Definition sub_top (dst src : list Z) (top src_top : Z) : option (list Z * Z) :=
  let? (r, c) := loop (fun c a b => let? c := i64 (c + a) in i64 (c - b)) 0 dst src in
  let? c := i64 (c + top) in let? c := i64 (c - src_top) in
  Some (r, c mod B).
(** The 8 digits of the buffer from [i] on, and their replacement. *)
Definition window (tmp : list Z) (i : nat) : list Z := firstn 8 (skipn i tmp).
Definition put (tmp : list Z) (i : nat) (w : list Z) : list Z := firstn i tmp ++ w ++ skipn (i + length w) tmp.
(** 324-329: the first loop of modmul_top, from the digits of b that are left. *)
Fixpoint mul_loop (i : nat) (tmp : list Z) (top : Z) (a : int256) (b : list Z) : option (list Z * Z) :=
  match b with
  | [] => Some (tmp, top)
  | f :: b' =>
      let tmp := if Nat.eqb i 0 then tmp else put tmp (i + 7) [top] in
      let? (w, top) := mul_add (window tmp i) a f in
      mul_loop (S i) (put tmp i w) top a b'
  end.
(** 335-357: the second loop, with its index counting down. *)
Fixpoint reduce (i : nat) (tmp : list Z) (top : Z) (m : int256) : option (list Z) :=
  let? (reducer, top_reducer) := mul_add c_ZERO m top in
  let? (w, top) := sub_top (window tmp i) reducer top top_reducer in
  let? (w, _) := sub_conditional w m top (top =? 1) in
  let tmp := put tmp i w in
  match i with
  | O => Some tmp
  | S i' => reduce i' tmp (nth (i + 7) tmp 0) m
  end.
(** 319-365: modmul_top. *)
Definition modmul_top (a b : int256) (top_b : Z) (m : int256) : option int256 :=
  let? (tmp, top) := mul_loop 0 (repeat 0 17) 0 a b in
  let tmp := put tmp 15 [top] in
  let? (w, top) := mul_add (window tmp 8) a top_b in
  let? tmp := reduce 8 (put tmp 8 w) top m in
  let? (w, choice) := sub_conditional (window tmp 0) m 0 true in
  let? (w, _) := add_conditional w m 0 choice in
  Some w.
(** 313-315: modmul. *)
Definition modmul (a b m : int256) : option int256 := modmul_top a b 0 m.

(** ** Exponentiation *)

(** 423-427: the table of powers; [t] is its last entry, [n] more follow. *)
Fixpoint powers (n : nat) (x m t : int256) : option (list int256) :=
  match n with
  | O => Some [t]
  | S n' => let? t' := modmul t x m in let? l := powers n' x m t' in Some (t :: l)
  end.
(** 436-439: four bits of the exponent, the highest of which is [i - 1]. *)
Definition nibble (power : int256) (i : nat) : Z :=
  Z.lor (Z.lor (Z.lor (Z.shiftl (bit power (i - 1)) 3) (Z.shiftl (bit power (i - 2)) 2))
               (Z.shiftl (bit power (i - 3)) 1)) (bit power (i - 4)).
(** 430-445: the loop; [n] groups of four bits are left. *)
Fixpoint pow_loop (n : nat) (tbl : list int256) (power m result : int256) : option int256 :=
  match n with
  | O => Some result
  | S n' =>
      let? r := modmul result result m in
      let? r := modmul r r m in
      let? r := modmul r r m in
      let? r := modmul r r m in
      let idx := nibble power (4 * n) in
      let tbl0 := if idx =? 0 then c_ONE else nth (Z.to_nat idx - 1) tbl c_ZERO in
      let? t := modmul tbl0 r m in
      pow_loop n' tbl power m (if idx =? 0 then r else t)
  end.
(** 419-449: modpow. *)
Definition modpow (x power m : int256) : option int256 :=
  let? tbl := powers 14 x m x in
  pow_loop 64 tbl power m c_ONE.

(** ** Exponents and field elements *)

(** exponent256.rs 133-136, with 43-45: NonZeroExponentP256::from_int_checked. *)
Definition nonzero_checked (x : int256) : option (option int256) :=
  let? lt := ct_lt x c_N in Some (if lt && negb (is_zero x) then Some x else None).
(** exponent256.rs 114-130: gen_uniform on one draw; Some None: another draw follows. *)
Definition gen_uniform (x : int256) : option (option int256) :=
  let? gt := ct_lt c_N_MIN_2 x in
  if gt : bool then Some None else let? (r, _) := add_digit x 1 in Some (Some r).
(** exponent256.rs 149-155: inv. *)
Definition inv (x : int256) : option int256 := modpow x c_N_MIN_2 c_N.

(** gfp256.rs 38-44: from_int_checked. *)
Definition field_checked (x : int256) : option (option int256) :=
  let? lt := ct_lt x c_P in Some (if lt then Some x else None).
(** [==] of arrays of digits. *)
Fixpoint digits_eqb (x y : list Z) : bool :=
  match x, y with
  | [], [] => true
  | a :: x', b :: y' => (a =? b) && digits_eqb x' y'
  | _, _ => false
  end.
(** gfp256.rs 68-90: is_valid_point_vartime. *)
Definition is_valid_point (x y : int256) : option bool :=
  if is_zero x || is_zero y then Some false
  else
    let? y2 := modmul y y c_P in
    let? x2 := modmul x x c_P in
    let? x3 := modmul x2 x c_P in
    let? t := modsub_vartime x3 x c_P in
    let? t := modsub_vartime t x c_P in
    let? t := modsub_vartime t x c_P in
    let? t := modadd_vartime t c_B c_P in
    Some (digits_eqb t y2).
(** point.rs 61-69: new_checked_vartime. *)
Definition point_checked (x y : int256) : option bool :=
  let? gx := field_checked x in
  let? gy := field_checked y in
  match gx, gy with
  | Some x, Some y => is_valid_point x y
  | _, _ => Some false
  end.

(** ** Signatures (ecdsa.rs) *)

Record signature := mkSig { sig_r : int256; sig_s : int256 }.
(** 180-206: to_asn1_der. *)
Definition to_asn1_der (g : signature) : bytes :=
  let r := to_minimal_encoding (sig_r g) in
  let s := to_minimal_encoding (sig_s g) in
  [0x30%N; ((Nlen r + Nlen s + 4) mod 256)%N] ++ [0x02%N; (Nlen r mod 256)%N] ++ r ++
  [0x02%N; (Nlen s mod 256)%N] ++ s.
(** 209-220: from_bytes. *)
Definition sig_from_bytes (b : bytes) : option (option signature) :=
  let? r := nonzero_checked (from_bin (firstn 32 b)) in
  let? s := nonzero_checked (from_bin (firstn 32 (skipn 32 b))) in
  Some (match r, s with Some r, Some s => Some (mkSig r s) | _, _ => None end).
(** 222-229: to_bytes. *)
Definition sig_to_bytes (g : signature) : bytes := to_bin (sig_r g) ++ to_bin (sig_s g).
(** 158-172: SecKey::from_bytes and to_bytes. *)
Definition key_from_bytes (b : bytes) : option (option int256) := nonzero_checked (from_bin b).
