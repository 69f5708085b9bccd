(** Field elements in Montgomery form (libraries/crypto/src/ec/montgomery.rs).
    Limbs are integers between 0 and 2^32 - 1, least significant first.  [ck] tells how the code is
    compiled: without overflow checks (release builds) the operators + - * wrap around, with them
    (debug builds) an overflow panics.  None is such a panic, or a loop that does not end.
    Constant-time selections are if-then-else. *)
From Verif Require Import Base.
From Verif Require Int.Model.
Open Scope Z_scope.

Notation "'let?' x ':=' m 'in' k" := (match m with Some x => k | None => None end)
  (at level 200, x pattern, m at level 100, k at level 200, right associativity).

(** 31-34: Montgomery; its limbs. *)
Definition limbs := list Z.
(** 22-24. *)
Definition NLIMBS : nat := 9.
Definition BOTTOM_28_BITS : Z := 0x0fffffff.
Definition BOTTOM_29_BITS : Z := 0x1fffffff.
(** The width of a limb and its mask; [even] tells whether the index is even. *)
Definition bits (even : bool) : Z := if even then 29 else 28.
Definition mask (even : bool) (x : Z) : Z := Z.land x (if even then BOTTOM_29_BITS else BOTTOM_28_BITS).
(** x << k on u32: bits are lost silently.  x as u32, and (x >> 32) as u32, for a u64. *)
Definition shl32 (x k : Z) : Z := Z.shiftl x k mod 2 ^ 32.
Definition shl64 (x k : Z) : Z := Z.shiftl x k mod 2 ^ 64.
Definition lo (x : Z) : Z := x mod 2 ^ 32.
Definition hi (x : Z) : Z := Z.shiftr x 32 mod 2 ^ 32.

(** 49-105: constants. *)
Definition c_ZERO : limbs := [0; 0; 0; 0; 0; 0; 0; 0; 0].
Definition c_ONE : limbs :=
  [0x00000002; 0x00000000; 0x00000000; 0x0ffff800; 0x1fffffff; 0x0fffffff; 0x1fbfffff; 0x01ffffff; 0x00000000].
Definition c_A : limbs :=
  [0x1ffffff8; 0x0fffffff; 0x1fffffff; 0x10001fff; 0x1fffffff; 0x0fffffff; 0x20ffffff; 0x07ffffff; 0x1fffffff].
Definition c_B : limbs :=
  [0x13897bbf; 0x09cdf622; 0x043090d8; 0x002e67c4; 0x176b5678; 0x02afdc84; 0x0d196888; 0x0b090e90; 0x0b8600c3].
Definition c_THREE_B : limbs :=
  [0x1a9c733f; 0x0d69e267; 0x0c91b289; 0x108b2f4c; 0x26420367; 0x180f958d; 0x270c3997; 0x031b2bb0; 0x0292024b].
Definition c_P : limbs :=
  [0x1fffffff; 0x0fffffff; 0x1fffffff; 0x000003ff; 0x00000000; 0x00000000; 0x00200000; 0x0f000000; 0x0fffffff].
Definition c_TWO_P : limbs :=
  [0x1ffffffe; 0x0fffffff; 0x1fffffff; 0x000007ff; 0x00000000; 0x00000000; 0x00400000; 0x0e000000; 0x1fffffff].
Definition c_ZERO31 : limbs :=
  [2 ^ 31 - 2 ^ 3; 2 ^ 30 - 2 ^ 2; 2 ^ 31 - 2 ^ 2; 2 ^ 30 + 2 ^ 13 - 2 ^ 2; 2 ^ 31 - 2 ^ 2; 2 ^ 30 - 2 ^ 2;
   2 ^ 31 + 2 ^ 24 - 2 ^ 2; 2 ^ 30 - 2 ^ 27 - 2 ^ 2; 2 ^ 31 - 2 ^ 2].

(** 36-45: conditional_select. *)
Definition select (a b : limbs) (choice : bool) : limbs := if choice then b else a.

(** limbs[i], and limbs[i] = v. *)
Definition at_ (l : limbs) (i : nat) : Z := nth i l 0.
Fixpoint put (l : limbs) (i : nat) (v : Z) : limbs :=
  match l, i with
  | [], _ => []
  | _ :: l', O => v :: l'
  | x :: l', S i' => x :: put l' i' v
  end.
(** [==] of arrays of limbs. *)
Fixpoint limbs_eqb (a b : limbs) : bool :=
  match a, b with
  | [], [] => true
  | x :: a', y :: b' => (x =? y) && limbs_eqb a' b'
  | _, _ => false
  end.

(** The products that make up big_limbs: (i, j, s) stands for self.get64(i) * (other.get64(j) << s).
    682-758 (mul) and 162-203 (square). *)
Definition mul_terms : list (list (nat * nat * nat)) :=
  [ [(0, 0, 0)];
    [(0, 1, 0); (1, 0, 0)];
    [(0, 2, 0); (1, 1, 1); (2, 0, 0)];
    [(0, 3, 0); (1, 2, 0); (2, 1, 0); (3, 0, 0)];
    [(0, 4, 0); (1, 3, 1); (2, 2, 0); (3, 1, 1); (4, 0, 0)];
    [(0, 5, 0); (1, 4, 0); (2, 3, 0); (3, 2, 0); (4, 1, 0); (5, 0, 0)];
    [(0, 6, 0); (1, 5, 1); (2, 4, 0); (3, 3, 1); (4, 2, 0); (5, 1, 1); (6, 0, 0)];
    [(0, 7, 0); (1, 6, 0); (2, 5, 0); (3, 4, 0); (4, 3, 0); (5, 2, 0); (6, 1, 0); (7, 0, 0)];
    [(0, 8, 0); (1, 7, 1); (2, 6, 0); (3, 5, 1); (4, 4, 0); (5, 3, 1); (6, 2, 0); (7, 1, 1); (8, 0, 0)];
    [(1, 8, 0); (2, 7, 0); (3, 6, 0); (4, 5, 0); (5, 4, 0); (6, 3, 0); (7, 2, 0); (8, 1, 0)];
    [(2, 8, 0); (3, 7, 1); (4, 6, 0); (5, 5, 1); (6, 4, 0); (7, 3, 1); (8, 2, 0)];
    [(3, 8, 0); (4, 7, 0); (5, 6, 0); (6, 5, 0); (7, 4, 0); (8, 3, 0)];
    [(4, 8, 0); (5, 7, 1); (6, 6, 0); (7, 5, 1); (8, 4, 0)];
    [(5, 8, 0); (6, 7, 0); (7, 6, 0); (8, 5, 0)];
    [(6, 8, 0); (7, 7, 1); (8, 6, 0)];
    [(7, 8, 0); (8, 7, 0)];
    [(8, 8, 0)] ]%nat.

Definition square_terms : list (list (nat * nat * nat)) :=
  [ [(0, 0, 0)];
    [(0, 1, 1)];
    [(0, 2, 1); (1, 1, 1)];
    [(0, 3, 1); (1, 2, 1)];
    [(0, 4, 1); (1, 3, 2); (2, 2, 0)];
    [(0, 5, 1); (1, 4, 1); (2, 3, 1)];
    [(0, 6, 1); (1, 5, 2); (2, 4, 1); (3, 3, 1)];
    [(0, 7, 1); (1, 6, 1); (2, 5, 1); (3, 4, 1)];
    [(0, 8, 1); (1, 7, 2); (2, 6, 1); (3, 5, 2); (4, 4, 0)];
    [(1, 8, 1); (2, 7, 1); (3, 6, 1); (4, 5, 1)];
    [(2, 8, 1); (3, 7, 2); (4, 6, 1); (5, 5, 1)];
    [(3, 8, 1); (4, 7, 1); (5, 6, 1)];
    [(4, 8, 1); (5, 7, 2); (6, 6, 0)];
    [(5, 8, 1); (6, 7, 1)];
    [(6, 8, 1); (7, 7, 1)];
    [(7, 8, 1)];
    [(8, 8, 0)] ]%nat.

Section Checks.
Variable ck : bool.

(** The operators + - * on u32 and u64. *)
Definition arith (x : Z) : option Z :=
  if ck && negb ((0 <=? x) && (x <? 2 ^ 32)) then None else Some (x mod 2 ^ 32).
Definition arith64 (x : Z) : option Z :=
  if ck && negb ((0 <=? x) && (x <? 2 ^ 64)) then None else Some (x mod 2 ^ 64).
(** limbs[i] += v, limbs[i] -= v, and limbs[i] = limbs[i].wrapping_add(v). *)
Definition add_at (l : limbs) (i : nat) (v : Z) : option limbs :=
  let? s := arith (at_ l i + v) in Some (put l i s).
Definition sub_at (l : limbs) (i : nat) (v : Z) : option limbs :=
  let? s := arith (at_ l i - v) in Some (put l i s).
Definition wrapping_add_at (l : limbs) (i : nat) (v : Z) : option limbs :=
  Some (put l i ((at_ l i + v) mod 2 ^ 32)).

(** ** Reduction *)

(** 443-454: reduce_carry. *)
Definition reduce_carry (l : limbs) (carry : Z) : option limbs :=
  let z := carry =? 0 in
  let? l := add_at l 0 (shl32 carry 1) in
  let? l := add_at l 3 (if z then 0 else 0x10000000) in
  let? l := sub_at l 3 (shl32 carry 11) in
  let? l := add_at l 4 (if z then 0 else 0x20000000 - 1) in
  let? l := add_at l 5 (if z then 0 else 0x10000000 - 1) in
  let? l := add_at l 6 (if z then 0 else 0x20000000 - 1) in
  let? l := sub_at l 6 (shl32 carry 22) in
  let? l := add_at l 7 (shl32 carry 25) in
  sub_at l 7 (if z then 0 else 1).

(** 479-497: the loop of propagate_carry; the list is big_limbs[i - 2], big_limbs[i - 1], big_limbs[i], ...
    and [even] tells whether i is even.  At the end, 498-501: limbs[17]. *)
Fixpoint propagate_loop (even : bool) (carry : Z) (big : list Z) : option limbs :=
  match big with
  | b2 :: ((b1 :: b0 :: _) as rest) =>
      let s := Z.shiftr (hi b2) 25 in
      let? s := arith (s + Z.shiftr (lo b1) (bits (negb even))) in
      let? s := arith (s + mask even (shl32 (hi b1) (if even then 4 else 3))) in
      let? s := arith (s + mask even (lo b0)) in
      let? s := arith (s + carry) in
      let? r := propagate_loop (negb even) (Z.shiftr s (bits even)) rest in
      Some (mask even s :: r)
  | [b15; b16] =>
      let s := Z.shiftr (hi b15) 25 in
      let? s := arith (s + Z.shiftr (lo b16) 29) in
      let? s := arith (s + shl32 (hi b16) 3) in
      let? s := arith (s + carry) in
      Some [s]
  | _ => Some []
  end.
(** 465-504: propagate_carry. *)
Definition propagate_carry (big : list Z) : option limbs :=
  let b0 := at_ big 0 in let b1 := at_ big 1 in
  let l0 := mask true (lo b0) in
  let l1 := Z.shiftr (lo b0) 29 in
  let l1 := Z.lor l1 (mask false (shl32 (hi b0) 3)) in
  let? l1 := arith (l1 + mask false (lo b1)) in
  let? r := propagate_loop true (Z.shiftr l1 28) big in
  Some (l0 :: mask false l1 :: r).

(** 513-538: the first half of the loop of eliminate_terms. *)
Definition eliminate_even (i : nat) (l : limbs) : option limbs :=
  let? l := add_at l (i + 1) (Z.shiftr (at_ l i) 29) in
  let x := mask true (at_ l i) in
  let z := x =? 0 in
  let l := put l i 0 in
  let? l := add_at l (i + 3) (mask false (shl32 x 10)) in
  let? l := add_at l (i + 4) (Z.shiftr x 18) in
  let? l := add_at l (i + 6) (mask true (shl32 x 21)) in
  let? l := add_at l (i + 7) (Z.shiftr x 8) in
  let? l := add_at l (i + 7) (if z then 0 else 0x10000000) in
  let? l := add_at l (i + 8) (if z then 0 else (x - 1) mod 2 ^ 32) in
  let? l := sub_at l (i + 7) (mask false (shl32 x 24)) in
  let? l := sub_at l (i + 8) (Z.shiftr x 4) in
  let? l := add_at l (i + 8) (if z then 0 else 0x20000000) in
  let? l := sub_at l (i + 8) x in
  let? l := add_at l (i + 8) (mask true (shl32 x 28)) in
  wrapping_add_at l (i + 9) (if z then 0 else (Z.shiftr x 1 - 1) mod 2 ^ 32).
(** 544-562: the second half. *)
Definition eliminate_odd (i : nat) (l : limbs) : option limbs :=
  let? l := add_at l (i + 2) (Z.shiftr (at_ l (i + 1)) 28) in
  let x := mask false (at_ l (i + 1)) in
  let z := x =? 0 in
  let l := put l (i + 1) 0 in
  let? l := add_at l (i + 4) (mask true (shl32 x 11)) in
  let? l := add_at l (i + 5) (Z.shiftr x 18) in
  let? l := add_at l (i + 7) (mask false (shl32 x 21)) in
  let? l := add_at l (i + 8) (Z.shiftr x 7) in
  let? l := add_at l (i + 8) (if z then 0 else 0x20000000) in
  let? l := add_at l (i + 9) (if z then 0 else (x - 1) mod 2 ^ 32) in
  let? l := sub_at l (i + 8) (mask true (shl32 x 25)) in
  let? l := sub_at l (i + 9) (Z.shiftr x 4) in
  let? l := add_at l (i + 9) (if z then 0 else 0x10000000) in
  let? l := sub_at l (i + 9) x in
  add_at l (i + 10) (if z then 0 else (x - 1) mod 2 ^ 32).
(** 510-565: eliminate_terms; [n] times both halves and then the first one. *)
Fixpoint eliminate (n : nat) (i : nat) (l : limbs) : option limbs :=
  let? l := eliminate_even i l in
  match n with
  | O => Some l
  | S n' => let? l := eliminate_odd i l in eliminate n' (i + 2) l
  end.
Definition eliminate_terms (l : limbs) : option limbs := eliminate 4 0 l.

(** 572-591: the loop of compact_limbs, on tmp[i + 9], tmp[i + 10], ...; at the end, 593-596: limbs[8]. *)
Fixpoint compact_loop (carry : Z) (tmp : limbs) : option (limbs * Z) :=
  match tmp with
  | a :: b :: tmp' =>
      let? s := arith (a + carry) in
      let? s := arith (s + mask true (shl32 b 28)) in
      let? t := arith (Z.shiftr b 1 + Z.shiftr s 29) in
      let? (r, c) := compact_loop (Z.shiftr t 28) tmp' in
      Some (mask true s :: mask false t :: r, c)
  | [a] => let s := (a + carry) mod 2 ^ 32 in Some ([mask true s], Z.shiftr s 29)
  | [] => Some ([], carry)
  end.
(** 568-601: compact_limbs. *)
Definition compact_limbs (tmp : limbs) : option limbs :=
  let? (r, c) := compact_loop 0 (skipn NLIMBS tmp) in reduce_carry r c.
(** 457-461: reduce_degree. *)
Definition reduce_degree (big : list Z) : option limbs :=
  let? l := propagate_carry big in
  let? l := eliminate_terms l in
  compact_limbs l.

(** ** Arithmetic *)

(** 610-636: Add. *)
Fixpoint add_loop (even : bool) (carry : Z) (a b : limbs) : option (limbs * Z) :=
  match a, b with
  | x :: a', y :: b' =>
      let? s := arith (x + y) in
      let? s := arith (s + carry) in
      let? (r, c) := add_loop (negb even) (Z.shiftr s (bits even)) a' b' in
      Some (mask even s :: r, c)
  | _, _ => Some ([], carry)
  end.
Definition add (a b : limbs) : option limbs := let? (r, c) := add_loop true 0 a b in reduce_carry r c.

(** 646-672: Sub; [z] are the limbs of ZERO31. *)
Fixpoint sub_loop (even : bool) (carry : Z) (a z b : limbs) : option (limbs * Z) :=
  match a, z, b with
  | x :: a', u :: z', y :: b' =>
      let? d := arith (u - y) in
      let? s := arith (x + d) in
      let? s := arith (s + carry) in
      let? (r, c) := sub_loop (negb even) (Z.shiftr s (bits even)) a' z' b' in
      Some (mask even s :: r, c)
  | _, _, _ => Some ([], carry)
  end.
Definition sub (a b : limbs) : option limbs := let? (r, c) := sub_loop true 0 a c_ZERO31 b in reduce_carry r c.

(** 277-305, 335-363, 366-394: mul_scalar2, mul_scalar4 and mul_scalar8, with k = 1, 2, 3. *)
Fixpoint shift_loop (k : Z) (even : bool) (carry : Z) (a : limbs) : option (limbs * Z) :=
  match a with
  | x :: a' =>
      let next_carry := Z.shiftr x (bits even - k) in
      let? s := arith (mask even (shl32 x k) + carry) in
      let? c := arith (next_carry + Z.shiftr s (bits even)) in
      let? (r, c) := shift_loop k (negb even) c a' in
      Some (mask even s :: r, c)
  | [] => Some ([], carry)
  end.
Definition mul_scalar2 (a : limbs) : option limbs := let? (r, c) := shift_loop 1 true 0 a in reduce_carry r c.
Definition mul_scalar4 (a : limbs) : option limbs := let? (r, c) := shift_loop 2 true 0 a in reduce_carry r c.
Definition mul_scalar8 (a : limbs) : option limbs := let? (r, c) := shift_loop 3 true 0 a in reduce_carry r c.

(** 308-332: mul_scalar3, with k = 3; 411-429: the inner loop of reduced_vartime, with k = 1. *)
Fixpoint scale_loop (k : Z) (even : bool) (carry : Z) (a : limbs) : option (limbs * Z) :=
  match a with
  | x :: a' =>
      let? s := arith (x * k) in
      let? s := arith (s + carry) in
      let? (r, c) := scale_loop k (negb even) (Z.shiftr s (bits even)) a' in
      Some (mask even s :: r, c)
  | [] => Some ([], carry)
  end.
Definition mul_scalar3 (a : limbs) : option limbs := let? (r, c) := scale_loop 3 true 0 a in reduce_carry r c.

(** 406-437: reduced_vartime; None if [fuel] rounds are not enough. *)
Fixpoint reduced_vartime (fuel : nat) (a : limbs) : option limbs :=
  match fuel with
  | O => None
  | S fuel' =>
      let? (r, c) := scale_loop 1 true 0 a in
      if c =? 0 then Some r else let? r := reduce_carry r c in reduced_vartime fuel' r
  end.
(** 397-404: is_zero_vartime. *)
Definition is_zero_vartime (fuel : nat) (a : limbs) : option bool :=
  let? t := reduced_vartime fuel a in
  Some (limbs_eqb t c_ZERO || limbs_eqb t c_P || limbs_eqb t c_TWO_P).

(** 153-155 (get64), 679-761 (Mul) and 159-206 (square). *)
Fixpoint sum_terms (a b : limbs) (acc : Z) (ts : list (nat * nat * nat)) : option Z :=
  match ts with
  | [] => Some acc
  | (i, j, s) :: ts' =>
      let? m := arith64 (at_ a i * shl64 (at_ b j) (Z.of_nat s)) in
      let? acc := arith64 (acc + m) in
      sum_terms a b acc ts'
  end.
Fixpoint products (a b : limbs) (tss : list (list (nat * nat * nat))) : option (list Z) :=
  match tss with
  | [] => Some []
  | ts :: tss' =>
      let? s := sum_terms a b 0 ts in
      let? r := products a b tss' in
      Some (s :: r)
  end.
Definition mul (a b : limbs) : option limbs := let? big := products a b mul_terms in reduce_degree big.
Definition square (a : limbs) : option limbs := let? big := products a a square_terms in reduce_degree big.

(** n times tmp = tmp.square(). *)
Fixpoint square_n (n : nat) (a : limbs) : option limbs :=
  match n with
  | O => Some a
  | S n' => let? s := square a in square_n n' s
  end.
(** 208-274: inv. *)
Definition inv (a : limbs) : option limbs :=
  let? tmp := square a in
  let? e2 := mul tmp a in
  let? tmp := square_n 2 e2 in
  let? e4 := mul tmp e2 in
  let? tmp := square_n 4 e4 in
  let? e8 := mul tmp e4 in
  let? tmp := square_n 8 e8 in
  let? e16 := mul tmp e8 in
  let? tmp := square_n 16 e16 in
  let? e32 := mul tmp e16 in
  let? e64 := square_n 32 e32 in
  let? tmp := mul e64 a in
  let? tmp := square_n 192 tmp in
  let? tmp2 := mul e64 e32 in
  let? tmp2 := square_n 16 tmp2 in
  let? tmp2 := mul tmp2 e16 in
  let? tmp2 := square_n 8 tmp2 in
  let? tmp2 := mul tmp2 e8 in
  let? tmp2 := square_n 4 tmp2 in
  let? tmp2 := mul tmp2 e4 in
  let? tmp2 := square_n 2 tmp2 in
  let? tmp2 := mul tmp2 e2 in
  let? tmp2 := square_n 2 tmp2 in
  let? tmp2 := mul tmp2 a in
  mul tmp2 tmp.

End Checks.

(** ** Conversion *)

(** 120-128: the loop of field_to_montgomery. *)
Fixpoint to_limbs (n : nat) (even : bool) (shifted : Int.Model.int256) : limbs :=
  match n with
  | O => []
  | S n' => mask even (nth 0 shifted 0) :: to_limbs n' (negb even) (Int.Model.shr shifted (bits even))
  end.
(** 116-131: field_to_montgomery. *)
Definition field_to_montgomery (gf : Int.Model.int256) : option limbs :=
  let? s := Int.Model.modmul gf Int.Model.c_R Int.Model.c_P in
  Some (to_limbs NLIMBS true s).
(** 137-146: the loop of montgomery_to_field; [n] iterations are left, so that i = n - 1. *)
Fixpoint from_limbs (n : nat) (l : limbs) (result : Int.Model.int256) (top : Z) : option (Int.Model.int256 * Z) :=
  match n with
  | O => Some (result, top)
  | S i =>
      let (tmp, top1) := Int.Model.shl result (bits (Nat.even i)) in
      let? (r, top2) := Int.Model.add_digit tmp (at_ l i) in
      from_limbs i l r (Z.lor top1 top2)
  end.
(** 133-149: montgomery_to_field, with gfp256.rs 57-61 (mul_top). *)
Definition montgomery_to_field (l : limbs) : option Int.Model.int256 :=
  let? (result, _) := Int.Model.add_digit Int.Model.c_ZERO (at_ l (NLIMBS - 1)) in
  let? (result, top) := from_limbs (NLIMBS - 1) l result 0 in
  Int.Model.modmul_top Int.Model.c_R_INV result top Int.Model.c_P.
