(** Points of the curve P-256 (libraries/crypto/src/ec/point.rs).
    [ck] is that of Field/Model.v: with it an overflow panics.  None is a panic.
    Constant-time selections are if-then-else. *)
From Verif Require Import Base Field.Model Point.Table.
From Verif Require Int.Model.
Open Scope Z_scope.

(** 33-36: PointP256; the two coordinates, below p. *)
Record point_p256 := mkPoint { px : Int.Model.int256; py : Int.Model.int256 }.
(** 144-148: PointProjective. *)
Record projective := mkProj { jx : limbs; jy : limbs; jz : limbs }.
(** 164-167: PointAffine. *)
Record affine := mkAff { ax : limbs; ay : limbs }.

(** 150-158: conditional_assign of PointProjective, from conditional_select. *)
Definition assign (a b : projective) (choice : bool) : projective :=
  mkProj (select (jx a) (jx b) choice) (select (jy a) (jy b) choice) (select (jz a) (jz b) choice).
(** 178-184: PointProjective::from_affine. *)
Definition proj_of_affine (a : affine) : projective := mkProj (ax a) (ay a) c_ONE.
(** 323-327, 438-442 and 451-455. *)
Definition proj_ZERO : projective := mkProj c_ZERO c_ZERO c_ZERO.

Section Checks.
Variable ck : bool.
Notation "x ** y" := (mul ck x y) (at level 40).

(** 222-271: add_mixed. *)
Definition add_mixed (s : projective) (o : affine) : option projective :=
  let? t0 := jx s ** ax o in
  let? t1 := jy s ** ay o in
  let t2 := jz s in
  let? t3 := add ck (jx s) (jy s) in
  let? t4 := add ck (ax o) (ay o) in
  let? t3 := t3 ** t4 in
  let? t4 := add ck t0 t1 in
  let? t3 := sub ck t3 t4 in
  let? t4 := ay o ** jz s in
  let? t4 := add ck t4 (jy s) in
  let? y := ax o ** jz s in
  let? y := add ck y (jx s) in
  let? z := c_B ** t2 in
  let? x := sub ck y z in
  let? x := mul_scalar3 ck x in
  let? z := sub ck t1 x in
  let? x := add ck t1 x in
  let? y := c_B ** y in
  let? t2 := mul_scalar3 ck t2 in
  let? y := sub ck y t2 in
  let? y := sub ck y t0 in
  let? y := mul_scalar3 ck y in
  let? t0 := mul_scalar3 ck t0 in
  let? t0 := sub ck t0 t2 in
  let? t1 := t4 ** y in
  let? t2 := t0 ** y in
  let? y := x ** z in
  let? y := add ck y t2 in
  let? x := t3 ** x in
  let? x := sub ck x t1 in
  let? z := t4 ** z in
  let? t1 := t3 ** t0 in
  let? z := add ck z t1 in
  Some (mkProj x y z).

(** 274-319: double. *)
Definition double (s : projective) : option projective :=
  let? t0 := square ck (jx s) in
  let? t1 := square ck (jy s) in
  let? t2 := square ck (jz s) in
  let? t3 := jx s ** jy s in
  let? t3 := mul_scalar2 ck t3 in
  let? z := jx s ** jz s in
  let? z := mul_scalar2 ck z in
  let? y := c_B ** t2 in
  let? y := sub ck y z in
  let? y := mul_scalar3 ck y in
  let? x := sub ck t1 y in
  let? y := add ck t1 y in
  let? y := x ** y in
  let? x := x ** t3 in
  let? t2 := mul_scalar3 ck t2 in
  let? z := c_B ** z in
  let? z := sub ck z t2 in
  let? z := sub ck z t0 in
  let? z := mul_scalar3 ck z in
  let? t0 := mul_scalar3 ck t0 in
  let? t0 := sub ck t0 t2 in
  let? t0 := t0 ** z in
  let? y := add ck y t0 in
  let? t0 := jy s ** jz s in
  let? t0 := mul_scalar2 ck t0 in
  let? z := t0 ** z in
  let? x := sub ck x z in
  let? z := t0 ** t1 in
  let? z := mul_scalar4 ck z in
  Some (mkProj x y z).

(** 491-548: Add for PointProjective. *)
Definition padd (s o : projective) : option projective :=
  let? t0 := jx s ** jx o in
  let? t1 := jy s ** jy o in
  let? t2 := jz s ** jz o in
  let? t3 := add ck (jx s) (jy s) in
  let? t4 := add ck (jx o) (jy o) in
  let? t3 := t3 ** t4 in
  let? t4 := add ck t0 t1 in
  let? t3 := sub ck t3 t4 in
  let? t4 := add ck (jy s) (jz s) in
  let? x := add ck (jy o) (jz o) in
  let? t4 := t4 ** x in
  let? x := add ck t1 t2 in
  let? t4 := sub ck t4 x in
  let? x := add ck (jx s) (jz s) in
  let? y := add ck (jx o) (jz o) in
  let? x := x ** y in
  let? y := add ck t0 t2 in
  let? y := sub ck x y in
  let? z := c_B ** t2 in
  let? x := sub ck y z in
  let? x := mul_scalar3 ck x in
  let? z := sub ck t1 x in
  let? x := add ck t1 x in
  let? y := c_B ** y in
  let? t2 := mul_scalar3 ck t2 in
  let? y := sub ck y t2 in
  let? y := sub ck y t0 in
  let? y := mul_scalar3 ck y in
  let? t0 := mul_scalar3 ck t0 in
  let? t0 := sub ck t0 t2 in
  let? t1 := t4 ** y in
  let? t2 := t0 ** y in
  let? y := x ** z in
  let? y := add ck y t2 in
  let? x := t3 ** x in
  let? x := sub ck x t1 in
  let? z := t4 ** z in
  let? t1 := t3 ** t0 in
  let? z := add ck z t1 in
  Some (mkProj x y z).

(** 197-202: PointProjective::to_affine. *)
Definition to_affine (s : projective) : option affine :=
  let? zinv := inv ck (jz s) in
  let? x := jx s ** zinv in
  let? y := jy s ** zinv in
  Some (mkAff x y).

(** 205-218: PointProjective::select_point. *)
Definition select_proj (table : list projective) (index : Z) : projective :=
  fold_left (fun point i => assign point (nth i table proj_ZERO) (Z.of_nat i + 1 =? index)) (seq 0 15) proj_ZERO.
(** 423-434: PointAffine::select_point, on PRECOMPUTED[t]. *)
Definition select_affine (t : nat) (index : Z) : affine :=
  fold_left (fun point i => let choice := Z.of_nat i + 1 =? index in
               mkAff (select (ax point) (fst (PRECOMPUTED t i)) choice) (select (ay point) (snd (PRECOMPUTED t i)) choice))
            (seq 0 15) (mkAff c_ZERO c_ZERO).

(** 446-449: the other entries of the table of scalar_mul; [l] are those before i, of which [k] pairs are missing. *)
Fixpoint precomp (k : nat) (s : affine) (l : list projective) : option (list projective) :=
  match k with
  | O => Some l
  | S k' =>
      let? d := double (nth (length l / 2) l proj_ZERO) in
      let? e := add_mixed d s in
      precomp k' s (l ++ [d; e])
  end.
(** 460-463: n = n.double(), four times. *)
Definition double4 (n : projective) : option projective :=
  let? n := double n in
  let? n := double n in
  let? n := double n in
  double n.
(** 458-479: the loop of scalar_mul, for i = 256 - 4 k and following ones. *)
Fixpoint mul_windows (k : nat) (table : list projective) (scalar : Int.Model.int256) (n : projective) (n_is_inf : bool)
  : option projective :=
  match k with
  | O => Some n
  | S k' =>
      let i := (256 - 4 * k)%nat in
      let? n := if (i =? 0)%nat then Some n else double4 n in
      let bit j := Int.Model.bit scalar j in
      let index := Z.lor (Z.lor (Z.lor (Z.shiftl (bit (255 - i)%nat) 3) (Z.shiftl (bit (255 - i - 1)%nat) 2))
                                (Z.shiftl (bit (255 - i - 2)%nat) 1)) (bit (255 - i - 3)%nat) in
      let q := select_proj table index in
      let? t := padd n q in
      let n := assign n q n_is_inf in
      let q_is_inf := index =? 0 in
      let n := assign n t (negb (q_is_inf || n_is_inf)) in
      mul_windows k' table scalar n (n_is_inf && q_is_inf)
  end.
(** 437-482: scalar_mul. *)
Definition scalar_mul (s : affine) (scalar : Int.Model.int256) : option projective :=
  let? table := precomp 7 s [proj_of_affine s] in
  mul_windows 64 table scalar proj_ZERO true.

(** 335-352: the inner loop of scalar_base_mul; [ts] are the values of table_offset. *)
Fixpoint base_tables (ts : list nat) (i : nat) (scalar : Int.Model.int256) (n : projective) (n_is_inf : bool)
  : option (projective * bool) :=
  match ts with
  | [] => Some (n, n_is_inf)
  | t :: ts' =>
      let j := (32 * t)%nat in
      let bit0 := Int.Model.bit scalar (31 - i + j) in
      let bit1 := Int.Model.bit scalar (95 - i + j) in
      let bit2 := Int.Model.bit scalar (159 - i + j) in
      let bit3 := Int.Model.bit scalar (223 - i + j) in
      let index := Z.lor (Z.lor (Z.lor bit0 (Z.shiftl bit1 1)) (Z.shiftl bit2 2)) (Z.shiftl bit3 3) in
      let q := select_affine t index in
      let? u := add_mixed n q in
      let n := assign n (proj_of_affine q) n_is_inf in
      let q_is_inf := index =? 0 in
      let n := assign n u (negb (q_is_inf || n_is_inf)) in
      base_tables ts' i scalar n (n_is_inf && q_is_inf)
  end.
(** 330-353: the outer loop, for i = 32 - k and following ones. *)
Fixpoint base_rounds (k : nat) (scalar : Int.Model.int256) (n : projective) (n_is_inf : bool) : option projective :=
  match k with
  | O => Some n
  | S k' =>
      let i := (32 - k)%nat in
      let? n := if (i =? 0)%nat then Some n else double n in
      let? (n, n_is_inf) := base_tables [0; 1]%nat i scalar n n_is_inf in
      base_rounds k' scalar n n_is_inf
  end.
(** 322-356: scalar_base_mul. *)
Definition scalar_base_mul (scalar : Int.Model.int256) : option projective := base_rounds 32 scalar proj_ZERO true.

(** 80-89: PointP256::from_projective and from_affine. *)
Definition from_projective (s : projective) : option point_p256 :=
  let? a := to_affine s in
  let? x := montgomery_to_field (ax a) in
  let? y := montgomery_to_field (ay a) in
  Some (mkPoint x y).
(** 91-96: PointP256::to_affine. *)
Definition point_to_affine (P : point_p256) : option affine :=
  let? x := field_to_montgomery (px P) in
  let? y := field_to_montgomery (py P) in
  Some (mkAff x y).
(** 113-116: base_point_mul. *)
Definition base_point_mul (k : Int.Model.int256) : option point_p256 :=
  let? s := scalar_base_mul k in from_projective s.
(** 118-122: mul. *)
Definition point_mul (P : point_p256) (k : Int.Model.int256) : option point_p256 :=
  let? a := point_to_affine P in
  let? s := scalar_mul a k in
  from_projective s.
(** 125-132: points_mul. *)
Definition points_mul (P : point_p256) (n1 n2 : Int.Model.int256) : option point_p256 :=
  let? a := point_to_affine P in
  let? p1 := scalar_base_mul n1 in
  let? p2 := scalar_mul a n2 in
  let? s := padd p1 p2 in
  from_projective s.
(** 560-564: PartialEq. *)
Definition point_eqb (P Q : point_p256) : bool :=
  Int.Model.digits_eqb (px P) (px Q) && Int.Model.digits_eqb (py P) (py Q).
End Checks.
