(** What the representations of points stand for. *)
From Verif Require Import Base Point.Model.
From Verif Require Int.Spec Curve.Spec Field.Spec.
Open Scope Z_scope.

Notation value := Int.Spec.value.
Notation is_int256 := Int.Spec.is_int256.
Notation point := Curve.Spec.point.
Notation Infinity := Curve.Spec.Infinity.
Notation Affine := Curve.Spec.Affine.
Notation valid := Curve.Spec.valid.
Notation plus := Curve.Spec.plus.
Notation opposite := Curve.Spec.opposite.
Notation times := Curve.Spec.times.
Notation G := Curve.Spec.G.
Notation p := Int.Spec.p.
Notation n := Int.Spec.n.

(** The sum of k times P, for a number k that is not negative. *)
Definition mult (k : Z) (P : point) : point := times (Z.to_nat k) P.

(** A PointP256 holds the two coordinates, or twice zero for the point at infinity (lines 42-46). *)
Definition coordinates (P : point) : Z * Z := match P with Curve.Spec.Infinity => (0, 0) | Curve.Spec.Affine x y => (x, y) end.
Definition holds (P : point_p256) (A : point) : Prop :=
  is_int256 (px P) /\ is_int256 (py P) /\ (value (px P), value (py P)) = coordinates A.
(** A PointProjective stands for (X / Z, Y / Z), or for the point at infinity when Z = 0 <> Y and X = 0. *)
Definition stands (P : projective) (A : point) : Prop :=
  exists X Y Z, Field.Spec.represents (jx P) X /\ Field.Spec.represents (jy P) Y /\ Field.Spec.represents (jz P) Z /\
    match A with
    | Curve.Spec.Infinity => X = 0 /\ Y <> 0 /\ Z = 0
    | Curve.Spec.Affine x y => Z <> 0 /\ X = (x * Z) mod p /\ Y = (y * Z) mod p
    end.
(** A PointAffine. *)
Definition stands_affine (P : affine) (A : point) : Prop :=
  match A with
  | Curve.Spec.Infinity => False
  | Curve.Spec.Affine x y => Field.Spec.represents (ax P) x /\ Field.Spec.represents (ay P) y
  end.
