(** The curve P-256 (SEC 2 version 2.0, section 2.4.2) and the addition of its points (SEC 1 version 2.0,
    section 2.2.1), on integers modulo p.  The numbers p, n and b and the equation are in Int/Spec.v. *)
From Verif Require Import Base.
From Verif Require Int.Spec.
Open Scope Z_scope.

Notation p := Int.Spec.p.
Notation n := Int.Spec.n.
Notation on_curve := Int.Spec.on_curve.

Inductive point := Infinity | Affine (x y : Z).
Definition valid (P : point) : Prop :=
  match P with
  | Infinity => True
  | Affine x y => 0 <= x < p /\ 0 <= y < p /\ on_curve x y
  end.

(** The inverse modulo p. *)
Definition inverse (x : Z) : Z := x ^ (p - 2) mod p.
(** The slope of the chord, or of the tangent. *)
Definition slope (x1 y1 x2 y2 : Z) : Z :=
  if x1 =? x2 then ((3 * (x1 * x1) - 3) * inverse (2 * y1)) mod p
  else ((y2 - y1) * inverse (x2 - x1)) mod p.
Definition plus (P Q : point) : point :=
  match P, Q with
  | Infinity, _ => Q
  | _, Infinity => P
  | Affine x1 y1, Affine x2 y2 =>
      if (x1 =? x2) && ((y1 + y2) mod p =? 0) then Infinity
      else
        let m := slope x1 y1 x2 y2 in
        let x := (m * m - x1 - x2) mod p in
        Affine x ((m * (x1 - x) - y1) mod p)
  end.
Definition opposite (P : point) : point :=
  match P with Infinity => Infinity | Affine x y => Affine x ((- y) mod p) end.
(** The sum of k times P. *)
Fixpoint times (k : nat) (P : point) : point :=
  match k with O => Infinity | S k' => plus P (times k' P) end.
(** The base point. *)
Definition G : point :=
  Affine 0x6B17D1F2E12C4247F8BCE6E563A440F277037D812DEB33A0F4A13945D898C296
         0x4FE342E2FE1A7F9B8EE7EB4A7C0F9E162BCE33576B315ECECBB6406837BF51F5.
