(** What the limbs of a field element stand for, written without the code.
    The prime p is that of Int/Spec.v (SEC 2 version 2.0, section 2.4.2). *)
From Verif Require Import Base.
From Verif Require Int.Spec.
Open Scope Z_scope.

Notation p := Int.Spec.p.

(** Nine limbs; the limb with index i counts multiples of 2 to the i-th of these positions. *)
Definition positions : list Z := [0; 29; 57; 86; 114; 143; 171; 200; 228].
Definition number (l : list Z) : Z :=
  fold_right Z.add 0 (map (fun '(d, k) => d * 2 ^ k) (combine l positions)).

(** The limbs that the code works with: one bit more than the distance of the positions, except for the
    last limb. *)
Definition is_limbs (l : list Z) : Prop :=
  length l = 9%nat /\
  (forall i, (i < 9)%nat -> 0 <= nth i l 0 < (if Nat.even i then 2 ^ 30 else 2 ^ 29)) /\
  nth 8 l 0 < 2 ^ 29.

(** The limbs stand for the element x of the field: the number is x * 2^257 modulo p. *)
Definition represents (l : list Z) (x : Z) : Prop :=
  is_limbs l /\ 0 <= x < p /\ number l mod p = (x * 2 ^ 257) mod p.
