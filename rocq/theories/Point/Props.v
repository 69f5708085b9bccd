(** C58: points of the curve P-256 are added and multiplied as the standard says. *)
From Verif Require Import Base Field.Model Point.Model Point.Table.
From Verif Require Int.Model Int.Spec Field.Spec Curve.Spec Curve.Link Point.Chain Point.Proofs Point.Mult Point.Coords Point.Zero Prime.Curve Prime.Inverse.
From Verif Require Point.Order.
From Verif Require Import Point.Spec.
From Coq Require Import Lia Znumtheory.
Open Scope Z_scope.
Ltac Zify.zify_post_hook ::= idtac.

(** The specification itself: the points form a commutative group, and inverse is the inverse. *)
Theorem C58_group P Q R : valid P -> valid Q -> valid R ->
  valid (plus P Q) /\ plus P Q = plus Q P /\ plus (plus P Q) R = plus P (plus Q R) /\
  plus P Infinity = P /\ plus Infinity P = P /\ valid (opposite P) /\ plus P (opposite P) = Infinity.
Proof.
  intros VP VQ VR. split; [apply Order.closed; assumption|]. split; [apply Order.commutes; assumption|].
  split; [apply Order.associates; assumption|]. split; [apply Order.neutral|]. split; [reflexivity|].
  split; [apply Order.opposite_closed, VP|apply Order.opposite_sum, VP].
Qed.
Print Assumptions C58_group.
Theorem C58_inverse x : 0 < x < p -> (x * Curve.Spec.inverse x) mod p = 1 /\ 0 < Curve.Spec.inverse x < p.
Proof.
  intros B. pose proof (Prime.Inverse.power_inverse p x Prime.Curve.prime_p256_p B) as E. split; [exact E|].
  unfold Curve.Spec.inverse. set (i := x ^ (p - 2) mod p) in *.
  assert (Bi : 0 <= i < p) by (apply Z.mod_pos_bound; reflexivity). clearbody i. assert (i <> 0); [|lia].
  intros ->. rewrite Z.mul_0_r, Zmod_0_l in E. discriminate E.
Qed.
Print Assumptions C58_inverse.
(** The base point has order n, and n is a prime number. *)
Theorem C58_order : valid G /\ mult n G = Infinity /\ (forall k, 0 < k < n -> mult k G <> Infinity) /\ prime n /\
  forall j k, 0 <= j -> 0 <= k -> (mult j G = mult k G <-> j mod n = k mod n).
Proof.
  split; [exact Order.base_valid|]. split; [exact Order.base_order|]. split; [exact Order.order_least|].
  split; [exact Prime.Curve.prime_p256_n|exact Order.multiples_equal].
Qed.
Print Assumptions C58_order.

(** The three additions work for every two points of the curve, without exception. *)
Theorem C58_add P Q A B : valid A -> valid B -> stands P A -> stands Q B ->
  (exists R, padd false P Q = Some R /\ stands R (plus A B)) /\
  (exists R, double false P = Some R /\ stands R (plus A A)).
Proof.
  intros VA VB SP SQ. pose proof (Order.stands_F P A VA SP) as FP. pose proof (Order.stands_F Q B VB SQ) as FQ.
  pose proof (Curve.Link.ofZ_valid A VA) as WA. pose proof (Curve.Link.ofZ_valid B VB) as WB. split.
  - destruct (Proofs.padd_sum P Q _ _ WA WB FP FQ) as (R & E & S). exists R. split; [exact E|]. apply Order.stands_Z in S.
    rewrite Curve.Link.toZ_plus, !Curve.Link.to_ofZ in S by assumption. exact S.
  - destruct (Proofs.double_sum P _ WA FP) as (R & E & S). exists R. split; [exact E|]. apply Order.stands_Z in S.
    rewrite Curve.Link.toZ_plus, !Curve.Link.to_ofZ in S by assumption. exact S.
Qed.
Print Assumptions C58_add.
Theorem C58_add_mixed P Q A B : valid A -> valid B -> stands P A -> stands_affine Q B ->
  (exists R, add_mixed false P Q = Some R /\ stands R (plus A B)) /\ stands (proj_of_affine Q) B.
Proof.
  intros VA VB SP SQ. pose proof (Order.stands_F P A VA SP) as FP. pose proof (Order.affine_F Q B VB SQ) as FQ.
  pose proof (Curve.Link.ofZ_valid A VA) as WA. pose proof (Curve.Link.ofZ_valid B VB) as WB. split.
  - destruct (Proofs.add_mixed_sum P Q _ _ WA WB FP FQ) as (R & E & S). exists R. split; [exact E|]. apply Order.stands_Z in S.
    rewrite Curve.Link.toZ_plus, !Curve.Link.to_ofZ in S by assumption. exact S.
  - pose proof (Order.stands_Z _ _ (Proofs.of_affine_stands Q _ FQ)) as S. rewrite Curve.Link.to_ofZ in S by assumption. exact S.
Qed.
Print Assumptions C58_add_mixed.
(** From projective coordinates to the numbers of a PointP256. *)
Theorem C58_coordinates P A : valid A -> stands P A -> exists r, from_projective false P = Some r /\ holds r A.
Proof.
  intros V S. destruct (Coords.from_stands P _ (Order.stands_F P A V S)) as (r & E & H). exists r. split; [exact E|].
  rewrite Curve.Link.to_ofZ in H by exact V. exact H.
Qed.
Print Assumptions C58_coordinates.

(** The table in precomputed.rs: the entry e of table t is the sum of 2^(64 k + 32 t) G over the bits k of e. *)
Theorem C58_table t e : (t < 2)%nat -> (1 <= e <= 15)%nat ->
  stands_affine (mkAff (fst (PRECOMPUTED t (e - 1))) (snd (PRECOMPUTED t (e - 1))))
    (mult (fold_right Z.add 0 (map (fun k => if Nat.testbit e k then 2 ^ (64 * Z.of_nat k + 32 * Z.of_nat t) else 0) [0; 1; 2; 3]%nat)) G).
Proof.
  intros Ht He. destruct (Chain.table_entries t e Ht He) as (x & y & E & Rx & Ry).
  replace (fold_right _ _ _) with (Chain.entry t e).
  - rewrite <- Curve.Link.G_Z, <- Coords.toZ_mult, E. cbn [Curve.Link.toZ stands_affine ax ay]. split; [exact Rx|exact Ry].
  - unfold Chain.entry. cbv zeta. cbn [map fold_right]. rewrite Z.add_0_r, !Z.add_assoc. reflexivity.
Qed.
Print Assumptions C58_table.

(** Multiplication of the base point and of any point by any number of 256 bits; no number makes it panic. *)
Theorem C58_base_mul k : is_int256 k ->
  exists r, base_point_mul false k = Some r /\ holds r (mult (value k) G) /\ valid (mult (value k) G).
Proof.
  intros Ik. destruct (Coords.base_point_mul_spec k Ik) as (r & E & H). exists r. split; [exact E|]. split; [exact H|].
  apply Order.multiple_valid, Order.base_valid.
Qed.
Print Assumptions C58_base_mul.
Theorem C58_mul P A k : holds P A -> valid A -> A <> Infinity -> is_int256 k ->
  exists r, point_mul false P k = Some r /\ holds r (mult (value k) A) /\ valid (mult (value k) A).
Proof.
  intros HP V N Ik. destruct (Coords.point_mul_spec P A k HP V N Ik) as (r & E & H). exists r. split; [exact E|]. split; [exact H|].
  apply Order.multiple_valid, V.
Qed.
Print Assumptions C58_mul.
(** n1 G + n2 P, when neither factor is zero. *)
Theorem C58_points_mul P A k1 k2 : holds P A -> valid A -> A <> Infinity -> is_int256 k1 -> is_int256 k2 ->
  value k1 <> 0 -> value k2 <> 0 ->
  exists r, points_mul false P k1 k2 = Some r /\ holds r (plus (mult (value k1) G) (mult (value k2) A)).
Proof. exact (Coords.points_mul_spec P A k1 k2). Qed.
Print Assumptions C58_points_mul.

(** The base point as the library holds it. *)
Definition digits_of (x : Z) : Int.Model.int256 := map (fun k => (x / 2 ^ (32 * Z.of_nat k)) mod 2 ^ 32) (seq 0 8).
Definition base : point_p256 := mkPoint (digits_of Zero.Gx) (digits_of Zero.Gy).
Definition is256 (x : list Z) : bool := (length x =? 8)%nat && forallb (fun d => (0 <=? d) && (d <? 2 ^ 32)) x.
Lemma is256_ok x : is256 x = true -> is_int256 x.
Proof.
  unfold is256. rewrite andb_true_iff, Nat.eqb_eq, forallb_forall. intros (L & D). split; [exact L|]. apply Forall_forall.
  intros d Hd. specialize (D d Hd). rewrite andb_true_iff, Z.leb_le, Z.ltb_lt in D. exact D.
Qed.
Lemma base_holds : holds base G.
Proof. split; [apply is256_ok; vm_compute; reflexivity|]. split; [apply is256_ok; vm_compute; reflexivity|]. vm_compute. reflexivity. Qed.
Definition one : Int.Model.int256 := digits_of 1.
Lemma one_ok : is_int256 one /\ value one = 1.
Proof. split; [apply is256_ok; vm_compute; reflexivity|vm_compute; reflexivity]. Qed.
Lemma zero_ok : is_int256 Int.Model.c_ZERO /\ value Int.Model.c_ZERO = 0.
Proof. split; [apply is256_ok; vm_compute; reflexivity|vm_compute; reflexivity]. Qed.

(** With a zero factor the sum is wrong: 0 G + 1 G is not G. *)
Theorem C58_points_mul_refuted :
  ~ (forall P A k1 k2, holds P A -> valid A -> A <> Infinity -> is_int256 k1 -> is_int256 k2 ->
       exists r, points_mul false P k1 k2 = Some r /\ holds r (plus (mult (value k1) G) (mult (value k2) A))).
Proof.
  intros H. destruct (H base G Int.Model.c_ZERO one base_holds Order.base_valid Order.base_not_infinite (proj1 zero_ok) (proj1 one_ok)) as (r & E & _ & _ & C).
  destruct (Zero.points_mul_zero base one base_holds (proj1 one_ok) (proj2 one_ok)) as (r' & E' & _ & V').
  rewrite E in E'. assert (r = r') as <- by congruence. clear E E' H. rewrite (proj2 one_ok), (proj2 zero_ok) in C.
  change (mult 0 G) with Infinity in C. rewrite Order.multiple_1 in C.
  assert (V : value (px r) = Zero.Gx) by (apply (f_equal fst) in C; exact C). apply Zero.wrong_not_Gx. rewrite <- V'. exact V.
Qed.
Print Assumptions C58_points_mul_refuted.

(** The hypotheses hold of the base point in each of the three forms, of its multiples and of the point at infinity. *)
Example C58_nonvacuous :
  holds base G /\ valid G /\ G <> Infinity /\ is_int256 one /\
  (exists Q, stands_affine Q G) /\ (exists P, stands P G) /\ (exists P, stands P Infinity) /\
  mult 5 G <> Infinity /\ mult 5 G <> mult 6 G /\ valid (mult 5 G) /\ plus (mult 5 G) (mult 6 G) = mult 11 G.
Proof.
  split; [exact base_holds|]. split; [exact Order.base_valid|]. split; [exact Order.base_not_infinite|]. split; [exact (proj1 one_ok)|].
  assert (SA : stands_affine (mkAff (fst (PRECOMPUTED 0 0)) (snd (PRECOMPUTED 0 0))) G).
  { pose proof (C58_table 0 1 ltac:(lia) ltac:(lia)) as T.
    change (fold_right _ _ _) with 1 in T. rewrite Order.multiple_1 in T. exact T. }
  split; [eexists; exact SA|]. split.
  { eexists. exact (proj2 (C58_add_mixed _ _ _ _ Order.base_valid Order.base_valid (Order.stands_Z _ _ (Proofs.of_affine_stands _ _ (Order.affine_F _ _ Order.base_valid SA))) SA)). }
  split.
  { exists (mkProj c_ZERO c_ONE c_ZERO). exists 0, 1, 0. cbn [jx jy jz].
    split; [exact Proofs.r_ZERO|]. split; [exact Proofs.r_ONE|]. split; [exact Proofs.r_ZERO|]. split; [reflexivity|]. split; [discriminate|reflexivity]. }
  destruct C58_order as (_ & _ & L & _ & Eq).
  split; [apply L; split; reflexivity|]. split.
  { intros E. apply Eq in E; [|discriminate|discriminate]. vm_compute in E. discriminate E. }
  split; [apply Order.multiple_valid, Order.base_valid|].
  symmetry. exact (Order.multiple_add 5 6 G ltac:(discriminate) ltac:(discriminate) Order.base_valid).
Qed.
