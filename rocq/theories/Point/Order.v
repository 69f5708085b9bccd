(** The group of Curve/Spec.v and the order of its base point. *)
From Verif Require Import Base Curve.Fp Point.Model.
From Verif Require Int.Spec Curve.Spec Curve.Link Point.Chain Point.Proofs Point.Mult Prime.Curve Prime.Inverse.
From Verif Require Import Point.Spec.
From Coq Require Import Lia Znumtheory.
Open Scope Z_scope.
Ltac Zify.zify_post_hook ::= idtac.
Import Curve.Link.
Notation toZ := Curve.Link.toZ.
Notation ofZ := Curve.Link.ofZ.
Notation value := Int.Spec.value.
Notation is_int256 := Int.Spec.is_int256.
Notation point := Curve.Spec.point.
Notation Infinity := Curve.Spec.Infinity.
Notation Affine := Curve.Spec.Affine.
Notation valid := Curve.Spec.valid.
Notation plus := Curve.Spec.plus.
Notation opposite := Curve.Spec.opposite.
Notation times := Curve.Spec.times.
Notation G := Curve.Spec.G.
Notation p := Int.Spec.p.
Notation n := Int.Spec.n.
Notation mult := Point.Spec.mult.

Lemma closed P Q : valid P -> valid Q -> valid (plus P Q).
Proof. intros VP VQ. rewrite <- (to_ofZ P VP), <- (to_ofZ Q VQ), <- toZ_plus. apply toZ_valid. apply plus_valid; apply ofZ_valid; assumption. Qed.
Lemma commutes P Q : valid P -> valid Q -> plus P Q = plus Q P.
Proof. intros VP VQ. rewrite <- (to_ofZ P VP), <- (to_ofZ Q VQ), <- !toZ_plus. f_equal. apply plus_comm; apply ofZ_valid; assumption. Qed.
Lemma associates P Q R : valid P -> valid Q -> valid R -> plus (plus P Q) R = plus P (plus Q R).
Proof.
  intros VP VQ VR. rewrite <- (to_ofZ P VP), <- (to_ofZ Q VQ), <- (to_ofZ R VR), <- !toZ_plus. f_equal.
  apply plus_assoc; apply ofZ_valid; assumption.
Qed.
Lemma opposite_closed P : valid P -> valid (opposite P).
Proof. intros VP. rewrite <- (to_ofZ P VP), <- toZ_opposite. apply toZ_valid. apply opposite_valid, ofZ_valid. exact VP. Qed.
Lemma opposite_sum P : valid P -> plus P (opposite P) = Infinity.
Proof. intros VP. rewrite <- (to_ofZ P VP), <- toZ_opposite, <- toZ_plus. rewrite plus_opposite. reflexivity. Qed.
Lemma neutral P : plus P Infinity = P. Proof. destruct P; reflexivity. Qed.
Lemma toZ_mult k A : toZ (Curve.Link.mult k A) = mult k (toZ A).
Proof. apply toZ_times. Qed.
Lemma mult_ofZ k P : valid P -> mult k P = toZ (Curve.Link.mult k (ofZ P)).
Proof. intros V. rewrite toZ_mult, (to_ofZ P V). reflexivity. Qed.
Lemma multiple_valid k P : valid P -> valid (mult k P).
Proof. intros V. rewrite mult_ofZ by exact V. apply toZ_valid, mult_valid, ofZ_valid, V. Qed.
Lemma multiple_add j k P : 0 <= j -> 0 <= k -> valid P -> mult (j + k) P = plus (mult j P) (mult k P).
Proof. intros Hj Hk V. rewrite !mult_ofZ, <- toZ_plus by exact V. f_equal. apply mult_add; try assumption. apply ofZ_valid, V. Qed.
Lemma multiple_mul j k P : 0 <= j -> 0 <= k -> valid P -> mult (j * k) P = mult j (mult k P).
Proof. intros Hj Hk V. rewrite !(mult_ofZ _ P V), <- toZ_mult. f_equal. apply mult_mul; try assumption. apply ofZ_valid, V. Qed.
Lemma multiple_1 P : mult 1 P = P.
Proof. apply neutral. Qed.
Lemma base_valid : valid G.
Proof. rewrite <- G_Z. apply toZ_valid, G_valid. Qed.
Lemma n_pos : 0 < n. Proof. reflexivity. Qed.
Lemma base_order : mult n G = Infinity.
Proof. rewrite <- G_Z, <- toZ_mult. rewrite Point.Chain.order. reflexivity. Qed.
Lemma multiple_Infinity k : mult k Infinity = Infinity.
Proof. unfold mult. induction (Z.to_nat k) as [|j IH]; [reflexivity|exact IH]. Qed.
Lemma multiple_mod k : 0 <= k -> mult (k mod n) G = mult k G.
Proof.
  intros Hk. pose proof n_pos as Np. rewrite (Z.div_mod k n) at 2 by lia. pose proof (Z.div_pos k n Hk Np). pose proof (Z.mod_pos_bound k n Np).
  rewrite multiple_add; [|apply Z.mul_nonneg_nonneg; lia|lia|exact base_valid].
  rewrite (Z.mul_comm n), multiple_mul, base_order, multiple_Infinity; [reflexivity|lia|lia|exact base_valid].
Qed.
Lemma base_not_infinite : G <> Infinity.
Proof. unfold G. intros H. discriminate H. Qed.
Lemma order_least k : 0 < k < n -> mult k G <> Infinity.
Proof.
  intros B H. pose proof (Prime.Inverse.power_inverse n k Prime.Curve.prime_p256_n B) as E. set (u := k ^ (n - 2) mod n) in *.
  assert (Hu : 0 <= u) by apply (Z.mod_pos_bound _ n n_pos). clearbody u.
  apply base_not_infinite. rewrite <- (multiple_1 G), <- E, multiple_mod by (apply Z.mul_nonneg_nonneg; lia).
  rewrite Z.mul_comm, multiple_mul, H by (try exact base_valid; lia). apply multiple_Infinity.
Qed.
Lemma multiples_equal j k : 0 <= j -> 0 <= k -> (mult j G = mult k G <-> j mod n = k mod n).
Proof.
  assert (forall a b, 0 <= a < n -> 0 <= b < n -> a < b -> mult a G <> mult b G) as Ne.
  { intros a b Ha Hb L E. apply (order_least (b - a)); [lia|].
    replace (mult (b - a) G) with (plus (plus (mult (b - a) G) (mult a G)) (opposite (mult a G))).
    - rewrite <- multiple_add by (try exact base_valid; lia). replace (b - a + a) with b by ring. rewrite E.
      apply opposite_sum, multiple_valid, base_valid.
    - rewrite associates; try (apply multiple_valid, base_valid); [|apply opposite_closed, multiple_valid, base_valid].
      rewrite opposite_sum by (apply multiple_valid, base_valid). apply neutral. }
  intros Hj Hk. split; [|intros E; rewrite <- (multiple_mod j Hj), E; apply multiple_mod, Hk].
  rewrite <- (multiple_mod j Hj), <- (multiple_mod k Hk). intros E.
  pose proof (Z.mod_pos_bound j n n_pos) as Bj. pose proof (Z.mod_pos_bound k n n_pos) as Bk.
  destruct (Z.lt_trichotomy (j mod n) (k mod n)) as [L|[L|L]]; [|exact L|].
  - destruct (Ne _ _ Bj Bk L E).
  - destruct (Ne _ _ Bk Bj L (eq_sym E)).
Qed.

(** ** Representations *)
Lemma stands_F P A : valid A -> Point.Spec.stands P A -> Point.Proofs.stands P (ofZ A).
Proof.
  intros V (X & Y & Z & RX & RY & RZ & M).
  pose proof (proj1 (proj2 RX)) as BX. pose proof (proj1 (proj2 RY)) as BY. pose proof (proj1 (proj2 RZ)) as BZ.
  assert (S : forall l x, 0 <= x < p -> Field.Spec.represents l x -> Point.Proofs.rep l (of_Z x)).
  { intros l x B R. unfold Point.Proofs.rep. rewrite val_of, Z.mod_small by exact B. exact R. }
  assert (N0 : forall x, 0 <= x < p -> x <> 0 -> of_Z x <> f0).
  { intros x B N E. apply N. apply of_eq in E. rewrite Zmod_0_l, Z.mod_small in E by exact B. exact E. }
  exists (of_Z X), (of_Z Y), (of_Z Z). split; [split; [|split]; apply S; assumption|].
  destruct A as [|x y]; cbn [ofZ Formulas.proj].
  - destruct M as (-> & NY & ->). split; [reflexivity|]. split; [reflexivity|]. apply N0; assumption.
  - destruct M as (NZ & EX & EY). split; [apply N0; assumption|]. rewrite <- !of_mul. rewrite EX, EY, !of_modp. split; reflexivity.
Qed.
Lemma stands_Z P A : Point.Proofs.stands P A -> Point.Spec.stands P (toZ A).
Proof.
  intros (X & Y & Z & (RX & RY & RZ) & M). exists (val X), (val Y), (val Z). split; [exact RX|]. split; [exact RY|]. split; [exact RZ|].
  assert (N0 : forall x, x <> f0 -> val x <> 0). { intros x N E. apply N, F_eq. exact E. }
  destruct A as [|x y]; cbn [toZ].
  - destruct M as (-> & -> & NY). split; [reflexivity|]. split; [apply N0, NY|reflexivity].
  - destruct M as (NZ & -> & ->). split; [apply N0, NZ|]. split; reflexivity.
Qed.
Lemma affine_F P A : valid A -> stands_affine P A -> Point.Proofs.stands2 P (ofZ A).
Proof.
  destruct A as [|x y]; [contradiction|]. intros (Bx & By & _) (Rx & Ry). exists (of_Z x), (of_Z y). split; [|reflexivity].
  split; unfold Point.Proofs.rep; rewrite val_of, Z.mod_small by assumption; assumption.
Qed.
