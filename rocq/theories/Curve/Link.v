(** The points of Curve/Spec.v are those of Curve/Group.v over the field of Curve/Fp.v. *)
From Verif Require Import Base.
From Verif Require Import Curve.Fp.
From Verif Require Int.Spec Curve.Spec Curve.Group Curve.Formulas.
From Coq Require Import Lia Znumtheory Zpow_facts Field Ring.
Open Scope Z_scope.
Ltac Zify.zify_post_hook ::= idtac.
Add Field F_field' : field_F.

Notation point := (Group.point F).
Notation Affine := (Group.Affine F).
Notation Infinity := (Group.Infinity F).
Notation curve := (Group.curve F fadd fmul fa fb).
Notation valid := (Group.valid F fadd fmul fa fb).
Notation plus := (Group.plus F f1 fadd fmul fsub fopp fdiv dec fa).
Notation opposite := (Group.opposite F fopp).
Notation slope := (Group.slope F f1 fadd fmul fsub fdiv dec fa).

Lemma plus_valid P Q : valid P -> valid Q -> valid (plus P Q).
Proof. exact (Group.plus_valid F f0 f1 fadd fmul fsub fopp fdiv finv field_F dec fa fb two no_root P Q). Qed.
Lemma plus_comm P Q : valid P -> valid Q -> plus P Q = plus Q P.
Proof. exact (Group.plus_comm F f0 f1 fadd fmul fsub fopp fdiv finv field_F dec fa fb two no_root P Q). Qed.
Lemma plus_assoc P Q R : valid P -> valid Q -> valid R -> plus (plus P Q) R = plus P (plus Q R).
Proof. exact (Group.plus_assoc F f0 f1 fadd fmul fsub fopp fdiv finv field_F dec fa fb two no_root P Q R). Qed.
Lemma plus_0_r P : plus P Infinity = P. Proof. destruct P; reflexivity. Qed.
Lemma plus_opposite P : plus P (opposite P) = Infinity.
Proof. exact (Group.plus_opposite F f0 f1 fadd fmul fsub fopp fdiv finv field_F dec fa P). Qed.
Lemma opposite_valid P : valid P -> valid (opposite P).
Proof. exact (Group.opposite_valid F f0 f1 fadd fmul fsub fopp fdiv finv field_F fa fb P). Qed.

(** ** Multiples *)
Fixpoint times (k : nat) (P : point) : point := match k with O => Infinity | S k' => plus P (times k' P) end.
Definition mult (k : Z) (P : point) : point := times (Z.to_nat k) P.
Lemma times_valid k P : valid P -> valid (times k P).
Proof. intros V. induction k; [exact I|]. cbn [times]. apply plus_valid; assumption. Qed.
Lemma times_add j k P : valid P -> times (j + k) P = plus (times j P) (times k P).
Proof.
  intros V. induction j as [|j IH]; [reflexivity|]. cbn [Nat.add times]. rewrite IH. symmetry. apply plus_assoc; auto using times_valid.
Qed.
Lemma times_Infinity k : times k Infinity = Infinity.
Proof. induction k; [reflexivity|exact IHk]. Qed.
Lemma times_mul j k P : valid P -> times (j * k) P = times j (times k P).
Proof. intros V. induction j as [|j IH]; [reflexivity|]. cbn [Nat.mul times]. rewrite times_add, IH by exact V. reflexivity. Qed.
Lemma times_plus k P Q : valid P -> valid Q -> times k (plus P Q) = plus (times k P) (times k Q).
Proof.
  intros VP VQ. induction k as [|k IH]; [reflexivity|]. cbn [times]. rewrite IH.
  pose proof (times_valid k P VP). pose proof (times_valid k Q VQ).
  rewrite (plus_assoc P Q), (plus_assoc P) by auto using plus_valid. f_equal.
  rewrite <- !plus_assoc by auto. f_equal. apply plus_comm; auto.
Qed.

Lemma mult_valid k P : valid P -> valid (mult k P). Proof. apply times_valid. Qed.
Lemma mult_add j k P : 0 <= j -> 0 <= k -> valid P -> mult (j + k) P = plus (mult j P) (mult k P).
Proof. intros Hj Hk V. unfold mult. rewrite Z2Nat.inj_add by assumption. apply times_add, V. Qed.
Lemma mult_mul j k P : 0 <= j -> 0 <= k -> valid P -> mult (j * k) P = mult j (mult k P).
Proof. intros Hj Hk V. unfold mult. rewrite Z2Nat.inj_mul by assumption. apply times_mul, V. Qed.
Lemma mult_0 P : mult 0 P = Infinity. Proof. reflexivity. Qed.
Lemma mult_1 P : mult 1 P = P. Proof. apply plus_0_r. Qed.
Lemma mult_2 k P : 0 <= k -> valid P -> mult (2 * k) P = plus (mult k P) (mult k P).
Proof. intros Hk V. replace (2 * k) with (k + k) by ring. apply mult_add; assumption. Qed.
Lemma mult_comm j k P : 0 <= j -> 0 <= k -> valid P -> mult j (mult k P) = mult k (mult j P).
Proof. intros Hj Hk V. rewrite <- !mult_mul, (Z.mul_comm j k) by assumption. reflexivity. Qed.
Lemma mult_mod k m P : 0 <= k -> 0 < m -> valid P -> mult m P = Infinity -> mult (k mod m) P = mult k P.
Proof.
  intros Hk Hm V H. rewrite (Z.div_mod k m) at 2 by lia. pose proof (Z.div_pos k m Hk Hm). pose proof (Z.mod_pos_bound k m Hm).
  rewrite mult_add, (Z.mul_comm m), mult_mul, H by (auto; try apply Z.mul_nonneg_nonneg; lia).
  unfold mult at 2. rewrite times_Infinity. reflexivity.
Qed.

(** ** The specification *)
Definition toZ (P : point) : Spec.point :=
  match P with Group.Infinity _ => Spec.Infinity | Group.Affine _ x y => Spec.Affine (val x) (val y) end.
Definition ofZ (P : Spec.point) : point :=
  match P with Spec.Infinity => Infinity | Spec.Affine x y => Affine (of_Z x) (of_Z y) end.
Lemma of_toZ P : ofZ (toZ P) = P.
Proof. destruct P as [|x y]; [reflexivity|]. cbn [ofZ toZ]. rewrite !of_val. reflexivity. Qed.
Lemma to_ofZ P : Spec.valid P -> toZ (ofZ P) = P.
Proof. destruct P as [|x y]; [reflexivity|]. intros (Hx & Hy & _). cbn [ofZ toZ]. rewrite !val_of, !Z.mod_small by assumption. reflexivity. Qed.
Lemma toZ_inj P Q : toZ P = toZ Q -> P = Q.
Proof. intros H. rewrite <- (of_toZ P), H. apply of_toZ. Qed.
Lemma of_modp x : of_Z (x mod p) = of_Z x.
Proof. apply of_mod. apply Zmod_mod. Qed.
Lemma of_eq x y : of_Z x = of_Z y <-> x mod p = y mod p.
Proof. split; [intros H; exact (f_equal val H)|apply of_mod]. Qed.
Lemma curve_Z x y : curve x y <-> Int.Spec.on_curve (val x) (val y).
Proof.
  unfold Group.curve, Int.Spec.on_curve. rewrite <- of_eq. 
  replace (val x * val x * val x - 3 * val x + Int.Spec.b) with (val x * val x * val x + - 3 * val x + Int.Spec.b) by ring.
  rewrite !of_add, !of_mul, !of_val. reflexivity.
Qed.
Lemma toZ_valid P : valid P <-> Spec.valid (toZ P).
Proof.
  destruct P as [|x y]; [reflexivity|]. cbn [Group.valid toZ Spec.valid]. rewrite curve_Z.
  pose proof (val_range x). pose proof (val_range y). tauto.
Qed.
Lemma ofZ_valid P : Spec.valid P -> valid (ofZ P).
Proof. intros V. apply toZ_valid. rewrite to_ofZ; assumption. Qed.
Lemma of_inverse x : of_Z (Spec.inverse x) = finv (of_Z x).
Proof. unfold Spec.inverse, finv. rewrite of_modp, val_of. apply of_mod. apply Zpower_mod, p_pos. Qed.
Lemma val_eqb x y : (val x =? val y) = if dec x y then true else false.
Proof. destruct (dec x y) as [->|N]; [apply Z.eqb_refl|]. apply Z.eqb_neq. intros E. apply N, F_eq, E. Qed.
Lemma slope_Z x1 y1 x2 y2 : Spec.slope (val x1) (val y1) (val x2) (val y2) = val (slope x1 y1 x2 y2).
Proof.
  unfold Spec.slope, Group.slope. rewrite val_eqb. destruct (dec x1 x2).
  - rewrite <- val_of. f_equal. rewrite of_mul, of_inverse. unfold fdiv.
    replace (3 * (val x1 * val x1) - 3) with (3 * (val x1 * val x1) + - 3) by ring. rewrite of_add, !of_mul, !of_val. reflexivity.
  - rewrite <- val_of. f_equal. rewrite of_mul, of_inverse, !of_sub, !of_val. reflexivity.
Qed.
Lemma toZ_plus P Q : toZ (plus P Q) = Spec.plus (toZ P) (toZ Q).
Proof.
  destruct P as [|x1 y1], Q as [|x2 y2]; try reflexivity. cbn [toZ Spec.plus]. rewrite slope_Z, val_eqb.
  assert (T : forall m, toZ (Group.third F fmul fsub m x1 y1 x2) =
    (let x := (val m * val m - val x1 - val x2) mod p in Spec.Affine x ((val m * (val x1 - x) - val y1) mod p))).
  { intros m. unfold Group.third. cbv zeta. cbn [toZ].
    assert (E : val (fsub (fsub (fmul m m) x1) x2) = (val m * val m - val x1 - val x2) mod p).
    { rewrite <- val_of. f_equal. rewrite !of_sub, of_mul, !of_val. reflexivity. }
    rewrite <- E. f_equal. set (x := fsub (fsub (fmul m m) x1) x2). rewrite <- val_of. f_equal. rewrite !of_sub, of_mul, of_sub, !of_val. reflexivity. }
  unfold Group.plus. destruct (dec x1 x2) as [E|N]; cbn [andb]; [|apply T].
  assert (D : ((val y1 + val y2) mod p =? 0) = if dec y1 (fopp y2) then true else false).
  { destruct (dec y1 (fopp y2)) as [->|N].
    - apply Z.eqb_eq. change (val (fadd (fopp y2) y2) = val f0). f_equal. ring.
    - apply Z.eqb_neq. intros Z. apply N. change (val (fadd y1 y2) = val f0) in Z. apply F_eq in Z.
      replace y1 with (fsub (fadd y1 y2) y2) by ring. rewrite Z. ring. }
  rewrite D. destruct (dec y1 (fopp y2)); [reflexivity|apply T].
Qed.
Lemma toZ_opposite P : toZ (opposite P) = Spec.opposite (toZ P).
Proof. destruct P; reflexivity. Qed.
Lemma toZ_times k P : toZ (times k P) = Spec.times k (toZ P).
Proof. induction k as [|k IH]; [reflexivity|]. cbn [times Spec.times]. rewrite toZ_plus, IH. reflexivity. Qed.
Definition G : point := ofZ Spec.G.
Lemma G_Z : toZ G = Spec.G. Proof. vm_compute. reflexivity. Qed.
Lemma G_valid : valid G.
Proof. apply ofZ_valid. unfold Spec.valid, Spec.G. split; [split; [discriminate|reflexivity]|]. split; [split; [discriminate|reflexivity]|]. vm_compute. reflexivity. Qed.
