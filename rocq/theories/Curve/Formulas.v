(** The complete addition formulas of Renes, Costello and Batina (eprint 2015/1060) add every two points of
    a curve without points of order two. *)
From Coq Require Import List Field Ring ZArith.
From Verif Require Import Curve.Group.

Section Curve.
Variable F : Type.
Variables (f0 f1 : F) (fadd fmul fsub : F -> F -> F) (fopp : F -> F) (fdiv : F -> F -> F) (finv : F -> F).
Variable Fth : field_theory f0 f1 fadd fmul fsub fopp fdiv finv (@eq F).
Variable dec : forall x y : F, {x = y} + {x <> y}.
Add Field F_field : Fth.
Declare Scope F_scope.
Notation "0" := f0 : F_scope.
Notation "1" := f1 : F_scope.
Notation "x + y" := (fadd x y) : F_scope.
Notation "x * y" := (fmul x y) : F_scope.
Notation "x - y" := (fsub x y) : F_scope.
Notation "- x" := (fopp x) : F_scope.
Notation "x / y" := (fdiv x y) : F_scope.
Open Scope F_scope.
Notation "2" := (1 + 1) : F_scope.
Notation "3" := (1 + 1 + 1) : F_scope.
Variables a b : F.
Notation point := (Group.point F).
Notation Affine := (Group.Affine F).
Notation Infinity := (Group.Infinity F).
Notation curve := (Group.curve F fadd fmul a b).
Notation valid := (Group.valid F fadd fmul a b).
Notation plus := (Group.plus F f1 fadd fmul fsub fopp fdiv dec a).
Notation third := (Group.third F fmul fsub).
Notation inverse := (Group.inverse F fopp).
Notation on_line := (Group.on_line F fadd fmul fsub a).
Hypothesis two : 2 <> 0.
Hypothesis no_root : forall x, x * x * x + a * x + b <> 0.

(** The coordinates (X : Y : Z) of a point. *)
Definition proj (X Y Z : F) (P : point) : Prop :=
  match P with
  | Group.Infinity _ => X = 0 /\ Z = 0 /\ Y <> 0
  | Group.Affine _ x y => Z <> 0 /\ X = x * Z /\ Y = y * Z
  end.

Definition sumX X1 Y1 Z1 X2 Y2 Z2 :=
  (X1 * Y2 + X2 * Y1) * (Y1 * Y2 - a * (X1 * Z2 + X2 * Z1) - 3 * b * (Z1 * Z2)) -
  (Y1 * Z2 + Y2 * Z1) * (a * (X1 * X2) + 3 * b * (X1 * Z2 + X2 * Z1) - a * a * (Z1 * Z2)).
Definition sumY X1 Y1 Z1 X2 Y2 Z2 :=
  (Y1 * Y2 + a * (X1 * Z2 + X2 * Z1) + 3 * b * (Z1 * Z2)) * (Y1 * Y2 - a * (X1 * Z2 + X2 * Z1) - 3 * b * (Z1 * Z2)) +
  (3 * (X1 * X2) + a * (Z1 * Z2)) * (a * (X1 * X2) + 3 * b * (X1 * Z2 + X2 * Z1) - a * a * (Z1 * Z2)).
Definition sumZ X1 Y1 Z1 X2 Y2 Z2 :=
  (Y1 * Z2 + Y2 * Z1) * (Y1 * Y2 + a * (X1 * Z2 + X2 * Z1) + 3 * b * (Z1 * Z2)) +
  (X1 * Y2 + X2 * Y1) * (3 * (X1 * X2) + a * (Z1 * Z2)).

Lemma mul_n0 x y : x <> 0 -> y <> 0 -> x * y <> 0.
Proof. exact (Group.mul_n0 F f0 f1 fadd fmul fsub fopp fdiv finv Fth dec x y). Qed.
Lemma sub_0 x y : x - y = 0 -> x = y.
Proof. exact (Group.sub_0 F f0 f1 fadd fmul fsub fopp fdiv finv Fth x y). Qed.
Lemma sub_n0 x y : x <> y -> x - y <> 0.
Proof. intros N H. apply N, sub_0, H. Qed.
Lemma cancel_l c x y : c <> 0 -> c * x = c * y -> x = y.
Proof. exact (Group.cancel_l F f0 f1 fadd fmul fsub fopp fdiv finv Fth dec c x y). Qed.
Lemma y_n0 x y : curve x y -> y <> 0.
Proof. exact (Group.y_n0 F f0 f1 fadd fmul fsub fopp fdiv finv Fth a b no_root x y). Qed.

(** *** Affine coordinates *)
Lemma coef_b x y : curve x y -> b = y * y - x * x * x - a * x.
Proof. unfold Group.curve. intros H. rewrite H. ring. Qed.
Lemma coef_a x1 y1 x2 y2 : x1 - x2 <> 0 -> curve x1 y1 -> curve x2 y2 ->
  a = (y1 * y1 - y2 * y2 - (x1 * x1 * x1 - x2 * x2 * x2)) / (x1 - x2).
Proof. unfold Group.curve. intros N H1 H2. rewrite H1, H2. field. exact N. Qed.

Lemma third_y m x1 y1 x2 y2 : curve x1 y1 -> on_line m x1 y1 x2 y2 -> m * (x1 - (m * m - x1 - x2)) - y1 <> 0.
Proof.
  intros H L. pose proof (Group.third_curve F f0 f1 fadd fmul fsub fopp fdiv finv Fth a b m x1 y1 x2 y2 H L) as V.
  unfold Group.third in V. cbn [Group.valid] in V. exact (y_n0 _ _ V).
Qed.

Lemma chord x1 y1 x2 y2 m : x1 - x2 <> 0 -> curve x1 y1 -> curve x2 y2 -> on_line m x1 y1 x2 y2 ->
  proj (sumX x1 y1 1 x2 y2 1) (sumY x1 y1 1 x2 y2 1) (sumZ x1 y1 1 x2 y2 1) (third m x1 y1 x2).
Proof.
  intros N H1 H2 L. 
  assert (Em : m = (y1 - y2) / (x1 - x2)).
  { apply (cancel_l (x1 - x2)); [exact N|]. replace ((x1 - x2) * m) with (m * (x1 - x2)) by ring. rewrite (proj1 L). field. exact N. }
  pose proof (coef_a _ _ _ _ N H1 H2) as Ea. pose proof (coef_b _ _ H1) as Eb.
  (* the difference of the two points *)
  assert (H2' : curve x2 (- y2)) by (unfold Group.curve in *; rewrite <- H2; ring).
  set (m' := (y1 - - y2) / (x1 - x2)).
  assert (L' : on_line m' x1 y1 x2 (- y2)).
  { split; [unfold m'; field; exact N|]. apply (cancel_l (x1 - x2)); [exact N|].
    transitivity (y1 * y1 - y2 * y2); [unfold m'; field; exact N|]. unfold Group.curve in H1, H2. rewrite H1, H2. ring. }
  pose proof (third_y m' x1 y1 x2 (- y2) H1 L') as Ny.
  assert (EZ : sumZ x1 y1 1 x2 y2 1 = - ((x1 - x2) * (x1 - x2) * (x1 - x2) * (m' * (x1 - (m' * m' - x1 - x2)) - y1))).
  { unfold sumZ, m'. rewrite Eb, Ea. field. exact N. }
  unfold Group.third, proj. split; [|split].
  - rewrite EZ. intros Z. apply (mul_n0 ((x1 - x2) * (x1 - x2) * (x1 - x2)) _ (mul_n0 _ _ (mul_n0 _ _ N N) N) Ny).
    match type of Z with - ?t = 0 => replace t with (- - t) by ring; rewrite Z; ring end.
  - unfold sumX, sumZ. rewrite Em, Eb, Ea. field. exact N.
  - unfold sumY, sumZ. rewrite Em, Eb, Ea. field. exact N.
Qed.
Lemma tangent x y m : curve x y -> on_line m x y x y ->
  proj (sumX x y 1 x y 1) (sumY x y 1 x y 1) (sumZ x y 1 x y 1) (third m x y x).
Proof.
  intros H L. pose proof (y_n0 _ _ H) as Ny. pose proof (coef_b _ _ H) as Eb.
  assert (Em : m = (3 * (x * x) + a) / (2 * y)).
  { apply (cancel_l (2 * y)); [apply mul_n0; assumption|]. replace (2 * y * m) with (m * (y + y)) by ring. rewrite (proj2 L). field. split; assumption. }
  assert (EZ : sumZ x y 1 x y 1 = 2 * y * (2 * y) * (2 * y)) by (unfold sumZ; rewrite Eb; ring).
  unfold Group.third, proj. split; [|split].
  - rewrite EZ. auto using mul_n0.
  - rewrite EZ. unfold sumX. rewrite Em, Eb. field. split; assumption.
  - rewrite EZ. unfold sumY. rewrite Em, Eb. field. split; assumption.
Qed.
Lemma vertical x y : curve x y ->
  proj (sumX x (- y) 1 x y 1) (sumY x (- y) 1 x y 1) (sumZ x (- y) 1 x y 1) Infinity.
Proof.
  intros H. pose proof (y_n0 _ _ H) as Ny. pose proof (coef_b _ _ H) as Eb.
  set (m := (3 * (x * x) + a) / (2 * y)).
  assert (L : on_line m x y x y) by (split; unfold m; field; split; assumption).
  pose proof (third_y m x y x y H L) as N3.
  unfold proj. split; [unfold sumX; ring|]. split; [unfold sumZ; ring|].
  assert (EY : sumY x (- y) 1 x y 1 = 2 * y * (2 * y) * (2 * y) * (m * (x - (m * m - x - x)) - y)).
  { unfold sumY, m. rewrite Eb. field. split; assumption. }
  rewrite EY. auto 10 using mul_n0.
Qed.

(** *** The sum *)
Lemma scaled c x y z P : c <> 0 -> proj x y z P -> forall X Y Z, X = c * x -> Y = c * y -> Z = c * z -> proj X Y Z P.
Proof.
  intros Hc H X Y Z -> -> ->. destruct P as [|u v]; cbn [proj] in *.
  - destruct H as (-> & -> & N). split; [ring|]. split; [ring|]. apply mul_n0; assumption.
  - destruct H as (N & -> & ->). split; [apply mul_n0; assumption|]. split; ring.
Qed.
Theorem complete X1 Y1 Z1 X2 Y2 Z2 P Q : valid P -> valid Q -> proj X1 Y1 Z1 P -> proj X2 Y2 Z2 Q ->
  proj (sumX X1 Y1 Z1 X2 Y2 Z2) (sumY X1 Y1 Z1 X2 Y2 Z2) (sumZ X1 Y1 Z1 X2 Y2 Z2) (plus P Q).
Proof.
  destruct P as [|x1 y1], Q as [|x2 y2]; intros HP HQ R1 R2.
  - destruct R1 as (-> & -> & N1), R2 as (-> & -> & N2). cbn [Group.plus proj].
    split; [unfold sumX; ring|]. split; [unfold sumZ; ring|].
    replace (sumY 0 Y1 0 0 Y2 0) with (Y1 * Y2 * (Y1 * Y2)) by (unfold sumY; ring). auto using mul_n0.
  - destruct R1 as (-> & -> & N1), R2 as (N2 & -> & ->). cbn [Group.plus proj]. pose proof (y_n0 _ _ HQ) as Ny.
    split; [replace (sumZ 0 Y1 0 (x2 * Z2) (y2 * Z2) Z2) with (Y1 * Y1 * y2 * Z2 * Z2) by (unfold sumZ; ring); auto using mul_n0|].
    split; unfold sumX, sumY, sumZ; ring.
  - destruct R2 as (-> & -> & N1), R1 as (N2 & -> & ->). cbn [Group.plus proj]. pose proof (y_n0 _ _ HP) as Ny.
    split; [replace (sumZ (x1 * Z1) (y1 * Z1) Z1 0 Y2 0) with (Y2 * Y2 * y1 * Z1 * Z1) by (unfold sumZ; ring); auto using mul_n0|].
    split; unfold sumX, sumY, sumZ; ring.
  - destruct R1 as (N1 & -> & ->), R2 as (N2 & -> & ->).
    assert (N : Z1 * Z2 * (Z1 * Z2) <> 0) by auto using mul_n0.
    apply (scaled _ (sumX x1 y1 1 x2 y2 1) (sumY x1 y1 1 x2 y2 1) (sumZ x1 y1 1 x2 y2 1) _ N); [|unfold sumX; ring|unfold sumY; ring|unfold sumZ; ring].
    destruct (Group.inverse_dec F fopp dec x1 y1 x2 y2) as [I|NI].
    + rewrite (Group.plus_inverse F f1 fadd fmul fsub fopp fdiv dec a x1 y1 x2 y2 I). destruct I as (-> & ->). apply vertical, HQ.
    + pose proof (Group.slope_on_line F f0 f1 fadd fmul fsub fopp fdiv finv Fth dec a b two no_root x1 y1 x2 y2 HP HQ NI) as L.
      rewrite (Group.plus_on_line F f0 f1 fadd fmul fsub fopp fdiv finv Fth dec a b two no_root _ x1 y1 x2 y2 HP HQ NI L).
      set (m := Group.slope _ _ _ _ _ _ _ _ _ _ _ _) in *. clearbody m.
      destruct (dec x1 x2) as [<- | Nx].
      * assert (y1 = y2) as <- by (apply (Group.same_x F f0 f1 fadd fmul fsub fopp fdiv finv Fth dec a b x1); auto; intros E; apply NI; split; auto).
        apply tangent; assumption.
      * apply chord; auto using sub_n0.
Qed.
End Curve.
