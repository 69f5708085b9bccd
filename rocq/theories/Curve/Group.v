(** The points of an elliptic curve in short Weierstrass form are a commutative group, over any field in
    which two is not zero and for any curve without points of order two. *)
From Coq Require Import List Lia Field ZArith.
Import ListNotations.

Section Curve.
Variable F : Type.
Variables (f0 f1 : F) (fadd fmul fsub : F -> F -> F) (fopp : F -> F) (fdiv : F -> F -> F) (finv : F -> F).
Variable Fth : field_theory f0 f1 fadd fmul fsub fopp fdiv finv (@eq F).
Variable dec : forall x y : F, {x = y} + {x <> y}.
Add Field F_field : Fth.
Declare Scope F_scope.
Notation "0" := f0 : F_scope.
Notation "1" := f1 : F_scope.
Notation "x + y" := (fadd x y) : F_scope.
Notation "x * y" := (fmul x y) : F_scope.
Notation "x - y" := (fsub x y) : F_scope.
Notation "- x" := (fopp x) : F_scope.
Notation "x / y" := (fdiv x y) : F_scope.
Open Scope F_scope.

Notation "2" := (1 + 1) : F_scope.
Notation "3" := (1 + 1 + 1) : F_scope.

Variables a b : F.
Definition curve (x y : F) : Prop := y * y = x * x * x + a * x + b.

(** The point at infinity, or coordinates. *)
Inductive point := Infinity | Affine (x y : F).
Definition valid (P : point) : Prop := match P with Infinity => True | Affine x y => curve x y end.
Definition opposite (P : point) : point := match P with Infinity => Infinity | Affine x y => Affine x (- y) end.
(** The chord through two points, or the tangent. *)
Definition slope (x1 y1 x2 y2 : F) : F :=
  if dec x1 x2 then (3 * (x1 * x1) + a) / (2 * y1) else (y2 - y1) / (x2 - x1).
Definition third (m x1 y1 x2 : F) : point :=
  let x := m * m - x1 - x2 in Affine x (m * (x1 - x) - y1).
Definition plus (P Q : point) : point :=
  match P, Q with
  | Infinity, _ => Q
  | _, Infinity => P
  | Affine x1 y1, Affine x2 y2 =>
      if dec x1 x2 then (if dec y1 (- y2) then Infinity else third (slope x1 y1 x2 y2) x1 y1 x2)
      else third (slope x1 y1 x2 y2) x1 y1 x2
  end.

Hypothesis two : 2 <> 0.
Hypothesis no_root : forall x, x * x * x + a * x + b <> 0.

Lemma mul_0 x y : x * y = 0 -> x = 0 \/ y = 0.
Proof.
  intros H. destruct (dec x 0) as [E|N]; [left; exact E|right].
  assert (E : y = (x * y) / x) by (field; exact N). rewrite E, H. field. exact N.
Qed.
Lemma mul_n0 x y : x <> 0 -> y <> 0 -> x * y <> 0.
Proof. intros Hx Hy H. destruct (mul_0 _ _ H); contradiction. Qed.
Lemma sub_0 x y : x - y = 0 -> x = y.
Proof. intros H. replace x with (x - y + y) by ring. rewrite H. ring. Qed.
Lemma sub_n0 x y : x <> y -> x - y <> 0.
Proof. intros N H. apply N, sub_0, H. Qed.
Lemma eq_sub x y : x = y -> x - y = 0.
Proof. intros ->. ring. Qed.
Lemma cancel_l c x y : c <> 0 -> c * x = c * y -> x = y.
Proof.
  intros Hc H. apply sub_0. destruct (mul_0 c (x - y)) as [E|E]; [|contradiction|exact E].
  replace (c * (x - y)) with (c * x - c * y) by ring. rewrite H. ring.
Qed.
Lemma y_n0 x y : curve x y -> y <> 0.
Proof. intros H ->. apply (no_root x). rewrite <- H. ring. Qed.
Lemma self_opp y : y = - y -> y = 0.
Proof. intros H. destruct (mul_0 2 y) as [E|E]; [|contradiction|exact E]. replace (2 * y) with (y + y) by ring. rewrite H at 1. ring. Qed.

(** ** What characterises the slope *)
Definition on_line (m x1 y1 x2 y2 : F) : Prop :=
  m * (x1 - x2) = y1 - y2 /\ m * (y1 + y2) = x1 * x1 + x1 * x2 + x2 * x2 + a.
Definition inverse (x1 y1 x2 y2 : F) : Prop := x1 = x2 /\ y1 = - y2.

Lemma same_x x y1 y2 : curve x y1 -> curve x y2 -> y1 <> - y2 -> y1 = y2.
Proof.
  intros H1 H2 N. apply sub_0. destruct (mul_0 (y1 - y2) (y1 + y2)) as [E|E]; [|exact E|].
  - replace ((y1 - y2) * (y1 + y2)) with (y1 * y1 - y2 * y2) by ring. rewrite H1, H2. ring.
  - exfalso. apply N. replace y1 with (y1 + y2 - y2) by ring. rewrite E. ring.
Qed.
Lemma slope_on_line x1 y1 x2 y2 : curve x1 y1 -> curve x2 y2 -> ~ inverse x1 y1 x2 y2 -> on_line (slope x1 y1 x2 y2) x1 y1 x2 y2.
Proof.
  intros H1 H2 N. unfold slope. destruct (dec x1 x2) as [<- | Nx].
  - assert (y1 = y2) as <- by (apply (same_x x1); auto; intros E; apply N; split; auto).
    pose proof (y_n0 _ _ H1). split; field; split; auto.
  - assert (Nd : x2 - x1 <> 0) by (apply sub_n0; congruence). split; [field; exact Nd|].
    apply (cancel_l (x2 - x1)); [exact Nd|].
    transitivity (y2 * y2 - y1 * y1); [field; exact Nd|]. rewrite H1, H2. ring.
Qed.
Lemma on_line_unique m m' x1 y1 x2 y2 : ~ inverse x1 y1 x2 y2 -> on_line m x1 y1 x2 y2 -> on_line m' x1 y1 x2 y2 -> m = m'.
Proof.
  intros N (A1 & A2) (B1 & B2). destruct (dec x1 x2) as [E|Nx].
  - apply (cancel_l (y1 + y2)).
    + intros Z. apply N. split; [exact E|]. replace y1 with (y1 + y2 - y2) by ring. rewrite Z. ring.
    + rewrite !(fun m => (ltac:(ring) : (y1 + y2) * m = m * (y1 + y2))). congruence.
  - apply (cancel_l (x1 - x2)); [apply sub_n0, Nx|].
    rewrite !(fun m => (ltac:(ring) : (x1 - x2) * m = m * (x1 - x2))). congruence.
Qed.
Lemma plus_on_line m x1 y1 x2 y2 : curve x1 y1 -> curve x2 y2 -> ~ inverse x1 y1 x2 y2 -> on_line m x1 y1 x2 y2 ->
  plus (Affine x1 y1) (Affine x2 y2) = third m x1 y1 x2.
Proof.
  intros H1 H2 N L. rewrite (on_line_unique m (slope x1 y1 x2 y2) x1 y1 x2 y2 N L (slope_on_line _ _ _ _ H1 H2 N)).
  unfold plus. destruct (dec x1 x2) as [E|]; [|reflexivity]. destruct (dec y1 (- y2)) as [E'|]; [|reflexivity].
  exfalso. apply N. split; assumption.
Qed.
Lemma plus_inverse x1 y1 x2 y2 : inverse x1 y1 x2 y2 -> plus (Affine x1 y1) (Affine x2 y2) = Infinity.
Proof. intros (-> & ->). unfold plus. destruct (dec x2 x2); [|contradiction]. destruct (dec (- y2) (- y2)); [reflexivity|contradiction]. Qed.
Lemma inverse_dec x1 y1 x2 y2 : {inverse x1 y1 x2 y2} + {~ inverse x1 y1 x2 y2}.
Proof. destruct (dec x1 x2); [destruct (dec y1 (- y2))|]; [left; split; assumption|right; intros []; contradiction|right; intros []; contradiction]. Qed.
Lemma opp_opp y : - - y = y. Proof. ring. Qed.
Lemma inverse_sym x1 y1 x2 y2 : inverse x1 y1 x2 y2 -> inverse x2 y2 x1 y1.
Proof. intros (-> & ->). split; [reflexivity|symmetry; apply opp_opp]. Qed.
Lemma on_line_sym m x1 y1 x2 y2 : on_line m x1 y1 x2 y2 -> on_line m x2 y2 x1 y1.
Proof.
  intros (L1 & L2). split.
  - replace (m * (x2 - x1)) with (- (m * (x1 - x2))) by ring. rewrite L1. ring.
  - replace (m * (y2 + y1)) with (m * (y1 + y2)) by ring. rewrite L2. ring.
Qed.
(** The other point may be used as well. *)
Lemma third_sym m x1 y1 x2 y2 : on_line m x1 y1 x2 y2 -> third m x1 y1 x2 = third m x2 y2 x1.
Proof.
  intros (L1 & _). unfold third. replace (m * m - x2 - x1) with (m * m - x1 - x2) by ring. f_equal.
  set (x := m * m - x1 - x2). replace (m * (x1 - x) - y1) with (m * (x1 - x2) + m * (x2 - x) - y1) by ring. rewrite L1. ring.
Qed.
Lemma third_curve m x1 y1 x2 y2 : curve x1 y1 -> on_line m x1 y1 x2 y2 -> valid (third m x1 y1 x2).
Proof.
  intros H (L1 & L2). unfold third, valid, curve in *. set (x := m * m - x1 - x2).
  assert (E : (m * (x1 - x) - y1) * (m * (x1 - x) - y1) - (x * x * x + a * x + b) =
     (y1 * y1 - (x1 * x1 * x1 + a * x1 + b)) + (x - x1) * ((m * (y1 + y2) - (x1 * x1 + x1 * x2 + x2 * x2 + a)) - m * (m * (x1 - x2) - (y1 - y2)))) by (unfold x; ring).
  apply sub_0. rewrite E, H, L1, L2. ring.
Qed.
Lemma curve_opp x y : curve x y -> curve x (- y).
Proof. unfold curve. intros <-. ring. Qed.

Lemma plus_valid P Q : valid P -> valid Q -> valid (plus P Q).
Proof.
  destruct P as [|x1 y1], Q as [|x2 y2]; try (cbn; tauto). intros H1 H2.
  destruct (inverse_dec x1 y1 x2 y2) as [I|N]; [rewrite plus_inverse by exact I; exact Logic.I|].
  pose proof (slope_on_line _ _ _ _ H1 H2 N) as L. rewrite (plus_on_line _ _ _ _ _ H1 H2 N L). exact (third_curve _ _ _ _ _ H1 L).
Qed.
Lemma opposite_valid P : valid P -> valid (opposite P).
Proof. destruct P as [|x y]; [auto|apply curve_opp]. Qed.
Lemma plus_comm P Q : valid P -> valid Q -> plus P Q = plus Q P.
Proof.
  destruct P as [|x1 y1], Q as [|x2 y2]; try reflexivity. intros H1 H2.
  destruct (inverse_dec x1 y1 x2 y2) as [I|N]; [rewrite !plus_inverse; auto using inverse_sym|].
  pose proof (slope_on_line _ _ _ _ H1 H2 N) as L.
  assert (N' : ~ inverse x2 y2 x1 y1) by (intros I; apply N, inverse_sym, I).
  rewrite (plus_on_line _ _ _ _ _ H1 H2 N L), (plus_on_line _ _ _ _ _ H2 H1 N' (on_line_sym _ _ _ _ _ L)). exact (third_sym _ _ _ _ _ L).
Qed.
Lemma plus_0_l P : plus Infinity P = P. Proof. reflexivity. Qed.
Lemma plus_0_r P : plus P Infinity = P. Proof. destruct P; reflexivity. Qed.
Lemma plus_opposite P : plus P (opposite P) = Infinity.
Proof. destruct P as [|x y]; [reflexivity|]. apply plus_inverse. split; [reflexivity|symmetry; apply opp_opp]. Qed.

(** Adding the opposite of a summand. *)
Lemma cancel_point Q R : valid Q -> valid R -> plus (opposite Q) (plus Q R) = R.
Proof.
  destruct Q as [|x2 y2]; [reflexivity|]. destruct R as [|x3 y3].
  { intros. rewrite plus_0_r. apply plus_inverse. split; reflexivity. }
  intros H2 H3. cbn [opposite]. destruct (inverse_dec x2 y2 x3 y3) as [(-> & ->)|N].
  { rewrite plus_inverse by (split; reflexivity). rewrite plus_0_r. f_equal. apply opp_opp. }
  pose proof (slope_on_line _ _ _ _ H2 H3 N) as L. rewrite (plus_on_line _ _ _ _ _ H2 H3 N L).
  set (m := slope x2 y2 x3 y3) in *. clearbody m. pose proof (third_curve _ _ _ _ _ H2 L) as HT. destruct L as (L1 & L2).
  unfold third in *. set (x := m * m - x2 - x3) in *. cbn [valid] in HT.
  assert (N' : ~ inverse x2 (- y2) x (m * (x2 - x) - y2)).
  { intros (E1 & E2). rewrite <- E1 in E2. apply (y_n0 _ _ H2). apply self_opp. rewrite E2 at 1. ring. }
  assert (L' : on_line (- m) x2 (- y2) x (m * (x2 - x) - y2)).
  { split; [ring|]. apply sub_0.
    replace (- m * (- y2 + (m * (x2 - x) - y2)) - (x2 * x2 + x2 * x + x * x + a)) with
      ((m * (y2 + y3) - (x2 * x2 + x2 * x3 + x3 * x3 + a)) + m * (y2 - y3 - m * (x2 - x3)) + (x3 - x) * (x2 + x3 + x - m * m)) by ring.
    rewrite L1, L2. unfold x. ring. }
  rewrite (plus_on_line _ _ _ _ _ (curve_opp _ _ H2) HT N' L'). unfold third.
  replace (- m * - m - x2 - x) with x3 by (unfold x; ring). f_equal.
  replace (- m * (x2 - x3) - - y2) with (- (m * (x2 - x3)) + y2) by ring. rewrite L1. ring.
Qed.

(** ** Associativity *)
Section Assoc.
Variables x1 y1 x2 y2 x3 y3 l k : F.
Hypotheses (H1 : curve x1 y1) (H2 : curve x2 y2) (H3 : curve x3 y3).
Hypotheses (L : on_line l x1 y1 x2 y2) (K : on_line k x3 y3 x2 y2).
Let w := x1 + x2 + x3.
Let A := l * l - w.
Let B := k * k - w.
Let u := x1 - x2.
Let v := x3 - x2.
Lemma key : 2 * y2 * (k - l) = u * A - v * B.
Proof.
  destruct L as (L1 & L2), K as (K1 & K2). apply sub_0.
  replace (2 * y2 * (k - l) - (u * A - v * B)) with
    ((k * (y3 + y2) - (x3 * x3 + x3 * x2 + x2 * x2 + a)) - (l * (y1 + y2) - (x1 * x1 + x1 * x2 + x2 * x2 + a))
     + k * (k * (x3 - x2) - (y3 - y2)) - l * (l * (x1 - x2) - (y1 - y2))) by (unfold u, v, A, B, w; ring).
  rewrite L1, L2, K1, K2. ring.
Qed.
Let s := l * l - x1 - x2.
Let sy := l * (x1 - s) - y1.
Lemma sy_eq : sy = - (l * (A + v)) - y2.
Proof. destruct L as (L1 & _). unfold sy. apply sub_0. replace (l * (x1 - s) - y1 - (- (l * (A + v)) - y2)) with (l * (x1 - x2) - (y1 - y2)) by (unfold s, A, v, w; ring). rewrite L1. ring. Qed.
Hypothesis Nlk : k - l <> 0.
Let g := (u - v) / (k - l).
Lemma g_eq : g * (k - l) = u - v. Proof. unfold g. field. exact Nlk. Qed.
Lemma gA : g * A = (l + k) * v + 2 * y2.
Proof.
  apply (cancel_l (k - l)); [exact Nlk|]. replace ((k - l) * (g * A)) with (g * (k - l) * A) by ring. rewrite g_eq.
  replace ((k - l) * ((l + k) * v + 2 * y2)) with (2 * y2 * (k - l) + v * (k * k - l * l)) by ring. rewrite key. unfold A, B. ring.
Qed.
Lemma half_line : on_line (- l - g) s sy x3 y3.
Proof.
  destruct L as (L1 & L2), K as (K1 & K2).
  assert (F1 : (- l - g) * (s - x3) = sy - y3).
  { apply sub_0. rewrite sy_eq. 
    replace ((- l - g) * (s - x3) - (- (l * (A + v)) - y2 - y3)) with (- (g * A) + l * v + y2 + y3) by (unfold s, A, w; ring).
    rewrite gA. replace y3 with (k * (x3 - x2) + y2) by (rewrite K1; ring). fold v. ring. }
  split; [exact F1|].
  assert (HS : curve s sy) by (exact (third_curve l x1 y1 x2 y2 H1 L)).
  destruct (dec A 0) as [E|NA].
  - assert (Es : s = x3) by (apply sub_0; transitivity A; [unfold s, A, w; ring|exact E]).
    assert (Ey : sy = y3) by (apply sub_0; rewrite <- F1, Es; ring).
    rewrite Ey, Es. pose proof gA as G. rewrite E in G.
    assert (D : 2 * y2 = - ((l + k) * v)).
    { apply sub_0. replace (2 * y2 - - ((l + k) * v)) with ((l + k) * v + 2 * y2) by ring. rewrite <- G. ring. }
    assert (Y3 : y3 = k * v + y2) by (unfold v; rewrite K1; ring).
    assert (DY : y3 + y3 = v * (k - l)).
    { rewrite Y3. replace (k * v + y2 + (k * v + y2)) with (2 * (k * v) + 2 * y2) by ring. rewrite D. ring. }
    rewrite DY. replace ((- l - g) * (v * (k - l))) with (- (l * v * (k - l)) - v * (g * (k - l))) by ring. rewrite g_eq.
    apply sub_0.
    assert (Ea : a = k * (y3 + y2) - (x3 * x3 + x3 * x2 + x2 * x2)) by (rewrite K2; ring).
    rewrite Ea. replace (y3 + y2) with (k * v + 2 * y2) by (rewrite Y3; ring). rewrite D.
    replace (- (l * v * (k - l)) - v * (u - v) - (x3 * x3 + x3 * x3 + x3 * x3 + (k * (k * v + - ((l + k) * v)) - (x3 * x3 + x3 * x2 + x2 * x2))))
      with (v * A) by (unfold A, w, u, v; ring).
    rewrite E. ring.
  - apply (cancel_l (s - x3)); [intros Z; apply NA; transitivity (s - x3); [unfold s, A, w; ring|exact Z]|].
    replace ((s - x3) * ((- l - g) * (sy + y3))) with ((- l - g) * (s - x3) * (sy + y3)) by ring. rewrite F1.
    replace ((sy - y3) * (sy + y3)) with (sy * sy - y3 * y3) by ring. rewrite HS, H3. ring.
Qed.
Lemma half_not_inverse : ~ inverse s sy x3 y3.
Proof.
  intros (E1 & E2). destruct half_line as (F1 & _). apply (y_n0 _ _ H3). apply self_opp.
  transitivity sy; [|exact E2]. symmetry. apply sub_0. rewrite <- F1, E1. ring.
Qed.
Lemma half (N : ~ inverse x1 y1 x2 y2) : plus (plus (Affine x1 y1) (Affine x2 y2)) (Affine x3 y3) = third (- l - g) x3 y3 s.
Proof.
  rewrite (plus_on_line l _ _ _ _ H1 H2 N L). change (third l x1 y1 x2) with (Affine s sy).
  assert (HS : curve s sy) by (exact (third_curve l x1 y1 x2 y2 H1 L)).
  rewrite (plus_on_line (- l - g) _ _ _ _ HS H3 half_not_inverse half_line). apply third_sym with (1 := half_line).
Qed.
End Assoc.

Lemma plus_assoc P Q R : valid P -> valid Q -> valid R -> plus (plus P Q) R = plus P (plus Q R).
Proof.
  intros HP HQ HR. destruct P as [|x1 y1]; [reflexivity|]. destruct Q as [|x2 y2]; [rewrite plus_0_r; reflexivity|].
  destruct R as [|x3 y3]; [rewrite !plus_0_r; reflexivity|].
  destruct (inverse_dec x1 y1 x2 y2) as [I|N12].
  { rewrite (plus_inverse _ _ _ _ I), plus_0_l. destruct I as (-> & ->). symmetry. exact (cancel_point (Affine x2 y2) _ HQ HR). }
  destruct (inverse_dec x3 y3 x2 y2) as [I|N32].
  { rewrite (plus_inverse x2 y2 x3 y3) by (apply inverse_sym, I). rewrite plus_0_r. destruct I as (-> & ->).
    rewrite (plus_comm (plus _ _)), (plus_comm (Affine x1 y1)) by auto using plus_valid. exact (cancel_point (Affine x2 y2) _ HQ HP). }
  pose proof (slope_on_line _ _ _ _ HP HQ N12) as L. pose proof (slope_on_line _ _ _ _ HR HQ N32) as K.
  set (l := slope x1 y1 x2 y2) in *. set (k := slope x3 y3 x2 y2) in *. clearbody l k.
  rewrite (plus_comm (Affine x1 y1) (plus _ _)), (plus_comm (Affine x2 y2) (Affine x3 y3)) by auto using plus_valid.
  destruct (dec (k - l) 0) as [E|Nkl].
  - pose proof (key x1 y1 x2 y2 x3 y3 l k L K) as D. apply sub_0 in E. subst k.
    replace (l - l) with 0 in D by ring. replace (2 * y2 * 0) with 0 in D by ring.
    destruct (mul_0 (x1 - x3) (l * l - (x1 + x2 + x3))) as [E|E].
    { rewrite D. ring. }
    + apply sub_0 in E. subst x3. destruct L as (L1 & _), K as (K1 & _).
      assert (y3 = y1) as -> by (apply sub_0; replace (y3 - y1) with ((y3 - y2) - (y1 - y2)) by ring; rewrite <- L1, <- K1; ring). reflexivity.
    + rewrite (plus_on_line l _ _ _ _ HP HQ N12 L), (plus_on_line l _ _ _ _ HR HQ N32 K). destruct L as (L1 & _), K as (K1 & _). unfold third.
      rewrite !plus_inverse; [reflexivity| |].
      * assert (Ex : l * l - x3 - x2 = x1) by (apply sub_0; rewrite <- E; ring). rewrite Ex. split; [reflexivity|].
        apply sub_0. replace (l * (x3 - x1) - y3 - - y1) with (l * (x3 - x2) - (y3 - y2) - (l * (x1 - x2) - (y1 - y2))) by ring. rewrite K1, L1. ring.
      * assert (Ex : l * l - x1 - x2 = x3) by (apply sub_0; rewrite <- E; ring). rewrite Ex. split; [reflexivity|].
        apply sub_0. replace (l * (x1 - x3) - y1 - - y3) with (l * (x1 - x2) - (y1 - y2) - (l * (x3 - x2) - (y3 - y2))) by ring. rewrite K1, L1. ring.
  - assert (Nlk : l - k <> 0) by (intros Z; apply Nkl; replace (k - l) with (- (l - k)) by ring; rewrite Z; ring).
    rewrite (half x1 y1 x2 y2 x3 y3 l k HP HQ HR L K Nkl N12), (half x3 y3 x2 y2 x1 y1 k l HR HQ HP K L Nlk N32).
    destruct L as (L1 & _), K as (K1 & _).
    set (g := (x1 - x2 - (x3 - x2)) / (k - l)). assert (Eg : g * (k - l) = x1 - x3) by (unfold g; field; exact Nkl).
    replace ((x3 - x2 - (x1 - x2)) / (l - k)) with g by (unfold g; field; split; assumption). clearbody g.
    assert (X1 : x1 = x3 + g * (k - l)) by (rewrite Eg; ring). clear Eg.
    assert (Y1 : y1 = y2 + l * (x1 - x2)) by (rewrite L1; ring). assert (Y3 : y3 = y2 + k * (x3 - x2)) by (rewrite K1; ring).
    unfold third. f_equal.
    + rewrite X1. ring.
    + rewrite Y1, Y3, X1. ring.
Qed.
End Curve.
