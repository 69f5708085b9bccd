(** From projective coordinates to numbers, and the multiplications of PointP256. *)
From Verif Require Import Base Field.Model Curve.Fp Curve.Link Point.Model Point.Proofs Point.Mult.
From Verif Require Int.Model Int.Spec Field.Spec Field.Convert Point.Spec.
From Coq Require Import Lia Field Ring.
Open Scope Z_scope.
Ltac Zify.zify_post_hook ::= idtac.
Add Field F_field3 : field_F.

Lemma finv_0 : finv f0 = f0.
Proof.
  apply F_eq. unfold finv, f0. rewrite !val_of.
  assert (forall e m, 0 < e -> (0 mod m) ^ e mod m = 0 mod m) as H by (intros e m He; rewrite Zmod_0_l, Z.pow_0_l by exact He; reflexivity).
  apply H. reflexivity.
Qed.
Lemma r_inv l x : rep l x -> exists r, inv false l = Some r /\ rep r (finv x).
Proof. intros H. destruct (Field.Convert.inv_release l _ H) as (r & E & R). exists r. split; [exact E|exact R]. Qed.
Lemma from_projective_F n X Y Z : rep3 n X Y Z ->
  exists r, from_projective false n = Some r /\ Int.Spec.is_int256 (px r) /\ Int.Spec.is_int256 (py r) /\
    Int.Spec.value (px r) = val (fmul X (finv Z)) /\ Int.Spec.value (py r) = val (fmul Y (finv Z)).
Proof.
  intros (HX & HY & HZ). unfold from_projective, to_affine. destruct (r_inv _ _ HZ) as (zi & -> & Hzi).
  destruct (Field.Convert.rep_mul_release _ _ _ _ HX Hzi) as (x & -> & Rx & Bx).
  destruct (Field.Convert.rep_mul_release _ _ _ _ HY Hzi) as (y & -> & Ry & By). cbn [ax ay].
  destruct (Field.Convert.from_montgomery x _ Rx Bx) as (vx & -> & Ix & Vx).
  destruct (Field.Convert.from_montgomery y _ Ry By) as (vy & -> & Iy & Vy).
  exists (mkPoint vx vy). split; [reflexivity|]. cbn [px py]. split; [exact Ix|]. split; [exact Iy|]. split; [exact Vx|exact Vy].
Qed.
Lemma from_stands n A : stands n A -> exists r, from_projective false n = Some r /\ Spec.holds r (toZ A).
Proof.
  intros (X & Y & Z & R & P). destruct (from_projective_F n X Y Z R) as (r & E & Ix & Iy & Vx & Vy). exists r. split; [exact E|].
  split; [exact Ix|]. split; [exact Iy|]. rewrite Vx, Vy. destruct A as [|x y]; cbn [toZ Spec.coordinates].
  - destruct P as (-> & -> & _). rewrite finv_0. f_equal; transitivity (val f0); try reflexivity; f_equal; ring.
  - destruct P as (N & -> & ->). f_equal; f_equal; field; exact N.
Qed.
Lemma from_null n : null n -> exists r, from_projective false n = Some r /\ Spec.holds r Curve.Spec.Infinity.
Proof.
  intros (Z & R). destruct (from_projective_F n _ _ Z R) as (r & E & Ix & Iy & Vx & Vy). exists r. split; [exact E|].
  split; [exact Ix|]. split; [exact Iy|]. rewrite Vx, Vy. cbn [Spec.coordinates]. f_equal; transitivity (val f0); try reflexivity; f_equal; ring.
Qed.
Lemma toZ_mult k A : toZ (mult k A) = Spec.mult k (toZ A).
Proof. apply toZ_times. Qed.
Lemma from_settled n inf k A : settled n inf k A -> exists r, from_projective false n = Some r /\ Spec.holds r (Spec.mult k (toZ A)).
Proof.
  intros (_ & H). destruct inf.
  - destruct H as (-> & H). exact (from_null n H).
  - rewrite <- toZ_mult. exact (from_stands n _ H).
Qed.
Lemma settled_stands n inf k A : settled n inf k A -> k <> 0 -> stands n (mult k A).
Proof. intros (_ & H) N. destruct inf; [|exact H]. destruct H as (H & _). contradiction. Qed.
Lemma to_affine_spec P A : Spec.holds P A -> Curve.Spec.valid A -> A <> Curve.Spec.Infinity ->
  exists a, point_to_affine P = Some a /\ stands2 a (ofZ A).
Proof.
  intros (Ix & Iy & E) V N. destruct A as [|x y]; [contradiction|]. cbn [Spec.coordinates] in E.
  destruct V as (Bx & By & _). assert (Ex : Int.Spec.value (px P) = x) by congruence. assert (Ey : Int.Spec.value (py P) = y) by congruence.
  clear E. unfold point_to_affine.
  destruct (Field.Convert.to_montgomery (px P) Ix ltac:(rewrite Ex; apply Bx)) as (lx & -> & Rx & _).
  destruct (Field.Convert.to_montgomery (py P) Iy ltac:(rewrite Ey; apply By)) as (ly & -> & Ry & _).
  exists (mkAff lx ly). split; [reflexivity|]. exists (of_Z x), (of_Z y). split; [|reflexivity]. split; unfold rep; cbn [ax ay]; rewrite val_of.
  - rewrite Z.mod_small by exact Bx. rewrite <- Ex. exact Rx.
  - rewrite Z.mod_small by exact By. rewrite <- Ey. exact Ry.
Qed.

Lemma base_point_mul_spec k : Int.Spec.is_int256 k ->
  exists r, base_point_mul false k = Some r /\ Spec.holds r (Spec.mult (Int.Spec.value k) Curve.Spec.G).
Proof.
  intros Ik. destruct (scalar_base_mul_spec k Ik) as (n & inf & E & H). unfold base_point_mul. rewrite E. rewrite <- G_Z. exact (from_settled _ _ _ _ H).
Qed.
Lemma point_mul_spec P A k : Spec.holds P A -> Curve.Spec.valid A -> A <> Curve.Spec.Infinity -> Int.Spec.is_int256 k ->
  exists r, point_mul false P k = Some r /\ Spec.holds r (Spec.mult (Int.Spec.value k) A).
Proof.
  intros HP V N Ik. unfold point_mul. destruct (to_affine_spec P A HP V N) as (a & -> & Sa).
  destruct (scalar_mul_spec a (ofZ A) k (ofZ_valid A V) Sa Ik) as (n & inf & -> & H). pose proof (from_settled _ _ _ _ H) as R. rewrite (to_ofZ A V) in R. exact R.
Qed.
Lemma points_mul_spec P A k1 k2 : Spec.holds P A -> Curve.Spec.valid A -> A <> Curve.Spec.Infinity -> Int.Spec.is_int256 k1 -> Int.Spec.is_int256 k2 ->
  Int.Spec.value k1 <> 0 -> Int.Spec.value k2 <> 0 ->
  exists r, points_mul false P k1 k2 = Some r /\
    Spec.holds r (Curve.Spec.plus (Spec.mult (Int.Spec.value k1) Curve.Spec.G) (Spec.mult (Int.Spec.value k2) A)).
Proof.
  intros HP V N I1 I2 N1 N2. unfold points_mul. destruct (to_affine_spec P A HP V N) as (a & -> & Sa).
  destruct (scalar_base_mul_spec k1 I1) as (n1 & inf1 & -> & H1).
  destruct (scalar_mul_spec a (ofZ A) k2 (ofZ_valid A V) Sa I2) as (n2 & inf2 & -> & H2).
  pose proof (settled_stands _ _ _ _ H1 N1) as S1. pose proof (settled_stands _ _ _ _ H2 N2) as S2.
  destruct (padd_sum n1 n2 _ _ (mult_valid _ G G_valid) (mult_valid _ _ (ofZ_valid A V)) S1 S2) as (s & -> & Ss).
  pose proof (from_stands _ _ Ss) as R. rewrite toZ_plus, !toZ_mult, (to_ofZ A V), G_Z in R. exact R.
Qed.
