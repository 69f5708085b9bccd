(** points_mul with a first factor of zero. *)
From Verif Require Import Base Field.Model Curve.Fp Curve.Link Point.Model Point.Proofs Point.Mult Point.Coords.
From Verif Require Int.Model Int.Spec Point.Spec.
From Coq Require Import Lia Field Ring.
Open Scope Z_scope.
Ltac Zify.zify_post_hook ::= idtac.
Add Field F_field4 : field_F.

Definition origin : projective := mkProj c_ZERO c_ZERO c_ONE.
Lemma bit_zero i : Int.Model.bit Int.Model.c_ZERO i = 0.
Proof.
  unfold Int.Model.bit. assert (nth (i / 32) Int.Model.c_ZERO 0 = 0) as ->.
  { destruct (Nat.lt_ge_cases (i / 32) 8) as [C|C]; [|apply nth_overflow; exact C].
    destruct (i / 32)%nat as [|[|[|[|[|[|[|[|?]]]]]]]]; try reflexivity. clear - C. lia. }
  rewrite Z.shiftr_0_l. reflexivity.
Qed.
Lemma base_tables_zero t i n : ok n -> forall ts, base_tables false (t :: ts) i Int.Model.c_ZERO n true = base_tables false ts i Int.Model.c_ZERO origin true.
Proof.
  intros On ts. cbn [base_tables]. rewrite !bit_zero.
  change (Z.lor (Z.lor (Z.lor 0 (Z.shiftl 0 1)) (Z.shiftl 0 2)) (Z.shiftl 0 3)) with 0.
  assert (S : select_affine t 0 = mkAff c_ZERO c_ZERO) by (apply (select_affine_spec t 0); lia). rewrite S.
  destruct (add_mixed_ok n (mkAff c_ZERO c_ZERO) f0 f0 On (conj r_ZERO r_ZERO)) as (u & -> & _).
  rewrite assign_true. reflexivity.
Qed.
Lemma origin_ok : ok origin.
Proof. exists f0, f0, f1. split; [exact r_ZERO|]. split; [exact r_ZERO|exact r_ONE]. Qed.
Lemma base_rounds_zero k n : ok n -> base_rounds false (S k) Int.Model.c_ZERO n true = Some origin.
Proof.
  revert n. induction k as [|k IH]; intros n On.
  - cbn [base_rounds]. change (32 - 1 =? 0)%nat with false. cbv iota. destruct (double_ok n On) as (d & -> & Od).
    rewrite (base_tables_zero 0 _ d Od), (base_tables_zero 1 _ origin origin_ok). reflexivity.
  - cbn [base_rounds]. change (match k with O => _ | S _ => _ end) with (32 - S (S k))%nat.
    assert (exists d, (if (32 - S (S k) =? 0)%nat then Some n else double false n) = Some d /\ ok d) as (d & Ed & Od).
    { destruct (32 - S (S k) =? 0)%nat; [exists n; split; [reflexivity|exact On]|apply double_ok, On]. }
    change (2 + k)%nat with (S (S k)). 
    etransitivity; [|exact (IH origin origin_ok)].
    rewrite Ed. rewrite (base_tables_zero 0 _ d Od), (base_tables_zero 1 _ origin origin_ok). reflexivity.
Qed.
Lemma scalar_base_zero : scalar_base_mul false Int.Model.c_ZERO = Some origin.
Proof. apply (base_rounds_zero 31). exact zero_ok. Qed.

Definition Gx : Z := 0x6B17D1F2E12C4247F8BCE6E563A440F277037D812DEB33A0F4A13945D898C296.
Definition Gy : Z := 0x4FE342E2FE1A7F9B8EE7EB4A7C0F9E162BCE33576B315ECECBB6406837BF51F5.
Lemma sumX_scale x y Z : sumX f0 f0 f1 (fmul x Z) (fmul y Z) Z = fmul (fmul Z Z) (sumX f0 f0 f1 x y f1).
Proof. unfold Formulas.sumX. ring. Qed.
Lemma sumZ_scale x y Z : sumZ f0 f0 f1 (fmul x Z) (fmul y Z) Z = fmul (fmul Z Z) (sumZ f0 f0 f1 x y f1).
Proof. unfold Formulas.sumZ. ring. Qed.
Lemma scale_out sx sz Z : sz <> f0 -> Z <> f0 -> fmul (fmul (fmul Z Z) sx) (finv (fmul (fmul Z Z) sz)) = fmul sx (finv sz).
Proof. intros Ns NZ. field. split; assumption. Qed.
(** The first coordinate of the sum of (0, 0), which is no point of the curve, and of the base point. *)
Definition wrong : F := fmul (sumX f0 f0 f1 (of_Z Gx) (of_Z Gy) f1) (finv (sumZ f0 f0 f1 (of_Z Gx) (of_Z Gy) f1)).
Lemma check_wrong : (val (sumZ f0 f0 f1 (of_Z Gx) (of_Z Gy) f1) =? 0) = false /\
  (val (sumX f0 f0 f1 (of_Z Gx) (of_Z Gy) f1) =? val (fmul (of_Z Gx) (sumZ f0 f0 f1 (of_Z Gx) (of_Z Gy) f1))) = false.
Proof. split; vm_compute; reflexivity. Qed.
Lemma wrong_not_Gx : val wrong <> Gx.
Proof.
  destruct check_wrong as (CZ & CX). apply Z.eqb_neq in CZ, CX. intros E. apply CX. f_equal.
  set (sx := sumX f0 f0 f1 (of_Z Gx) (of_Z Gy) f1) in *. set (sz := sumZ f0 f0 f1 (of_Z Gx) (of_Z Gy) f1) in *.
  assert (Nz : sz <> f0) by (intros H; apply CZ; rewrite H; reflexivity).
  assert (wrong = of_Z Gx) as W by (rewrite <- (of_val wrong), E; reflexivity). rewrite <- W. unfold wrong. fold sx sz. field. exact Nz.
Qed.
Lemma points_mul_zero P k : Spec.holds P Curve.Spec.G -> Int.Spec.is_int256 k -> Int.Spec.value k = 1 ->
  exists r, points_mul false P Int.Model.c_ZERO k = Some r /\ Int.Spec.is_int256 (px r) /\ Int.Spec.value (px r) = val wrong.
Proof.
  intros HP Ik Ek. unfold points_mul.
  assert (V : Curve.Spec.valid Curve.Spec.G) by (rewrite <- G_Z; apply toZ_valid, G_valid).
  destruct (to_affine_spec P Curve.Spec.G HP V) as (a & -> & Sa). { unfold Curve.Spec.G. discriminate. }
  rewrite scalar_base_zero.
  destruct (scalar_mul_spec a G k G_valid Sa Ik) as (n2 & inf2 & -> & H2). rewrite Ek in H2.
  assert (S2 : stands n2 (mult 1 G)) by (apply (settled_stands _ _ _ _ H2); discriminate). rewrite mult_1 in S2.
  destruct S2 as (X2 & Y2 & Z2 & R2 & P2).
  assert (P2' : Z2 <> f0 /\ X2 = fmul (of_Z Gx) Z2 /\ Y2 = fmul (of_Z Gy) Z2) by exact P2. clear P2. destruct P2' as (NZ & -> & ->).
  destruct (padd_formulas origin n2 f0 f0 f1 _ _ _ (conj r_ZERO (conj r_ZERO r_ONE)) R2) as (s & -> & Rs).
  destruct (from_projective_F s _ _ _ Rs) as (r & E & Ix & _ & Vx & _). exists r. split; [exact E|]. split; [exact Ix|]. rewrite Vx.
  rewrite sumX_scale, sumZ_scale. unfold wrong.
  destruct check_wrong as (CZ & _). apply Z.eqb_neq in CZ. rewrite scale_out; [reflexivity| |exact NZ].
  intros H. apply CZ. rewrite H. reflexivity.
Qed.
