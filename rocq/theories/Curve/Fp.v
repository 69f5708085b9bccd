(** The field of integers modulo p, and the curve over it. *)
From Verif Require Import Base.
From Verif Require Int.Spec Prime.Curve Prime.Fermat Prime.Inverse Curve.Spec Curve.Fast Curve.Group Curve.Formulas.
From Coq Require Import Lia Znumtheory Zpow_facts Field Ring Eqdep_dec.
Open Scope Z_scope.
Ltac Zify.zify_post_hook ::= idtac.
Notation p := Int.Spec.p.

Lemma p_pos : 0 < p. Proof. reflexivity. Qed.
Lemma mod_range x : 0 <= x mod p < p. Proof. apply Z.mod_pos_bound, p_pos. Qed.
Definition inside (x : Z) : bool := (0 <=? x) && (x <? p).
Lemma inside_iff x : inside x = true <-> 0 <= x < p.
Proof. unfold inside. rewrite andb_true_iff, Z.leb_le, Z.ltb_lt. tauto. Qed.
Record F := mkF { val : Z; val_in : inside val = true }.
Lemma val_range x : 0 <= val x < p. Proof. apply inside_iff, val_in. Qed.
Lemma F_eq x y : val x = val y -> x = y.
Proof. destruct x as [x Hx], y as [y Hy]. cbn [val]. intros <-. f_equal. apply UIP_dec, Bool.bool_dec. Qed.
Definition of_Z (x : Z) : F := mkF (x mod p) (proj2 (inside_iff _) (mod_range x)).
Lemma val_of x : val (of_Z x) = x mod p. Proof. reflexivity. Qed.
Lemma of_val x : of_Z (val x) = x.
Proof. apply F_eq. rewrite val_of. apply Z.mod_small, val_range. Qed.
Lemma of_mod x y : x mod p = y mod p -> of_Z x = of_Z y.
Proof. intros H. apply F_eq. exact H. Qed.

Definition f0 := of_Z 0.
Definition f1 := of_Z 1.
Definition fadd x y := of_Z (val x + val y).
Definition fmul x y := of_Z (val x * val y).
Definition fsub x y := of_Z (val x - val y).
Definition fopp x := of_Z (- val x).
Definition finv x := of_Z (val x ^ (p - 2)).
Definition fdiv x y := fmul x (finv y).

Lemma of_add x y : of_Z (x + y) = fadd (of_Z x) (of_Z y).
Proof. apply F_eq. unfold fadd. rewrite !val_of. apply Zplus_mod. Qed.
Lemma of_mul x y : of_Z (x * y) = fmul (of_Z x) (of_Z y).
Proof. apply F_eq. unfold fmul. rewrite !val_of. apply Zmult_mod. Qed.
Lemma of_sub x y : of_Z (x - y) = fsub (of_Z x) (of_Z y).
Proof. apply F_eq. unfold fsub. rewrite !val_of. apply Zminus_mod. Qed.
Lemma of_opp x : of_Z (- x) = fopp (of_Z x).
Proof. apply F_eq. unfold fopp. rewrite !val_of. change (- x) with (0 - x). change (- (x mod p)) with (0 - x mod p). symmetry. apply Zminus_mod_idemp_r. Qed.
Lemma surj x : exists z, x = of_Z z.
Proof. exists (val x). symmetry. apply of_val. Qed.
Ltac lift := intros; repeat match goal with x : F |- _ => destruct (surj x) as (? & ->) end.
Lemma ring_F : ring_theory f0 f1 fadd fmul fsub fopp (@eq F).
Proof.
  unfold f0, f1. constructor.
  - lift. rewrite <- of_add. f_equal.
  - lift. rewrite <- !of_add. f_equal. ring.
  - lift. rewrite <- !of_add. f_equal. ring.
  - lift. rewrite <- of_mul. f_equal. ring.
  - lift. rewrite <- !of_mul. f_equal. ring.
  - lift. rewrite <- !of_mul. f_equal. ring.
  - lift. rewrite <- !of_add, <- !of_mul, <- of_add. f_equal. ring.
  - lift. rewrite <- of_opp, <- of_sub, <- of_add. f_equal.
  - lift. rewrite <- of_opp, <- of_add. f_equal. ring.
Qed.
Lemma f1_n0 : f1 <> f0.
Proof. intros H. apply (f_equal val) in H. unfold f1, f0 in H. rewrite !val_of in H. vm_compute in H. discriminate. Qed.
Lemma val_n0 x : x <> f0 -> 0 < val x < p.
Proof.
  intros N. pose proof (val_range x) as B. destruct (Z.eq_dec (val x) 0) as [E|E]; [|clear - B E; lia].
  exfalso. apply N. apply F_eq. rewrite E. reflexivity.
Qed.
Lemma inv_l x : x <> f0 -> fmul (finv x) x = f1.
Proof.
  intros N. apply F_eq. unfold fmul, finv, f1. rewrite !val_of. rewrite Z.mul_comm.
  rewrite (Prime.Inverse.power_inverse p (val x) Prime.Curve.prime_p256_p (val_n0 x N)). symmetry. apply Z.mod_small. split; reflexivity || discriminate.
Qed.
Lemma field_F : field_theory f0 f1 fadd fmul fsub fopp fdiv finv (@eq F).
Proof. constructor; [exact ring_F|exact f1_n0|reflexivity|exact inv_l]. Qed.
Lemma dec (x y : F) : {x = y} + {x <> y}.
Proof. destruct (Z.eq_dec (val x) (val y)) as [E|N]; [left; apply F_eq, E|right; congruence]. Defined.
Add Field F_field : field_F.

(** ** The curve *)
Definition fa : F := of_Z (- 3).
Definition fb : F := of_Z Int.Spec.b.
Lemma two : fadd f1 f1 <> f0.
Proof. intros H. apply (f_equal val) in H. unfold f1, f0, fadd in H. rewrite !val_of in H. vm_compute in H. discriminate. Qed.

(** x^3 - 3x + b has no root.  A root would give a cube root of w below, a root of w^2 + b w + 1. *)
Definition s0 : Z := 18204275045333271803850252468056031438057061776906233838328249308827409745899.
Definition w0 : Z := (- Int.Spec.b + s0) * ((p + 1) / 2) mod p.
Definition third_of_p : positive := Z.to_pos ((p - 1) / 3).
Lemma third_of_p_spec : 3 * Zpos third_of_p = p - 1. Proof. vm_compute. reflexivity. Qed.
Lemma not_cube : (Curve.Fast.power_p w0 third_of_p mod p =? 1) = false. Proof. vm_compute. reflexivity. Qed.
Lemma s0_square : (s0 * s0) mod p = (Int.Spec.b * Int.Spec.b - 4) mod p. Proof. vm_compute. reflexivity. Qed.
Lemma w0_half : (2 * w0) mod p = (s0 - Int.Spec.b) mod p. Proof. vm_compute. reflexivity. Qed.
Lemma s0_n0 : s0 mod p <> 0. Proof. vm_compute. discriminate. Qed.
Lemma w0_n0 : w0 mod p <> 0. Proof. vm_compute. discriminate. Qed.

Lemma cube_power q v w e : 0 < q -> 0 <= e -> (v * (v * v)) mod q = w mod q -> v ^ (3 * e) mod q = w ^ e mod q.
Proof.
  intros Hq He H. rewrite (Zpower_mod w) by exact Hq. rewrite <- H. rewrite <- Zpower_mod by exact Hq.
  replace (v * (v * v)) with (v ^ 3) by ring. rewrite <- Z.pow_mul_r by (discriminate || exact He). reflexivity.
Qed.
Lemma no_cube_root (t : F) : fmul t (fmul t t) <> of_Z w0.
Proof.
  intros H. apply (f_equal val) in H. unfold fmul in H. rewrite !val_of in H. rewrite Zmult_mod_idemp_r in H.
  pose proof (val_range t) as B. set (v := val t) in *. clearbody v.
  assert (Nd : ~ (p | v)).
  { intros D. apply w0_n0. rewrite <- H. apply Z.mod_divide; [discriminate|]. apply Z.divide_mul_l, D. }
  pose proof (Prime.Fermat.fermat p v Prime.Curve.prime_p256_p Nd) as E.
  pose proof (Curve.Fast.power_p_spec w0 third_of_p) as Q.
  assert (C : w0 ^ Zpos third_of_p mod p = 1).
  { rewrite <- (cube_power p v w0 (Zpos third_of_p) p_pos (Pos2Z.is_nonneg _) H), third_of_p_spec. exact E. }
  rewrite C in Q. pose proof not_cube as N. rewrite Q in N. discriminate.
Qed.
Notation "2" := (fadd f1 f1).
Lemma no_root x : fadd (fadd (fmul (fmul x x) x) (fmul fa x)) fb <> f0.
Proof.
  intros H. set (s := of_Z s0).
  assert (Ea : fa = fopp (fadd 2 f1)) by (unfold fa, f1; rewrite <- !of_add, <- of_opp; reflexivity).
  assert (Es : fmul s s = fsub (fmul fb fb) (fmul 2 2)).
  { unfold s, fb, f1. rewrite <- of_add, <- !of_mul, <- of_sub. apply of_mod. exact s0_square. }
  assert (Ns : s <> f0) by (intros Z; apply (f_equal val) in Z; unfold s, f0 in Z; rewrite !val_of in Z; exact (s0_n0 Z)).
  assert (Ew : fmul 2 (of_Z w0) = fsub s fb).
  { unfold s, fb, f1. rewrite <- of_add, <- of_mul, <- of_sub. apply of_mod. exact w0_half. }
  set (d := fsub (fmul x x) f1).
  assert (Eb : fb = fsub (fmul (fadd 2 f1) x) (fmul (fmul x x) x)).
  { apply (Curve.Formulas.sub_0 F f0 f1 fadd fmul fsub fopp fdiv finv field_F). rewrite <- H, Ea. ring. }
  assert (Ed : fmul s s = fmul (fmul d d) (fsub (fmul x x) (fmul 2 2))) by (rewrite Es, Eb; unfold d; ring).
  assert (Nd : d <> f0).
  { intros Z. rewrite Z in Ed. apply (Curve.Formulas.mul_n0 F f0 f1 fadd fmul fsub fopp fdiv finv field_F dec s s Ns Ns). rewrite Ed. ring. }
  set (t := fdiv (fadd x (fdiv s d)) 2).
  apply (no_cube_root t).
  assert (R2 : fmul (fdiv s d) (fdiv s d) = fsub (fmul x x) (fmul 2 2)).
  { transitivity (fdiv (fmul s s) (fmul d d)); [field; exact Nd|]. rewrite Ed. field. exact Nd. }
  set (r := fdiv s d) in *.
  assert (Er : fmul r d = s) by (unfold r; field; exact Nd). clearbody r.
  apply (Curve.Formulas.cancel_l F f0 f1 fadd fmul fsub fopp fdiv finv field_F dec (fmul 2 (fmul 2 2))).
  { repeat apply (Curve.Formulas.mul_n0 F f0 f1 fadd fmul fsub fopp fdiv finv field_F dec); exact two. }
  transitivity (fmul (fadd x r) (fmul (fadd x r) (fadd x r))); [unfold t; field; exact two|].
  transitivity (fmul (fmul 2 2) (fsub s fb)); [|rewrite <- Ew; ring].
  rewrite <- Er, Eb. unfold d.
  transitivity (fadd (fadd (fmul (fmul x x) x) (fmul (fadd 2 f1) (fmul (fmul x x) r))) (fadd (fmul (fadd 2 f1) (fmul x (fmul r r))) (fmul (fmul r r) r))); [ring|].
  rewrite R2. ring.
Qed.
