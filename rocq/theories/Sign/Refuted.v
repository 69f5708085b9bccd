(** Two cases in which the library does not follow the standards. *)
From Verif Require Import Base Facts Int.Model Point.Model Sign.Model Sign.Proofs Sign.Rfc.
From Verif Require Int.Spec Int.Proofs Int.Props Hash.Model Hash.Spec Hash.Props Prime.Props Curve.Fp Point.Spec Point.Order Point.Zero Sign.Spec.
From Coq Require Import Lia Znumtheory.
Open Scope Z_scope.
Ltac Zify.zify_post_hook ::= idtac.

(** ** The hash zero *)
Lemma int_inj x y : is_int256 x -> is_int256 y -> value x = value y -> x = y.
Proof. intros (Lx & Dx) (Ly & Dy). apply Int.Proofs.value_inj; try assumption. congruence. Qed.
Lemma value_zero : is_int256 c_ZERO /\ value c_ZERO = 0.
Proof.
  destruct Int.Props.C46_constants as (_ & _ & _ & _ & _ & _ & V0 & _ & F & _). split; [|exact V0]. 
  rewrite Forall_forall in F. apply F. do 6 right. left. reflexivity.
Qed.
Lemma value_one : is_int256 c_ONE /\ value c_ONE = 1.
Proof.
  destruct Int.Props.C46_constants as (_ & _ & _ & _ & _ & _ & _ & V1 & F & _). split; [|exact V1]. 
  rewrite Forall_forall in F. apply F. do 7 right. left. reflexivity.
Qed.
Lemma Gx_facts : Zero.Gx mod n = Zero.Gx /\ Zero.Gx <> 0 /\ p < Zero.Gx + n /\ 0 < Zero.Gx < n.
Proof. split; [reflexivity|]. split; [discriminate|]. split; [reflexivity|]. split; reflexivity. Qed.
Lemma G_coordinates : mult 1 G = Affine Zero.Gx Zero.Gy.
Proof. rewrite Order.multiple_1. reflexivity. Qed.
Lemma sign_zero : exists g, try_sign c_ONE c_ONE c_ZERO = Some (Some g) /\ is_int256 (sig_r g) /\ is_int256 (sig_s g) /\
  value (sig_r g) = Zero.Gx /\ value (sig_s g) = Zero.Gx.
Proof.
  destruct value_one as (I1 & V1), value_zero as (I0 & V0). destruct Gx_facts as (M & N & _ & B).
  assert (B1 : 0 < value c_ONE < n) by (rewrite V1; split; reflexivity).
  destruct (try_sign_spec c_ONE c_ONE c_ZERO I1 I1 I0 B1 B1) as (o & E & H). rewrite V1, V0 in H. destruct o as [g|].
  - exists g. split; [exact E|]. destruct H as (Ir & Is & _ & x & y & EG & Er & _ & Bs & K). rewrite G_coordinates in EG.
    assert (x = Zero.Gx) as -> by congruence. rewrite M in Er. rewrite Er in *. split; [exact Ir|]. split; [exact Is|]. split; [reflexivity|].
    rewrite Z.add_0_l, Z.mul_1_l, Z.mul_1_r, M in K. rewrite Z.mod_small in K; [exact K|clear - Bs; lia].
  - exfalso. destruct H as (x & y & EG & U). rewrite G_coordinates in EG. assert (x = Zero.Gx) as -> by congruence.
    rewrite M, Z.add_0_l, Z.mul_1_r, M in U. clear - U N. tauto.
Qed.
Lemma small_residue w g m q : 0 < m -> 0 <= w < q -> 0 < g < m -> q < g + m -> q < 2 * m -> w mod m = g -> w = g.
Proof.
  intros Hm Bw Bg H1 H2 E. pose proof (Z.div_mod w m ltac:(lia)) as D. rewrite E in D. assert (w / m = 0); [|nia].
  pose proof (Z.div_pos w m ltac:(lia) Hm). nia.
Qed.
Lemma verify_zero Q g : holds Q G -> is_int256 (sig_r g) -> is_int256 (sig_s g) ->
  value (sig_r g) = Zero.Gx -> value (sig_s g) = Zero.Gx -> verify_hash Q (repeat 0%N 32) g = Some false.
Proof.
  intros HQ Ir Is Er Es. unfold verify_hash. destruct value_zero as (I0 & V0). destruct Gx_facts as (M & N & Hp & B).
  destruct (Int.Props.C46_bytes_in (repeat 0%N 32) eq_refl eq_refl) as (Ih & Vh & _).
  assert (Z0 : Int.Spec.big_endian (repeat 0%N 32) = 0) by reflexivity. rewrite Z0 in Vh.
  destruct (modn_spec _ Ih) as (m & -> & Im & Vm). rewrite Vh, Zmod_0_l in Vm.
  destruct (Prime.Props.C46_inverse (sig_s g) Is ltac:(rewrite Es; exact B)) as (v & -> & Iv & Bv & Ev). rewrite Es in Ev.
  destruct (modmul_spec m v Im Iv) as (u & -> & Iu & Vu). rewrite Vm, Z.mul_0_l, Zmod_0_l in Vu.
  assert (u = c_ZERO) as -> by (apply int_inj; [exact Iu|exact I0|rewrite Vu, V0; reflexivity]).
  destruct (modmul_spec (sig_r g) v Ir Iv) as (v' & -> & Iv' & Vv'). rewrite Er, Ev in Vv'.
  destruct (Zero.points_mul_zero Q v' HQ Iv' Vv') as (r & -> & Ix & Vx).
  destruct (modn_spec (px r) Ix) as (x & -> & Ixx & Vxx). f_equal. destruct (Int.Props.C46_compare x (sig_r g) Ixx Ir) as (_ & _ & ->).
  apply Z.eqb_neq. rewrite Vxx, Vx, Er. intros E. apply Zero.wrong_not_Gx.
  pose proof (Curve.Fp.val_range Zero.wrong) as Bw. pose proof n_pos as Np. assert (Pn : p < 2 * n) by reflexivity.
  apply (small_residue (Curve.Fp.val Zero.wrong) Zero.Gx n p Np Bw B Hp Pn E).
Qed.

(** ** The second candidate of RFC 6979 *)
Definition sha (m : bytes) : bytes := match Hash.Model.hash 64 m with Some d => d | None => [] end.
Lemma sha_256 (m : bytes) : (8 * Nlen m < 2 ^ 64)%N -> Hash.Spec.is_sha256 m (sha m).
Proof.
  intros Hm. assert (E : concat [m] = m) by apply app_nil_r. unfold sha, Hash.Model.hash.
  destruct (Hash.Props.C44_streaming 64 [m]) as (d & -> & Sd); rewrite E in *; [|exact Hm|exact Sd].
  change (2 ^ 64)%N with 18446744073709551616%N in *. lia.
Qed.
Definition K2 : bytes := Eval vm_compute in match rfc_new 64 c_ONE [] with Some s => rfc_k s | None => [] end.
Definition V2 : bytes := Eval vm_compute in match rfc_new 64 c_ONE [] with Some s => rfc_v s | None => [] end.
Lemma start_is : rfc_new 64 c_ONE [] = Some (mkRfc K2 V2).
Proof. vm_cast_no_check (eq_refl (Some (mkRfc K2 V2))). Qed.
Definition code_second (s : rfc6979) : Z :=
  match rfc_next 64 s with
  | Some (_, s) => match rfc_next 64 s with Some (x, _) => value x | None => 0 end
  | None => 0
  end.
Definition rfc_second (s : rfc6979) : Z :=
  nth 1 (map Int.Spec.big_endian (Spec.rfc_candidates (Hash.Spec.HMAC sha) 2 (rfc_k s, rfc_v s))) 0.
Lemma seconds_differ : (code_second (mkRfc K2 V2) =? rfc_second (mkRfc K2 V2)) = false.
Proof. vm_cast_no_check (eq_refl false). Qed.
Lemma seconds s x1 s1 x2 s2 : rfc_next 64 s = Some (x1, s1) -> rfc_next 64 s1 = Some (x2, s2) ->
  [value x1; value x2] = map Int.Spec.big_endian (Spec.rfc_candidates (Hash.Spec.HMAC sha) 2 (rfc_k s, rfc_v s)) ->
  (code_second s =? rfc_second s) = true.
Proof. intros E1 E2 E. unfold code_second, rfc_second. rewrite E1, E2, <- E. apply Z.eqb_refl. Qed.
