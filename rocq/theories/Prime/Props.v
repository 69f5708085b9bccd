(** C46, continued: exponents modulo the order of the group, which is a prime. *)
From Verif Require Import Base Int.Model Int.Spec.
From Verif Require Int.Props Int.Proofs Prime.Curve Prime.Inverse.
From Coq Require Import Lia Znumtheory.
Open Scope Z_scope.
Ltac Zify.zify_post_hook ::= idtac.

Theorem C46_order_prime : prime n.
Proof. exact Prime.Curve.prime_p256_n. Qed.
Print Assumptions C46_order_prime.

(** The inverse that signing and verification use. *)
Theorem C46_inverse x : is_int256 x -> 0 < value x < n ->
  exists r, inv x = Some r /\ is_int256 r /\ 0 < value r < n /\ (value x * value r) mod n = 1.
Proof.
  intros Ix Bx. destruct Int.Props.C46_constants as (Vn & Vn2 & _ & _ & _ & _ & _ & _ & F & Hn & _).
  assert (IN : is_int256 c_N /\ is_int256 c_N_MIN_2).
  { inversion F as [|? ? H1 F1]; subst. inversion F1 as [|? ? H2 F2]; subst. split; assumption. }
  destruct (Int.Props.C46_modpow x c_N_MIN_2 c_N Ix (proj2 IN) (proj1 IN) Hn) as (r & E & Ir & V). rewrite Vn, Vn2 in V.
  exists r. split; [exact E|]. split; [exact Ir|].
  pose proof (Prime.Inverse.power_inverse n (value x) C46_order_prime Bx) as H. rewrite <- V in H. split; [|exact H].
  assert (Pn : 0 < n) by reflexivity.
  pose proof (Z.mod_pos_bound (value x ^ (n - 2)) n Pn) as B. rewrite <- V in B.
  destruct (Z.eq_dec (value r) 0) as [E0|N0]; [rewrite E0, Z.mul_0_r in H; discriminate|]. clear - B N0. lia.
Qed.
Print Assumptions C46_inverse.

(** The product of exponents other than zero is another one: the type of such exponents is kept. *)
Theorem C46_product_nonzero x y : is_int256 x -> is_int256 y -> 0 < value x < n -> 0 < value y < n ->
  exists r, modmul x y c_N = Some r /\ is_int256 r /\ 0 < value r < n /\ value r = (value x * value y) mod n.
Proof.
  intros Ix Iy Bx By. destruct Int.Props.C46_constants as (Vn & _ & _ & _ & _ & _ & _ & _ & F & Hn & _).
  assert (IN : is_int256 c_N) by (inversion F; assumption).
  destruct (Int.Props.C46_modmul x y 0 c_N Ix Iy ltac:(lia) IN Hn) as (r & E & Ir & V). rewrite Vn, Z.mul_0_r, Z.add_0_r in V.
  exists r. split; [exact E|]. split; [exact Ir|]. split; [|exact V].
  assert (Pn : 0 < n) by reflexivity.
  pose proof (Z.mod_pos_bound (value x * value y) n Pn) as B. rewrite <- V in B.
  destruct (Z.eq_dec (value r) 0) as [E0|N0]; [exfalso|clear - B N0; lia].
  rewrite V in E0. apply Z.mod_divide in E0; [|discriminate]. apply prime_mult in E0; [|exact C46_order_prime].
  destruct E0 as [D|D]; apply Z.divide_pos_le in D; lia.
Qed.
Print Assumptions C46_product_nonzero.

Example C46_inverse_nonvacuous : is_int256 c_N_MIN_2 /\ 0 < value c_N_MIN_2 < n.
Proof.
  destruct Int.Props.C46_constants as (_ & Vn2 & _ & _ & _ & _ & _ & _ & F & _). split; [|rewrite Vn2; split; reflexivity].
  inversion F as [|? ? H1 F1]; subst. inversion F1; assumption.
Qed.
