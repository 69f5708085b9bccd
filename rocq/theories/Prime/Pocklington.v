(** Certificates of primality. *)
From Coq Require Import ZArith Znumtheory Zpow_facts Lia List.
From Verif Require Import Prime.Fermat.
Import ListNotations.
Open Scope Z_scope.
Ltac Zify.zify_post_hook ::= idtac.

(** ** Trial division *)
Fixpoint trial (fuel : nat) (d n : Z) : bool :=
  match fuel with
  | O => false
  | S f => if n <? d * d then true else if n mod d =? 0 then false else trial f (d + 1) n
  end.
Lemma trial_spec fuel : forall d n, trial fuel d n = true -> 0 < d ->
  forall k, d <= k -> k * k <= n -> ~ (k | n).
Proof.
  induction fuel as [|f IH]; intros d n H Hd k Hk Hn; [discriminate|]. cbn [trial] in H.
  destruct (Z.ltb_spec n (d * d)); [assert (d * d <= k * k) by (apply Z.mul_le_mono_nonneg; lia); lia|].
  destruct (Z.eqb_spec (n mod d) 0) as [|E]; [discriminate|].
  destruct (Z.eq_dec k d) as [-> | Hne]; [intros D; apply E; apply Zdivide_mod, D|].
  apply (IH (d + 1) n H); lia.
Qed.
(** A divisor above one that is no larger than the square root, prime. *)
Lemma small_prime_divisor n : 1 < n -> ~ prime n -> exists r, prime r /\ (r | n) /\ r * r <= n.
Proof.
  assert (forall b, 0 <= b -> forall n, n < b -> 1 < n -> exists r, prime r /\ (r | n)) as P.
  { intros b Hb. pattern b. apply natlike_ind; [intros; lia| |exact Hb]. clear. intros b Hb IH n Hn H1.
    destruct (prime_dec n) as [Pn|Nn]; [exists n; split; [exact Pn|apply Z.divide_refl]|].
    destruct (not_prime_divide n H1 Nn) as (d & Hd & D). destruct (IH d ltac:(lia) ltac:(lia)) as (r & Pr & Dr).
    exists r. split; [exact Pr|]. eapply Z.divide_trans; eassumption. }
  intros H1 Nn. destruct (not_prime_divide n H1 Nn) as (d & Hd & D).
  assert (exists e, 1 < e < n /\ (e | n) /\ e * e <= n) as (e & He & De & Be).
  { destruct D as (k & E). destruct (Z.le_gt_cases d k) as [L|L].
    - exists d. split; [lia|]. split; [exists k; exact E|]. rewrite E. apply Z.mul_le_mono_nonneg_r; lia.
    - exists k. split; [nia|]. split; [exists d; lia|]. rewrite E. apply Z.mul_le_mono_nonneg_l; nia. }
  destruct (P (e + 1) ltac:(lia) e ltac:(lia) ltac:(lia)) as (r & Pr & Dr). exists r. split; [exact Pr|].
  split; [eapply Z.divide_trans; eassumption|]. assert (1 < r) by (destruct Pr; lia).
  assert (r <= e) by (apply Z.divide_pos_le; [lia|exact Dr]). assert (r * r <= e * e) by (apply Z.mul_le_mono_nonneg; lia). lia.
Qed.
Lemma trial_prime fuel n : trial fuel 2 n = true -> 1 < n -> prime n.
Proof.
  intros H H1. destruct (prime_dec n) as [Pn|Nn]; [exact Pn|exfalso].
  destruct (small_prime_divisor n H1 Nn) as (r & Pr & Dr & Br). assert (1 < r) by (destruct Pr; lia).
  exact (trial_spec fuel 2 n H ltac:(lia) r ltac:(lia) Br Dr).
Qed.

(** ** Pocklington's criterion *)
Lemma pow_mod_1 a m r : 1 < r -> 0 <= m -> a mod r = 1 -> a ^ m mod r = 1.
Proof.
  intros Hr Hm H. rewrite Zpower_mod by lia. rewrite H, Z.pow_1_l by exact Hm. apply Z.mod_small. lia.
Qed.
Lemma pow_gcd a r : 1 < r -> forall b, 0 <= b -> forall x y, 0 <= y <= b -> 0 <= x -> a ^ x mod r = 1 -> a ^ y mod r = 1 -> a ^ Z.gcd x y mod r = 1.
Proof.
  intros Hr b Hb. pattern b. apply natlike_ind; [| |exact Hb]; clear b Hb.
  - intros x y Hy Hx Ex _. replace y with 0 by lia. rewrite Z.gcd_0_r, Z.abs_eq by exact Hx. exact Ex.
  - intros b Hb IH x y Hy Hx Ex Ey. destruct (Z.eq_dec y 0) as [-> | Hne]; [rewrite Z.gcd_0_r, Z.abs_eq by exact Hx; exact Ex|].
    rewrite Z.gcd_comm, <- Z.gcd_mod, Z.gcd_comm by lia. pose proof (Z.mod_pos_bound x y ltac:(lia)).
    apply IH; [lia|lia|exact Ey|].
    rewrite (Z.div_mod x y Hne) in Ex. pose proof (Z.div_pos x y Hx ltac:(lia)).
    rewrite Z.pow_add_r, Z.pow_mul_r in Ex by (try apply Z.mul_nonneg_nonneg; lia).
    rewrite <- Zmult_mod_idemp_l, (pow_mod_1 (a ^ y) (x / y) r Hr ltac:(lia) Ey), Z.mul_1_l in Ex. exact Ex.
Qed.
Lemma drop_factor q e m g : prime q -> 1 <= e -> (g | q ^ e * m) -> ~ (q ^ e | g) -> (g | q ^ (e - 1) * m).
Proof.
  intros Pq He (k & E) N. assert (1 < q) by (destruct Pq; lia).
  assert (Hq : q ^ e = q * q ^ (e - 1)) by (replace e with (Z.succ (e - 1)) at 1 by lia; apply Z.pow_succ_r; lia).
  destruct (Zdivide_dec q k) as [(k' & ->)|ND].
  - exists k'. rewrite Hq in E. apply (Z.mul_reg_l _ _ q); [lia|]. lia.
  - exfalso. apply N. apply Gauss with k.
    + exists m. lia.
    + apply rel_prime_sym. apply rel_prime_Zpower_r; [lia|]. apply rel_prime_sym. apply prime_rel_prime; assumption.
Qed.

(** What one prime power q^e of n - 1 says about the prime divisors of n: [b] is the inverse of a^((n-1)/q) - 1. *)
Lemma pocklington_step n a q e m b r : prime q -> 1 <= e -> 1 < n -> n - 1 = q ^ e * m -> 0 <= m -> 0 <= a ->
  a ^ (n - 1) mod n = 1 -> ((a ^ (q ^ (e - 1) * m) - 1) * b) mod n = 1 ->
  prime r -> (r | n) -> (q ^ e | r - 1).
Proof.
  intros Pq He Hn En Hm Ha E1 Eb Pr Dr. assert (Hr : 1 < r) by (destruct Pr; lia). assert (Hq : 1 < q) by (destruct Pq; lia).
  assert (T : forall x y, x mod n = y -> x mod r = y mod r).
  { intros x y <-. apply Zmod_div_mod; [lia|lia|exact Dr]. }
  apply T in E1. apply T in Eb. rewrite (Z.mod_small 1) in * by lia.
  destruct (Zdivide_dec (q ^ e) (r - 1)) as [D|ND]; [exact D|exfalso].
  assert (Ar : a mod r <> 0).
  { intros Z0. rewrite Zpower_mod, Z0, Z.pow_0_l in E1 by lia. rewrite Z.mod_0_l in E1 by lia. discriminate. }
  assert (Fr : a ^ (r - 1) mod r = 1).
  { apply fermat; [exact Pr|]. intros D. apply Ar, Zdivide_mod, D. }
  assert (G : a ^ Z.gcd (n - 1) (r - 1) mod r = 1) by (apply (pow_gcd a r Hr (r - 1)); [lia|lia|lia|exact E1|exact Fr]).
  pose proof (Z.gcd_divide_l (n - 1) (r - 1)) as GL. pose proof (Z.gcd_divide_r (n - 1) (r - 1)) as GR. rewrite En in GL at 2.
  pose proof (Z.gcd_nonneg (n - 1) (r - 1)) as G0.
  assert (NG : ~ (q ^ e | Z.gcd (n - 1) (r - 1))) by (intros D; apply ND; eapply Z.divide_trans; eassumption).
  destruct (drop_factor q e m _ Pq He GL NG) as (k & Ek). set (g := Z.gcd (n - 1) (r - 1)) in *. clearbody g.
  assert (g <> 0). { intros ->. destruct GR as (c & Ec). lia. }
  assert (0 <= q ^ (e - 1) * m) by (apply Z.mul_nonneg_nonneg; [apply Z.pow_nonneg|]; lia).
  assert (0 <= k) by (apply (Z.mul_nonneg_cancel_r k g); [lia|rewrite <- Ek; assumption]).
  assert (Hk0 : 0 <= k) by assumption. assert (Hr0 : r <> 0) by (clear - Hr; lia). assert (Hr1 : 0 <= 1 < r) by (clear - Hr; lia).
  rewrite Ek, (Z.mul_comm k g), Z.pow_mul_r in Eb by assumption. pose proof (pow_mod_1 (a ^ g) k r Hr Hk0 G) as HG.
  assert (Z0 : ((a ^ g) ^ k - 1) mod r = 0).
  { rewrite Zminus_mod, HG, (Z.mod_small 1 r Hr1), Z.sub_diag. apply Z.mod_0_l, Hr0. }
  rewrite <- Zmult_mod_idemp_l, Z0, Z.mul_0_l, Z.mod_0_l in Eb by exact Hr0. discriminate.
Qed.

(** A divisor of all the r - 1, by parts. *)
Lemma divide_both x y z : rel_prime x y -> (x | z) -> (y | z) -> (x * y | z).
Proof.
  intros H (k & ->) D. destruct (Gauss y x k) as (j & ->).
  - rewrite Z.mul_comm. exact D.
  - apply rel_prime_sym, H.
  - exists j. ring.
Qed.
Lemma pocklington n F : 1 < n -> 0 < F -> n < F * F -> (forall r, prime r -> (r | n) -> (F | r - 1)) -> prime n.
Proof.
  intros Hn HF B H. destruct (prime_dec n) as [Pn|Nn]; [exact Pn|exfalso].
  destruct (small_prime_divisor n Hn Nn) as (r & Pr & Dr & Br). assert (1 < r) by (destruct Pr; lia).
  assert (F <= r - 1) by (apply Z.divide_pos_le; [lia|apply H; assumption]).
  assert (F * F <= r * r) by (apply Z.mul_le_mono_nonneg; lia). lia.
Qed.

(** A certificate: the base, and for each prime power of the factored part the prime, the exponent and the inverse. *)
Definition check_part (n a : Z) (t : Z * Z * Z) : bool :=
  let '(q, e, b) := t in
  let u := Zpow_mod a ((n - 1) / q) n in
  (1 <=? e) && ((n - 1) mod q ^ e =? 0) && (((u - 1) * b) mod n =? 1) && (Zpow_mod u q n =? 1).
Definition product (l : list (Z * Z * Z)) : Z := fold_right (fun '(q, e, _) acc => q ^ e * acc) 1 l.
Fixpoint coprime_parts (l : list (Z * Z * Z)) : bool :=
  match l with [] => true | (q, e, b) :: t => (Z.gcd (q ^ e) (product t) =? 1) && coprime_parts t end.
Definition check (n a : Z) (l : list (Z * Z * Z)) : bool :=
  (1 <? n) && (0 <=? a) && (0 <? product l) && (n <? product l * product l) && coprime_parts l && forallb (check_part n a) l.

Lemma check_prime n a l : Forall (fun '(q, _, _) => prime q) l -> check n a l = true -> prime n.
Proof.
  intros Ps C. unfold check in C. rewrite !Bool.andb_true_iff in C. destruct C as (((((C1 & Ca) & CF) & CB) & Cc) & C3).
  apply Z.ltb_lt in C1, CF, CB. apply Z.leb_le in Ca.
  apply (pocklington n (product l)); auto. intros r Pr Dr. clear CF CB.
  induction l as [|((q & e) & b) l IH]; [exists (r - 1); cbn; lia|].
  inversion Ps as [|? ? Pq Ps']; subst. cbn [coprime_parts forallb] in *. rewrite Bool.andb_true_iff in *. destruct Cc as (Cg & Cc). destruct C3 as (Cq & C3).
  change (product ((q, e, b) :: l)) with (q ^ e * product l). apply divide_both.
  - apply Z.eqb_eq in Cg. apply Zgcd_1_rel_prime. exact Cg.
  - unfold check_part in Cq. rewrite !Bool.andb_true_iff in Cq. destruct Cq as (((Ce & Cd) & Cb) & C2).
    apply Z.leb_le in Ce. apply Z.eqb_eq in Cd, Cb, C2. rewrite !Zpow_mod_correct in C2 by lia. rewrite Zpow_mod_correct in Cb by lia.
    assert (1 < q) by (destruct Pq; lia). assert (Pe : 0 < q ^ e) by (apply Z.pow_pos_nonneg; lia).
    assert (En : n - 1 = q ^ e * ((n - 1) / q ^ e)) by (apply Z.div_exact; lia).
    assert (0 <= (n - 1) / q ^ e) by (apply Z.div_pos; lia).
    assert (Hq : q ^ e = q * q ^ (e - 1)) by (replace e with (Z.succ (e - 1)) at 1 by lia; apply Z.pow_succ_r; lia).
    assert (Ed : (n - 1) / q = q ^ (e - 1) * ((n - 1) / q ^ e)).
    { rewrite En at 1. rewrite Hq at 1. rewrite <- Z.mul_assoc, Z.mul_comm. apply Z.div_mul. lia. }
    assert (E1 : a ^ (n - 1) mod n = 1).
    { rewrite <- Zpower_mod in C2 by lia. rewrite <- Z.pow_mul_r in C2; [|apply Z.div_pos; lia|lia]. transitivity (a ^ ((n - 1) / q * q) mod n); [|exact C2]. f_equal. f_equal. rewrite Ed. transitivity (q ^ e * ((n - 1) / q ^ e)); [exact En|]. rewrite Hq at 1. ring. }
    apply (pocklington_step n a q e ((n - 1) / q ^ e) b r); auto.
    rewrite <- Ed. rewrite <- Zmult_mod_idemp_l, Zminus_mod. rewrite <- Zmult_mod_idemp_l, Zminus_mod, Zmod_mod in Cb. exact Cb.
  - apply IH; assumption.
Qed.
