(** Signing, verifying and key agreement follow the standards. *)
From Verif Require Import Base Int.Model Point.Model Sign.Model.
From Verif Require Int.Spec Int.Props Prime.Props Prime.Curve Prime.Inverse Curve.Spec Point.Spec Point.Coords Point.Order Point.Zero Sign.Spec.
From Coq Require Import Lia Znumtheory.
Open Scope Z_scope.
Ltac Zify.zify_post_hook ::= idtac.
Notation value := Int.Spec.value.
Notation is_int256 := Int.Spec.is_int256.
Notation valid := Curve.Spec.valid.
Notation plus := Curve.Spec.plus.
Notation G := Curve.Spec.G.
Notation Infinity := Curve.Spec.Infinity.
Notation Affine := Curve.Spec.Affine.
Notation n := Int.Spec.n.
Notation p := Int.Spec.p.
Notation mult := Point.Spec.mult.
Notation holds := Point.Spec.holds.

Lemma n_pos : 0 < n. Proof. reflexivity. Qed.
Lemma cong a b : a mod n = b mod n <-> exists q, a = b + q * n.
Proof.
  split.
  - intros H. exists (a / n - b / n). pose proof (Z.div_mod a n ltac:(discriminate)). pose proof (Z.div_mod b n ltac:(discriminate)). 
    generalize dependent (a mod n). generalize dependent (b mod n). generalize dependent (a / n). generalize dependent (b / n). generalize n. intros. nia.
  - intros (q & ->). apply Z_mod_plus_full.
Qed.
Lemma mod_quot a : exists q, a mod n = a + q * n.
Proof. apply cong. apply Zmod_mod. Qed.

Lemma constants : is_int256 c_N /\ value c_N = n /\ nth 7 c_N 0 = 0xffffffff.
Proof.
  destruct Int.Props.C46_constants as (Vn & _ & _ & _ & _ & _ & _ & _ & F & Hn & _). split; [inversion F; assumption|]. split; [exact Vn|exact Hn].
Qed.
Lemma int_bound x : is_int256 x -> 0 <= value x < 2 ^ 256.
Proof. intros (L & D). pose proof (Int.Proofs.value_bound x D) as B. rewrite L in B. exact B. Qed.
Lemma modn_spec x : is_int256 x -> exists r, modn x = Some r /\ is_int256 r /\ value r = value x mod n.
Proof.
  intros Ix. destruct constants as (IN & VN & _). destruct (Int.Props.C46_modular x x c_N Ix Ix IN) as (M & _). rewrite VN in M. apply M.
  pose proof (int_bound x Ix) as B. eapply Z.lt_trans; [apply B|reflexivity].
Qed.
Lemma non_zero_spec x : is_int256 x -> non_zero x = if value x =? 0 then None else Some x.
Proof. intros Ix. unfold non_zero. destruct (Int.Props.C46_compare x x Ix Ix) as (_ & -> & _). reflexivity. Qed.
Lemma modmul_spec x y : is_int256 x -> is_int256 y -> exists r, modmul x y c_N = Some r /\ is_int256 r /\ value r = (value x * value y) mod n.
Proof.
  intros Ix Iy. destruct constants as (IN & VN & HN). destruct (Int.Props.C46_modmul x y 0 c_N Ix Iy ltac:(split; [discriminate|reflexivity]) IN HN) as (r & E & Ir & V).
  exists r. split; [exact E|]. split; [exact Ir|]. rewrite V, VN, Z.mul_0_r, Z.add_0_r. reflexivity.
Qed.

Lemma base_mult k : 0 < k < n -> exists x y, mult k G = Affine x y /\ valid (Affine x y).
Proof.
  intros B. pose proof (Order.order_least k B) as N. pose proof (Order.multiple_valid k G Order.base_valid) as V.
  destruct (mult k G) as [|x y]; [contradiction|]. exists x, y. split; [reflexivity|exact V].
Qed.
Lemma try_sign_spec d k m : is_int256 d -> is_int256 k -> is_int256 m -> 0 < value d < n -> 0 < value k < n ->
  exists o, try_sign d k m = Some o /\
    match o with
    | Some g => is_int256 (sig_r g) /\ is_int256 (sig_s g) /\ 0 < value (sig_r g) < n /\
        Spec.signature_of (value d) (value k) (value m) (value (sig_r g)) (value (sig_s g))
    | None => Spec.unsuitable (value d) (value k) (value m)
    end.
Proof.
  intros Id Ik Im Bd Bk. unfold try_sign.
  destruct (Coords.base_point_mul_spec k Ik) as (P & -> & Ix & _ & C).
  destruct (base_mult (value k) Bk) as (x & y & EP & V). rewrite EP in C.
  assert (Ex : value (px P) = x) by (apply (f_equal fst) in C; exact C). clear C.
  destruct (modn_spec (px P) Ix) as (r & -> & Ir & Vr). rewrite Ex in Vr.
  rewrite (non_zero_spec r Ir). destruct (Z.eqb_spec (value r) 0) as [Z0|N0].
  { exists None. split; [reflexivity|]. exists x, y. split; [exact EP|]. left. rewrite <- Vr. exact Z0. }
  destruct (modmul_spec r d Ir Id) as (rd & -> & Ird & Vrd).
  destruct (Int.Props.C46_add rd m Ird Im) as (s0 & top & -> & Is0 & Ht & Vs0).
  destruct (Prime.Props.C46_inverse k Ik Bk) as (ki & -> & Iki & Bki & Eki).
  destruct constants as (IN & VN & HN).
  destruct (Int.Props.C46_modmul ki s0 top c_N Iki Is0 ltac:(destruct Ht as [-> | ->]; split; (discriminate || reflexivity)) IN HN) as (s & -> & Is & Vs).
  rewrite VN, Vs0, Vrd in Vs. rewrite (non_zero_spec s Is).
  assert (Bs : 0 <= value s < n) by (rewrite Vs; apply Z.mod_pos_bound, n_pos).
  assert (Br : 0 <= value r < n) by (rewrite Vr; apply Z.mod_pos_bound, n_pos).
  assert (K : (value k * value s) mod n = (value m + value r * value d) mod n).
  { apply cong. rewrite Vs. destruct (mod_quot (value ki * ((value r * value d) mod n + value m))) as (q1 & ->).
    destruct (mod_quot (value r * value d)) as (q2 & ->). change 1 with (1 mod n) in Eki. apply cong in Eki. destruct Eki as (q3 & Eki).
    exists (q2 + q3 * (value r * value d + q2 * n + value m) + value k * q1).
    transitivity (value k * value ki * (value r * value d + q2 * n + value m) + value k * q1 * n); [ring|]. rewrite Eki. ring. }
  destruct (Z.eqb_spec (value s) 0) as [Z1|N1].
  - exists None. split; [reflexivity|]. exists x, y. split; [exact EP|]. right. rewrite <- Vr, <- K, Z1, Z.mul_0_r. reflexivity.
  - exists (Some (mkSig r s)). split; [reflexivity|]. cbn [sig_r sig_s]. split; [exact Ir|]. split; [exact Is|]. split; [clear - Br N0; lia|].
    exists x, y. split; [exact EP|]. split; [exact Vr|]. split; [exact N0|]. split; [clear - Bs N1; lia|exact K].
Qed.

(** ** What is signed verifies, in the standards *)
Lemma inverse_exists s : 0 < s < n -> exists w, 0 <= w < n /\ (w * s) mod n = 1.
Proof.
  intros B. exists (s ^ (n - 2) mod n). split; [apply Z.mod_pos_bound, n_pos|]. rewrite Z.mul_comm.
  exact (Prime.Inverse.power_inverse n s Prime.Curve.prime_p256_n B).
Qed.
Lemma inverse_unique s w w' : 0 <= w < n -> 0 <= w' < n -> (w * s) mod n = 1 -> (w' * s) mod n = 1 -> w = w'.
Proof.
  intros B B' E E'. rewrite <- (Z.mod_small w n B), <- (Z.mod_small w' n B'). apply cong.
  change 1 with (1 mod n) in E, E'. apply cong in E, E'. destruct E as (q & E), E' as (q' & E').
  exists (w' * q - w * q'). transitivity (w * (w' * s - q' * n)); [rewrite E'; ring|].
  transitivity (w' * (w * s) - w * q' * n); [ring|]. rewrite E. ring.
Qed.
Lemma signature_verifies d k e r s : 0 < d < n -> 0 < k < n -> Spec.signature_of d k e r s -> Spec.verifies (mult d G) e r s.
Proof.
  intros Bd Bk (x & y & EP & Er & Nr & Bs & K).
  assert (Br : 0 <= r < n) by (rewrite Er; apply Z.mod_pos_bound, n_pos).
  split; [clear - Br Nr; lia|]. split; [exact Bs|]. destruct (inverse_exists s Bs) as (w & Bw & Ew).
  exists w, x, y. split; [exact Ew|]. split; [exact Bw|]. split; [|symmetry; exact Er].
  pose proof (Z.mod_pos_bound (e * w) n n_pos) as B1. pose proof (Z.mod_pos_bound (r * w) n n_pos) as B2.
  assert (P1 : 0 <= (r * w) mod n * d) by (apply Z.mul_nonneg_nonneg; [apply B2|clear - Bd; lia]).
  rewrite <- Order.multiple_mul; [|apply B2|clear - Bd; lia|exact Order.base_valid].
  rewrite <- Order.multiple_add; [|apply B1|exact P1|exact Order.base_valid].
  rewrite <- EP. apply Order.multiples_equal; [apply Z.add_nonneg_nonneg; [apply B1|exact P1]|clear - Bk; lia|].
  apply cong. destruct (mod_quot (e * w)) as (q3 & ->). destruct (mod_quot (r * w)) as (q4 & ->).
  apply cong in K. destruct K as (q1 & K). change 1 with (1 mod n) in Ew. apply cong in Ew. destruct Ew as (q2 & Ew).
  exists (k * q2 - q1 * w + q3 + q4 * d).
  transitivity ((e + r * d + q1 * n) * w + (- q1 * w + q3 + q4 * d) * n); [ring|]. rewrite <- K.
  transitivity (k * (w * s) + (- q1 * w + q3 + q4 * d) * n); [ring|]. rewrite Ew. ring.
Qed.

(** ** Verification *)
Lemma verify_hash_spec Q A (hash : bytes) g : holds Q A -> valid A -> A <> Infinity -> length hash = 32%nat -> bytes_ok hash = true ->
  is_int256 (sig_r g) -> is_int256 (sig_s g) -> 0 < value (sig_r g) < n -> 0 < value (sig_s g) < n ->
  Int.Spec.big_endian hash mod n <> 0 ->
  exists b, verify_hash Q hash g = Some b /\
    (b = true <-> Spec.verifies A (Int.Spec.big_endian hash) (value (sig_r g)) (value (sig_s g))).
Proof.
  intros HQ VA NA Lh Oh Ir Is Br Bs N0. unfold verify_hash.
  destruct (Int.Props.C46_bytes_in hash Lh Oh) as (Ih & Vh & _). set (e := Int.Spec.big_endian hash) in *. clearbody e.
  destruct (modn_spec _ Ih) as (m & -> & Im & Vm). rewrite Vh in Vm.
  destruct (Prime.Props.C46_inverse _ Is Bs) as (v & -> & Iv & Bv & Ev).
  assert (Bm : 0 < value m < n). { pose proof (Z.mod_pos_bound e n n_pos) as B. rewrite <- Vm in B, N0. clear - B N0. lia. }
  destruct (Prime.Props.C46_product_nonzero m v Im Iv Bm Bv) as (u1 & E1 & Iu1 & Bu1 & Vu1). rewrite E1.
  destruct (Prime.Props.C46_product_nonzero (sig_r g) v Ir Iv Br Bv) as (u2 & E2 & Iu2 & Bu2 & Vu2). rewrite E2.
  destruct (Coords.points_mul_spec Q A u1 u2 HQ VA NA Iu1 Iu2 ltac:(clear - Bu1; lia) ltac:(clear - Bu2; lia)) as (P & -> & Ix & _ & C).
  destruct (modn_spec (px P) Ix) as (x & -> & Ixx & Vx).
  exists (digits_eqb x (sig_r g)). split; [reflexivity|].
  destruct (Int.Props.C46_compare x (sig_r g) Ixx Ir) as (_ & _ & ->). rewrite Z.eqb_eq, Vx.
  assert (Ew : (value v * value (sig_s g)) mod n = 1) by (rewrite Z.mul_comm; exact Ev).
  assert (U1 : value u1 = (e * value v) mod n) by (rewrite Vu1, Vm; apply Zmult_mod_idemp_l).
  rewrite U1, Vu2 in C. set (S := plus _ _) in C. split.
  - intros E. split; [exact Br|]. split; [exact Bs|]. exists (value v).
    destruct S as [|xs ys] eqn:ES.
    + exfalso. assert (Z0 : value (px P) = 0) by (apply (f_equal fst) in C; exact C). rewrite Z0, Zmod_0_l in E. clear - E Br. lia.
    + exists xs, ys. split; [exact Ew|]. split; [clear - Bv; lia|]. split; [exact ES|]. rewrite <- E. f_equal. apply (f_equal fst) in C. symmetry. exact C.
  - intros (_ & _ & w & xs & ys & Ew' & Bw & ES & E).
    assert (w = value v) as -> by (apply (inverse_unique (value (sig_s g))); try assumption; clear - Bv; lia).
    fold S in ES. rewrite ES in C. rewrite <- E. f_equal. apply (f_equal fst) in C. exact C.
Qed.

(** ** Key agreement *)
Lemma exchange_spec a Q A : holds Q A -> valid A -> A <> Infinity -> is_int256 a ->
  exists b, exchange_x a Q = Some b /\ length b = 32%nat /\ bytes_ok b = true /\
    Int.Spec.big_endian b = fst (Point.Spec.coordinates (mult (value a) A)).
Proof.
  intros HQ VA NA Ia. unfold exchange_x. destruct (Coords.point_mul_spec Q A a HQ VA NA Ia) as (P & -> & Ix & _ & C).
  exists (to_bin (px P)). split; [reflexivity|]. destruct (Int.Props.C46_bytes_out (px P) Ix) as (L & O & B & _).
  split; [exact L|]. split; [exact O|]. rewrite B. apply (f_equal fst) in C. exact C.
Qed.
Lemma genpk_spec d : is_int256 d -> 0 < value d < n -> exists Q, genpk d = Some Q /\ holds Q (mult (value d) G) /\ valid (mult (value d) G) /\ mult (value d) G <> Infinity.
Proof.
  intros Id Bd. destruct (Coords.base_point_mul_spec d Id) as (Q & E & H). exists Q. split; [exact E|]. split; [exact H|].
  split; [apply Order.multiple_valid, Order.base_valid|apply Order.order_least, Bd].
Qed.
