(** C57: field arithmetic of the curve P-256. *)
From Verif Require Import Base Field.Model Field.Spec Field.Proofs Field.Mul Field.Eliminate Field.Product Field.Convert.
From Verif Require Int.Model Int.Spec Int.Props.
From Verif Require Prime.Curve Prime.Inverse.
From Coq Require Import Znumtheory.
Open Scope Z_scope.
Ltac Zify.zify_post_hook ::= idtac.

(** Limbs in range stand for exactly one element of the field. *)
Theorem C57_one_element l : is_limbs l -> exists x, represents l x /\ forall y, represents l y -> y = x.
Proof. intros I. destruct (rep_exists l I) as (x & R). exists x. split; [exact R|]. intros y Ry. exact (rep_unique l y x Ry R). Qed.
Print Assumptions C57_one_element.
(** The modulus is a prime, so that the elements are those of a field. *)
Theorem C57_modulus_prime : prime p.
Proof. exact Prime.Curve.prime_p256_p. Qed.
Print Assumptions C57_modulus_prime.

(** The constants. *)
Theorem C57_constants : represents c_ZERO 0 /\ represents c_ONE 1 /\ represents c_A (p - 3) /\
  represents c_B Int.Spec.b /\ represents c_THREE_B (3 * Int.Spec.b mod p) /\
  number c_P = p /\ number c_TWO_P = 2 * p /\ number c_ZERO31 = 8 * p.
Proof.
  assert (forall l, length l = 9%nat -> forallb (fun '(i, d) => (0 <=? d) && (d <? if Nat.even i then 2 ^ 30 else 2 ^ 29)) (combine (seq 0 9) l) && (nth 8 l 0 <? 2 ^ 29) = true -> is_limbs l) as H.
  { intros l L C. rewrite andb_true_iff in C. destruct C as (C & C8). apply Z.ltb_lt in C8. split; [exact L|]. split; [|exact C8].
    intros i Hi. rewrite forallb_forall in C. specialize (C (i, nth i l 0)). cbv beta iota in C. rewrite andb_true_iff, Z.leb_le, Z.ltb_lt in C. apply C.
    replace (i, nth i l 0) with (nth i (combine (seq 0 9) l) (0%nat, 0)).
    - apply nth_In. rewrite combine_length, seq_length, L. exact Hi.
    - rewrite combine_nth by (rewrite seq_length, L; reflexivity). rewrite seq_nth by exact Hi. reflexivity. }
  unfold represents. repeat match goal with |- _ /\ _ => split end; try (vm_compute; reflexivity); try (vm_compute; discriminate);
    apply H; vm_compute; reflexivity.
Qed.
Print Assumptions C57_constants.

(** Sums, differences and small multiples: no panic, however the code is compiled. *)
Theorem C57_add ck a b x y : represents a x -> represents b y ->
  exists r, add ck a b = Some r /\ represents r ((x + y) mod p).
Proof. exact (rep_add ck a b x y). Qed.
Print Assumptions C57_add.
Theorem C57_sub ck a b x y : represents a x -> represents b y ->
  exists r, sub ck a b = Some r /\ represents r ((x - y) mod p).
Proof. exact (rep_sub ck a b x y). Qed.
Print Assumptions C57_sub.
Theorem C57_multiples ck a x : represents a x ->
  (exists r, mul_scalar2 ck a = Some r /\ represents r ((2 * x) mod p)) /\
  (exists r, mul_scalar3 ck a = Some r /\ represents r ((3 * x) mod p)) /\
  (exists r, mul_scalar4 ck a = Some r /\ represents r ((4 * x) mod p)) /\
  (exists r, mul_scalar8 ck a = Some r /\ represents r ((8 * x) mod p)).
Proof.
  intros Ra. pose proof (proj1 Ra) as Ia. 
  destruct (shift_spec ck 1 a ltac:(lia) Ia) as (r2 & E2 & I2 & V2). destruct (scale3_spec ck a Ia) as (r3 & E3 & I3 & V3).
  destruct (shift_spec ck 2 a ltac:(lia) Ia) as (r4 & E4 & I4 & V4). destruct (shift_spec ck 3 a ltac:(lia) Ia) as (r8 & E8 & I8 & V8).
  split; [exists r2|split; [exists r3|split; [exists r4|exists r8]]]; (split; [assumption|]).
  - apply (rep_scale r2 a x 2 Ra I2). exact V2.
  - apply (rep_scale r3 a x 3 Ra I3). exact V3.
  - apply (rep_scale r4 a x 4 Ra I4). exact V4.
  - apply (rep_scale r8 a x 8 Ra I8). exact V8.
Qed.
Print Assumptions C57_multiples.
(** The test for zero answers after at most two rounds of its loop. *)
Theorem C57_is_zero ck a x : represents a x -> is_zero_vartime ck 2 a = Some (x =? 0).
Proof.
  intros Ra. rewrite (is_zero_spec ck a (proj1 Ra)). f_equal. rewrite rep_iff in Ra. destruct Ra as (_ & B & E). rewrite E.
  destruct (Z.eqb_spec x 0) as [-> | N]; [reflexivity|]. apply Z.eqb_neq. intros H.
  assert (C : (R * x) mod p = (R * 0) mod p) by (rewrite Z.mul_comm, H; reflexivity).
  apply cancel in C. rewrite !Z.mod_small in C; [|pose proof p_pos; lia|exact B]. contradiction.
Qed.
Print Assumptions C57_is_zero.

(** Products, squares and inverses in release builds. *)
Theorem C57_mul a b x y : represents a x -> represents b y ->
  exists r, mul false a b = Some r /\ represents r ((x * y) mod p) /\ number r < 2 ^ 257.
Proof. exact (rep_mul_release a b x y). Qed.
Print Assumptions C57_mul.
Theorem C57_square a x : represents a x ->
  exists r, square false a = Some r /\ represents r ((x * x) mod p) /\ number r < 2 ^ 257.
Proof. exact (rep_square_release a x). Qed.
Print Assumptions C57_square.
(** The inverse: one times the element, or zero for zero. *)
Theorem C57_inv a x : represents a x ->
  exists r y, inv false a = Some r /\ represents r y /\ (x <> 0 -> (x * y) mod p = 1) /\ (x = 0 -> y = 0).
Proof.
  intros Ra. destruct (inv_release a x Ra) as (r & E & Rr). exists r, (x ^ (p - 2) mod p). split; [exact E|]. split; [exact Rr|].
  pose proof (proj1 (proj2 Ra)) as B. split.
  - intros N. apply Prime.Inverse.power_inverse; [exact C57_modulus_prime|]. split; [|apply B]. apply Z.le_neq. split; [apply B|]. congruence.
  - intros ->. rewrite Z.pow_0_l by (vm_compute; reflexivity). reflexivity.
Qed.
Print Assumptions C57_inv.
(** With overflow checks the results, if any, are the same ones. *)
Theorem C57_checked_same a b r : (mul true a b = Some r -> mul false a b = Some r) /\ (square true a = Some r -> square false a = Some r).
Proof. split; [apply mul_mono|apply square_mono]. Qed.
Print Assumptions C57_checked_same.
(** Finding: in builds with overflow checks a product of elements of the field may panic. *)
Theorem C57_checked_mul_refuted :
  ~ forall a b x y, represents a x -> represents b y -> exists r, mul true a b = Some r.
Proof.
  intros H. assert (I : forall c d, 0 <= c < 100 -> 0 <= d < 100 -> is_limbs [c; d; 0; 0; 0; 0; 0; 0; 0]).
  { intros c d Hc Hd. rewrite is_limbs_iff. cbn [length loose bits negb nth]. lia. }
  destruct (rep_exists _ (I 1 2 ltac:(lia) ltac:(lia))) as (x & Rx). destruct (rep_exists _ (I 1 0 ltac:(lia) ltac:(lia))) as (y & Ry).
  destruct (H _ _ _ _ Rx Ry) as (r & E). vm_compute in E. discriminate.
Qed.
Print Assumptions C57_checked_mul_refuted.

(** Conversions, in and out. *)
Theorem C57_to_montgomery g : Int.Spec.is_int256 g -> Int.Spec.value g < p ->
  exists l, field_to_montgomery g = Some l /\ represents l (Int.Spec.value g) /\ number l < 2 ^ 257.
Proof.
  intros I B. destruct (to_montgomery g I B) as (l & E & Rl & Bl). exists l. split; [exact E|]. split; [exact Rl|].
  eapply Z.lt_trans; [exact Bl|reflexivity].
Qed.
Print Assumptions C57_to_montgomery.
(** Products, squares and converted elements are below the bound that the other direction needs. *)
Theorem C57_from_montgomery l x : represents l x -> number l < 2 ^ 257 ->
  exists g, montgomery_to_field l = Some g /\ Int.Spec.is_int256 g /\ Int.Spec.value g = x.
Proof. exact (from_montgomery l x). Qed.
Print Assumptions C57_from_montgomery.
(** Finding: without the bound it may give another element, although a sum of two elements of the field
    may be above it. *)
Definition big_sum : limbs := [2 ^ 29; 2 ^ 28 - 1; 2 ^ 29 - 1; 2 ^ 28 - 1; 2 ^ 29 - 1; 2 ^ 28 - 1; 2 ^ 29 - 1; 2 ^ 28 - 1; 2 ^ 29 - 1].
Theorem C57_from_montgomery_refuted :
  ~ forall l x, represents l x -> exists g, montgomery_to_field l = Some g /\ Int.Spec.value g = x.
Proof.
  intros H. assert (I : is_limbs big_sum) by (rewrite is_limbs_iff; unfold big_sum; cbn [length loose bits negb nth]; lia).
  destruct (rep_exists _ I) as (x & Rx). destruct (H _ _ Rx) as (g & E & Eg).
  assert (Ex : (V true big_sum * R_INV) mod p = x).
  { apply (rep_unique big_sum); [|exact Rx]. rewrite rep_iff. split; [exact I|]. split; [apply mod_range|].
    rewrite Zmult_mod_idemp_l, <- Z.mul_assoc, (Z.mul_comm R_INV R), <- Zmult_mod_idemp_r, R_INV_spec. f_equal. }
  rewrite <- Eg in Ex. vm_compute in E. injection E as <-. vm_compute in Ex. discriminate.
Qed.
Print Assumptions C57_from_montgomery_refuted.

(** One computation with most of it: ((g + 3) * (g - 1))^2 for the x coordinate of the base point. *)
Definition gx : Int.Model.int256 := [0xd898c296; 0xf4a13945; 0x2deb33a0; 0x77037d81; 0x63a440f2; 0xf8bce6e5; 0xe12c4247; 0x6b17d1f2].
Example C57_nonvacuous :
  (let? g := field_to_montgomery gx in
   let? three := mul_scalar3 false c_ONE in
   let? u := add false g three in
   let? v := sub false g c_ONE in
   let? w := mul false u v in
   let? s := square false w in
   let? o := montgomery_to_field s in
   Some (Int.Spec.value o)) =
  Some (((Int.Spec.value gx + 3) * (Int.Spec.value gx - 1)) ^ 2 mod p).
Proof. vm_compute. reflexivity. Qed.
Example C57_inv_nonvacuous : exists r y, inv false c_B = Some r /\ represents r y /\ (Int.Spec.b * y) mod p = 1.
Proof.
  destruct C57_constants as (_ & _ & _ & HB & _). destruct (C57_inv c_B Int.Spec.b HB) as (r & y & E & Rr & H & _).
  exists r, y. split; [exact E|]. split; [exact Rr|]. apply H. discriminate.
Qed.
Example C57_finding_nonvacuous : mul true [1; 2; 0; 0; 0; 0; 0; 0; 0] [1; 0; 0; 0; 0; 0; 0; 0; 0] = None /\
  exists r, mul false [1; 2; 0; 0; 0; 0; 0; 0; 0] [1; 0; 0; 0; 0; 0; 0; 0; 0] = Some r.
Proof. split; [vm_compute; reflexivity|eexists; vm_compute; reflexivity]. Qed.
Example C57_checked_nonvacuous : exists r, mul true c_B c_A = Some r.
Proof. eexists. vm_compute. reflexivity. Qed.
