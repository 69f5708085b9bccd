(** Proofs about field elements: the products and the carries of a multiplication. *)
From Verif Require Import Base Field.Model Field.Spec Field.Proofs.
Open Scope Z_scope.
Ltac Zify.zify_post_hook ::= idtac.

(** ** The products *)
Definition term (a b : limbs) (t : nat * nat * nat) : Z :=
  let '(i, j, s) := t in at_ a i * (at_ b j * 2 ^ Z.of_nat s).
Definition dot (a b : limbs) (ts : list (nat * nat * nat)) : Z := fold_right Z.add 0 (map (term a b) ts).
(** Small shifts: [k] for a limb of even index, one more for the others. *)
Definition good_term (k : nat) (t : nat * nat * nat) : bool :=
  let '(i, j, s) := t in (i <? 9)%nat && (j <? 9)%nat && (s <=? (if Nat.even j then k else S k))%nat.

Lemma limb_bound l i : is_limbs l -> (i < 9)%nat -> 0 <= at_ l i < (if Nat.even i then 2 ^ 30 else 2 ^ 29).
Proof. intros (L & H & T) Hi. apply H, Hi. Qed.
Lemma term_bound k a b t : is_limbs a -> is_limbs b -> good_term k t = true -> (k <= 1)%nat ->
  0 <= term a b t < 2 ^ (60 + Z.of_nat k) /\
  term a b t = (let '(i, j, s) := t in at_ a i * shl64 (at_ b j) (Z.of_nat s)).
Proof.
  intros Ia Ib G Hk. destruct t as ((i & j) & s). cbn [good_term] in G.
  apply andb_prop in G. destruct G as (G & Hs). apply andb_prop in G. destruct G as (Hi & Hj).
  apply Nat.ltb_lt in Hi, Hj. apply Nat.leb_le in Hs.
  pose proof (limb_bound a i Ia Hi) as Ba. pose proof (limb_bound b j Ib Hj) as Bb.
  assert (B : 0 <= at_ b j * 2 ^ Z.of_nat s < 2 ^ (30 + Z.of_nat k)).
  { destruct k as [|[|k]]; [| |lia]; destruct (Nat.even j);
      [assert (s = 0)%nat as -> by lia|assert (s = 0 \/ s = 1)%nat as [-> | ->] by lia|
       assert (s = 0 \/ s = 1)%nat as [-> | ->] by lia|assert (s = 0 \/ s = 1 \/ s = 2)%nat as [-> | [-> | ->]] by lia];
      cbn [Z.of_nat Pos.of_succ_nat Pos.succ]; lia. }
  assert (Ba' : 0 <= at_ a i < 2 ^ 30) by (destruct (Nat.even i); lia).
  cbn [term]. split.
  - set (u := at_ b j * 2 ^ Z.of_nat s) in *. clearbody u. set (x := at_ a i) in *. clearbody x.
    destruct k as [|[|k]]; [| |lia]; cbn [Z.of_nat Pos.of_succ_nat] in *; nia.
  - f_equal. unfold shl64. rewrite Z.shiftl_mul_pow2 by lia. symmetry. apply Z.mod_small.
    destruct k as [|[|k]]; [| |lia]; cbn [Z.of_nat Pos.of_succ_nat] in *; lia.
Qed.
Lemma sum_terms_spec ck k a b ts : is_limbs a -> is_limbs b -> (k <= 1)%nat -> forallb (good_term k) ts = true ->
  forall acc, 0 <= acc -> acc + Z.of_nat (length ts) * 2 ^ (60 + Z.of_nat k) <= 2 ^ 64 ->
  sum_terms ck a b acc ts = Some (acc + dot a b ts) /\
  acc + dot a b ts < acc + Z.of_nat (length ts) * 2 ^ (60 + Z.of_nat k) + 1 /\ 0 <= dot a b ts.
Proof.
  intros Ia Ib Hk. induction ts as [|t ts IH]; intros G acc H0 H1.
  - cbn [sum_terms dot map fold_right length]. repeat split; [f_equal|..]; lia.
  - cbn [forallb] in G. apply andb_prop in G. destruct G as (Gt & G).
    destruct (term_bound k a b t Ia Ib Gt Hk) as (Bt & Et).
    cbn [length] in H1. rewrite Nat2Z.inj_succ, Z.mul_succ_l in H1. cbn [sum_terms dot map fold_right length].
    rewrite Nat2Z.inj_succ, Z.mul_succ_l.
    assert (P : 0 < 2 ^ (60 + Z.of_nat k)) by (apply Z.pow_pos_nonneg; lia).
    assert (P2 : 2 ^ (60 + Z.of_nat k) <= 2 ^ 61) by (apply Z.pow_le_mono_r; lia).
    assert (N : 0 <= Z.of_nat (length ts) * 2 ^ (60 + Z.of_nat k)) by nia.
    set (M := 2 ^ (60 + Z.of_nat k)) in *.
    destruct (IH G (acc + term a b t)) as (E & B & C); [lia|lia|].
    fold (dot a b ts). split; [|lia].
    destruct t as ((i & j) & s). rewrite <- Et. rewrite (arith64_ok ck (term a b (i, j, s))) by lia.
    rewrite (arith64_ok ck (acc + _)) by lia. rewrite E. f_equal. lia.
Qed.
Lemma products_spec ck k a b tss : is_limbs a -> is_limbs b -> (k <= 1)%nat ->
  forallb (forallb (good_term k)) tss = true ->
  forallb (fun ts => Z.of_nat (length ts) * 2 ^ (60 + Z.of_nat k) <=? 2 ^ 64 - 2 ^ 60) tss = true ->
  products ck a b tss = Some (map (dot a b) tss) /\ Forall (fun x => 0 <= x < 2 ^ 64) (map (dot a b) tss).
Proof.
  intros Ia Ib Hk. induction tss as [|ts tss IH]; intros G H; [split; [reflexivity|constructor]|].
  cbn [forallb] in G, H. apply andb_prop in G. destruct G as (G1 & G). apply andb_prop in H. destruct H as (H1 & H).
  apply Z.leb_le in H1. destruct (sum_terms_spec ck k a b ts Ia Ib Hk G1 0 ltac:(lia) ltac:(lia)) as (E & B & C).
  destruct (IH G H) as (E' & F'). cbn [products map]. rewrite E, E'. split; [reflexivity|].
  constructor; [lia|exact F'].
Qed.
Lemma mul_value a b : length a = 9%nat -> length b = 9%nat -> V true (map (dot a b) mul_terms) = V true a * V true b.
Proof.
  intros La Lb. destruct (nine a La) as (a0 & a1 & a2 & a3 & a4 & a5 & a6 & a7 & a8 & ->).
  destruct (nine b Lb) as (b0 & b1 & b2 & b3 & b4 & b5 & b6 & b7 & b8 & ->).
  unfold mul_terms, dot, term, at_. cbn [map fold_right nth V bits negb Z.of_nat Pos.of_succ_nat Pos.succ]. ring.
Qed.
Lemma square_value a : length a = 9%nat -> V true (map (dot a a) square_terms) = V true a * V true a.
Proof.
  intros La. destruct (nine a La) as (a0 & a1 & a2 & a3 & a4 & a5 & a6 & a7 & a8 & ->).
  unfold square_terms, dot, term, at_. cbn [map fold_right nth V bits negb Z.of_nat Pos.of_succ_nat Pos.succ]. ring.
Qed.

(** ** The carries *)
Lemma mod_pow_mod x j k : 0 <= j <= k -> (x mod 2 ^ k) mod 2 ^ j = x mod 2 ^ j.
Proof.
  intros H. replace (2 ^ k) with (2 ^ j * 2 ^ (k - j)) by (rewrite <- Z.pow_add_r by lia; f_equal; lia).
  rewrite Z.rem_mul_r by (try apply Z.pow_nonzero; lia || (apply Z.pow_pos_nonneg; lia)).
  rewrite (Z.mul_comm (2 ^ j)), Z_mod_plus_full. apply Zmod_mod.
Qed.
Lemma div_pow_div x j k : 0 <= j -> 0 <= k -> x / 2 ^ j / 2 ^ k = x / 2 ^ (j + k).
Proof. intros. rewrite Z.pow_add_r by lia. apply Z.div_div; [|apply Z.pow_pos_nonneg; lia]. apply Z.pow_nonzero; lia. Qed.
Lemma lo_hi b : 0 <= b < 2 ^ 64 -> lo b = b mod 2 ^ 32 /\ hi b = b / 2 ^ 32 /\ 0 <= lo b < 2 ^ 32 /\ 0 <= hi b < 2 ^ 32 /\
  b = 2 ^ 32 * hi b + lo b.
Proof.
  intros H. unfold lo, hi. rewrite shr_eq by lia. assert (0 <= b / 2 ^ 32 < 2 ^ 32).
  { split; [apply Z.div_pos; lia|]. apply Z.div_lt_upper_bound; lia. }
  rewrite (Z.mod_small (b / 2 ^ 32)) by assumption. pose proof (Z.mod_pos_bound b (2 ^ 32) ltac:(lia)).
  repeat split; lia || (apply Z.div_mod; lia).
Qed.
(** The part of b that goes into the limb after its own, in two pieces. *)
Lemma middle e b : 0 <= b < 2 ^ 64 ->
  0 <= Z.shiftr (lo b) (bits (negb e)) < 16 /\
  0 <= mask e (shl32 (hi b) (if e then 4 else 3)) < 2 ^ bits e /\
  Z.shiftr (lo b) (bits (negb e)) + mask e (shl32 (hi b) (if e then 4 else 3)) = (b / 2 ^ bits (negb e)) mod 2 ^ bits e /\
  (exists m, mask e (shl32 (hi b) (if e then 4 else 3)) = (if e then 16 else 8) * m).
Proof.
  intros H. destruct (lo_hi b H) as (_ & _ & Hl & Hh & E). rewrite mask_eq, shl32_eq by (destruct e; lia).
  rewrite mod_pow_mod by (destruct (bits_cases e); lia). rewrite shr_eq by (destruct e; cbn; lia).
  set (l := lo b) in *. set (h := hi b) in *. clearbody l h.
  assert (P : 0 < 2 ^ bits e) by (destruct (bits_cases e) as [-> | ->]; reflexivity).
  set (s := if e then 4 else 3). assert (Es : 2 ^ 32 = 2 ^ s * 2 ^ bits (negb e)) by (destruct e; reflexivity).
  assert (Pn : 0 < 2 ^ bits (negb e)) by (destruct e; reflexivity).
  assert (Ps : 2 ^ bits e = 2 ^ s * 2 ^ 25) by (destruct e; reflexivity).
  assert (Hs : 2 ^ s = (if e then 16 else 8)) by (destruct e; reflexivity).
  assert (Q : 0 <= l / 2 ^ bits (negb e) < 2 ^ s).
  { split; [apply Z.div_pos; lia|]. apply Z.div_lt_upper_bound; [lia|]. rewrite Z.mul_comm, <- Es. lia. }
  assert (M : (h * 2 ^ s) mod 2 ^ bits e = 2 ^ s * (h mod 2 ^ 25)).
  { rewrite Ps, Z.mul_comm. apply Z.mul_mod_distr_l; destruct e; cbn; lia. }
  rewrite M. pose proof (Z.mod_pos_bound h (2 ^ 25) ltac:(lia)) as Bh.
  split; [split; [lia|]; apply Z.lt_le_trans with (2 ^ s); [lia|]; destruct e; cbn; lia|].
  split; [rewrite Ps; split; [|apply Z.mul_lt_mono_pos_l]; destruct e; cbn [s]; try (apply Z.mul_nonneg_nonneg); lia|].
  split; [|exists (h mod 2 ^ 25); rewrite Hs; reflexivity].
  rewrite E, Es. replace (2 ^ s * 2 ^ bits (negb e) * h + l) with (l + h * 2 ^ s * 2 ^ bits (negb e)) by ring.
  rewrite Z.div_add by lia. set (q := l / 2 ^ bits (negb e)) in *. clearbody q.
  pose proof (Z.div_mod h (2 ^ 25) ltac:(lia)) as Dh.
  replace (q + h * 2 ^ s) with (q + 2 ^ s * (h mod 2 ^ 25) + h / 2 ^ 25 * 2 ^ bits e) by (rewrite Ps; transitivity (q + (2 ^ 25 * (h / 2 ^ 25) + h mod 2 ^ 25) * 2 ^ s); [ring|rewrite <- Dh; reflexivity]).
  rewrite Z_mod_plus_full. symmetry. apply Z.mod_small. rewrite Ps. set (hm := h mod 2 ^ 25) in *. clearbody hm.
  destruct e; cbn [s] in *; lia.
Qed.
Lemma top57 b : 0 <= b < 2 ^ 64 -> Z.shiftr (hi b) 25 = b / 2 ^ 57 /\ 0 <= b / 2 ^ 57 < 2 ^ 7.
Proof.
  intros H. destruct (lo_hi b H) as (_ & -> & _). rewrite shr_eq, div_pow_div by lia. split; [reflexivity|].
  split; [apply Z.div_pos; lia|]. apply Z.div_lt_upper_bound; lia.
Qed.
Lemma low_part e b : 0 <= b < 2 ^ 64 -> mask e (lo b) = b mod 2 ^ bits e.
Proof. intros H. rewrite mask_eq. unfold lo. apply mod_pow_mod. destruct (bits_cases e); lia. Qed.

(** The limbs after the loop: masked, except for the last one. *)
Fixpoint masked_but_last (e : bool) (l : list Z) : Prop :=
  match l with
  | [] => False
  | [d] => 0 <= d < 2 ^ 29 + 2 ^ 8
  | d :: l' => 0 <= d < 2 ^ bits e /\ masked_but_last (negb e) l'
  end.
Lemma propagate_loop_eq ck e carry b2 b1 b0 rest : propagate_loop ck e carry (b2 :: b1 :: b0 :: rest) =
  let s := Z.shiftr (hi b2) 25 in
  let? s := arith ck (s + Z.shiftr (lo b1) (bits (negb e))) in
  let? s := arith ck (s + mask e (shl32 (hi b1) (if e then 4 else 3))) in
  let? s := arith ck (s + mask e (lo b0)) in
  let? s := arith ck (s + carry) in
  let? r := propagate_loop ck (negb e) (Z.shiftr s (bits e)) (b1 :: b0 :: rest) in
  Some (mask e s :: r).
Proof. reflexivity. Qed.
Lemma propagate_loop_spec ck rest : forall e c b2 b1,
  Forall (fun b => 0 <= b < 2 ^ 64) (b2 :: b1 :: rest) -> last (b1 :: rest) 0 < 2 ^ 58 -> 
  (if Nat.even (length rest) then e = false else e = true) -> 0 <= c < 8 ->
  exists l, propagate_loop ck e c (b2 :: b1 :: rest) = Some l /\ length l = S (length rest) /\ masked_but_last e l /\
    V e l = b2 / 2 ^ 57 + b1 / 2 ^ bits (negb e) + V e rest + c.
Proof.
  induction rest as [|b0 rest IH]; intros e c b2 b1 F Hl He C.
  - cbn [length Nat.even] in He. subst e. cbn [propagate_loop last] in *.
    inversion F as [|x1 x2 F2 F']; subst. inversion F' as [|x3 x4 F1 _]; subst.
    destruct (top57 b2 F2) as (-> & B2). destruct (lo_hi b1 F1) as (_ & _ & Hlo & Hhi & E1).
    assert (hi b1 < 2 ^ 26) by lia.
    rewrite shl32_small by lia. rewrite shr_eq by lia.
    assert (B1 : 0 <= lo b1 / 2 ^ 29 < 8) by (split; [apply Z.div_pos; lia|apply Z.div_lt_upper_bound; lia]).
    rewrite (arith_ok ck (b2 / _ + _)) by lia. rewrite (arith_ok ck (b2 / _ + _ + _)) by lia. rewrite (arith_ok ck (b2 / _ + _ + _ + _)) by lia.
    eexists. split; [reflexivity|]. cbn [length masked_but_last V negb bits]. split; [reflexivity|]. split; [lia|].
    assert (D : b1 / 2 ^ 29 = lo b1 / 2 ^ 29 + hi b1 * 2 ^ 3).
    { transitivity ((lo b1 + hi b1 * 2 ^ 3 * 2 ^ 29) / 2 ^ 29); [f_equal; lia|apply Z.div_add; lia]. }
    rewrite D. lia.
  - inversion F as [|x1 x2 F2 F']; subst. inversion F' as [|x3 x4 F1 F'']; subst. inversion F'' as [|x5 x6 F0 _]; subst.
    rewrite propagate_loop_eq. destruct (top57 b2 F2) as (E57 & B2). rewrite E57. cbv zeta. destruct (middle e b1 F1) as (M1 & M2 & M3 & _).
    rewrite (low_part e b0 F0). set (m1 := Z.shiftr (lo b1) (bits (negb e))) in *.
    set (m2 := mask e (shl32 (hi b1) (if e then 4 else 3))) in *. clearbody m1 m2.
    assert (P : 0 < 2 ^ bits e) by (destruct (bits_cases e) as [-> | ->]; reflexivity).
    assert (P2 : 2 ^ 28 <= 2 ^ bits e <= 2 ^ 29) by (destruct (bits_cases e) as [-> | ->]; lia).
    pose proof (Z.mod_pos_bound b0 (2 ^ bits e) P) as B0.
    assert (T : 0 <= b2 / 2 ^ 57 + m1 + m2 + b0 mod 2 ^ bits e + c < 8 * 2 ^ bits e) by lia.
    rewrite (arith_ok ck (b2 / _ + _)) by lia. rewrite (arith_ok ck (b2 / _ + _ + _)) by lia.
    rewrite (arith_ok ck (b2 / _ + _ + _ + _)) by lia. rewrite (arith_ok ck (b2 / _ + _ + _ + _ + _)) by lia.
    set (s := b2 / 2 ^ 57 + m1 + m2 + b0 mod 2 ^ bits e + c) in *. rewrite shr_eq, mask_eq by (destruct e; cbn; lia).
    pose proof (Z.mod_pos_bound s (2 ^ bits e) P) as Bs.
    destruct (IH (negb e) (s / 2 ^ bits e) b1 b0) as (l & E & L & M & HV).
    + exact F'.
    + exact Hl.
    + cbn [length] in He. rewrite Nat.even_succ, <- Nat.negb_even in He. destruct (Nat.even (length rest)); cbn [negb] in He; subst e; reflexivity.
    + split; [apply Z.div_pos; lia|]. apply Z.div_lt_upper_bound; lia.
    + rewrite E. eexists. split; [reflexivity|]. split; [cbn [length]; rewrite L; reflexivity|]. split.
      * cbn [masked_but_last]. destruct l as [|d l]; [discriminate|]. split; [exact Bs|exact M].
      * rewrite V_cons, HV, V_cons, negb_involutive.
        pose proof (Z.div_mod s (2 ^ bits e) ltac:(lia)) as Ds. pose proof (Z.div_mod b0 (2 ^ bits e) ltac:(lia)) as D0.
        pose proof (Z.div_mod (b1 / 2 ^ bits (negb e)) (2 ^ bits e) ltac:(lia)) as D1. rewrite <- M3 in D1.
        rewrite div_pow_div in D1 by (clear; destruct e; cbn; lia).
        replace (bits (negb e) + bits e) with 57 in D1 by (destruct e; reflexivity).
        clear - Ds D0 D1. subst s. rewrite !Z.mul_add_distr_l. lia.
Qed.
Lemma lor_low t m : 0 <= t < 8 -> Z.lor t (8 * m) = t + 8 * m.
Proof.
  intros H. assert (L : Z.land t (8 * m) = 0).
  { apply Z.bits_inj'. intros n Hn. rewrite Z.land_spec, Z.bits_0. replace (8 * m) with (Z.shiftl m 3) by (rewrite Z.shiftl_mul_pow2 by lia; ring).
    destruct (Z.ltb_spec n 3) as [Hn3 | Hn3].
    - rewrite Z.shiftl_spec_low by lia. apply andb_false_r.
    - pose proof (Z.pow_le_mono_r 2 3 n ltac:(lia) Hn3). rewrite (Z.testbit_eqb t n Hn), Z.div_small by lia. reflexivity. }
  rewrite <- (Z.lxor_lor _ _ L). symmetry. apply Z.add_nocarry_lxor, L.
Qed.
Lemma propagate_spec ck big : length big = 17%nat -> Forall (fun b => 0 <= b < 2 ^ 64) big -> nth 16 big 0 < 2 ^ 58 ->
  exists l, propagate_carry ck big = Some l /\ length l = 18%nat /\ masked_but_last true l /\ V true l = V true big.
Proof.
  intros L F T. destruct big as [|b0 [|b1 big]]; try discriminate. unfold propagate_carry. cbn [at_ nth].
  inversion F as [|x1 x2 F0 F']; subst. inversion F' as [|x3 x4 F1 F'']; subst.
  destruct (middle false b0 F0) as (M1 & M2 & M3 & m & Em). cbn [bits negb] in *. 
  change (if false then 4 else 3) with 3 in *. rewrite Em in *.
  assert (M1' : 0 <= Z.shiftr (lo b0) 29 < 8).
  { destruct (lo_hi b0 F0) as (_ & _ & Hl & _). rewrite shr_eq by lia. split; [apply Z.div_pos; lia|apply Z.div_lt_upper_bound; lia]. }
  cbn [nth] in *. rewrite lor_low by exact M1'. rewrite M3. rewrite !low_part by assumption. cbn [bits].
  pose proof (Z.mod_pos_bound (b0 / 2 ^ 29) (2 ^ 28) ltac:(lia)). pose proof (Z.mod_pos_bound b1 (2 ^ 28) ltac:(lia)).
  pose proof (Z.mod_pos_bound b0 (2 ^ 29) ltac:(lia)).
  rewrite arith_ok by lia. set (s := (b0 / 2 ^ 29) mod 2 ^ 28 + b1 mod 2 ^ 28) in *.
  rewrite shr_eq by lia. 
  destruct (propagate_loop_spec ck big true (s / 2 ^ 28) b0 b1) as (l & E & Ll & Ml & HV).
  - exact F.
  - cbn [length] in L. do 15 (destruct big as [|? big]; [discriminate|]). destruct big; [|discriminate]. cbn [last nth] in *. exact T.
  - cbn [length] in L. replace (length big) with 15%nat by lia. reflexivity.
  - split; [apply Z.div_pos; lia|apply Z.div_lt_upper_bound; lia].
  - rewrite E. eexists. split; [reflexivity|]. cbn [length] in *. split; [lia|]. split.
    + cbn [masked_but_last negb]. destruct l as [|d l]; [discriminate|]. split; [cbn [bits]; lia|]. split; [rewrite mask_eq; apply Z.mod_pos_bound; reflexivity|exact Ml].
    + rewrite !V_cons. cbn [negb]. rewrite HV, mask_eq. cbn [bits negb].
      pose proof (Z.div_mod s (2 ^ 28) ltac:(lia)). pose proof (Z.div_mod b0 (2 ^ 29) ltac:(lia)). pose proof (Z.div_mod b1 (2 ^ 28) ltac:(lia)).
      pose proof (Z.div_mod (b0 / 2 ^ 29) (2 ^ 28) ltac:(lia)) as D. rewrite div_pow_div in D by lia. cbn [Z.add Pos.add] in D.
      replace (29 + 28) with 57 in D by reflexivity. lia.
Qed.
