(** Exponentiation, conversions and encodings. *)
From Verif Require Import Base Facts Int.Model.
From Verif Require Import Int.Spec Int.Proofs.
From Coq Require Import Lia Znumtheory.
Open Scope Z_scope.

(** ** Bits *)

Lemma testbit_value x : digits x -> forall i, 
  Z.testbit (value x) (Z.of_nat i) = Z.testbit (nth (i / 32) x 0) (Z.of_nat (i mod 32)).
Proof.
  induction x as [|d x IH]; intros D i.
  - cbn [value]. rewrite Z.bits_0. destruct (i / 32)%nat; cbn [nth]; rewrite Z.bits_0; reflexivity.
  - inversion D as [|? ? Hd Dx]; subst. cbn [value].
    destruct (Nat.ltb_spec i 32) as [Hi|Hi].
    + rewrite Nat.div_small, Nat.mod_small by exact Hi. cbn [nth].
      rewrite <- (Z.mod_pow2_bits_low (d + 2 ^ 32 * value x) 32) by lia.
      rewrite (Z.mul_comm (2 ^ 32)), Z.mod_add by discriminate. rewrite Z.mod_small by exact Hd. reflexivity.
    + assert (Hq : exists j, i = (j + 32)%nat) by (exists (i - 32)%nat; lia). destruct Hq as (j & ->).
      assert (((j + 32) / 32 = S (j / 32))%nat) as ->.
      { replace (j + 32)%nat with (j + 1 * 32)%nat by lia. rewrite Nat.div_add by discriminate. lia. }
      assert (((j + 32) mod 32 = j mod 32)%nat) as ->.
      { replace (j + 32)%nat with (j + 1 * 32)%nat by lia. apply Nat.mod_add. discriminate. }
      cbn [nth]. rewrite <- (IH Dx). rewrite Nat2Z.inj_add. change (Z.of_nat 32) with 32.
      rewrite <- Z.shiftr_spec by lia. rewrite Z.shiftr_div_pow2 by lia.
      rewrite (Z.mul_comm (2 ^ 32)), Z.div_add by discriminate. rewrite Z.div_small by exact Hd. reflexivity.
Qed.

Lemma bit_spec x i : digits x -> bit x i = (value x / 2 ^ Z.of_nat i) mod 2.
Proof.
  intros D. unfold bit. rewrite (Z.land_ones _ 1) by lia. change (2 ^ 1) with 2.
  rewrite <- !Z.bit0_mod. rewrite Z.shiftr_spec by lia. rewrite Z.add_0_l, <- testbit_value by exact D.
  rewrite Z.testbit_spec' by lia. rewrite Z.bit0_mod. reflexivity.
Qed.

Lemma nibble_spec p i : digits p -> nibble p (i + 4) = (value p / 2 ^ Z.of_nat i) mod 16.
Proof.
  intros D. unfold nibble. replace (i + 4 - 1)%nat with (i + 3)%nat by lia.
  replace (i + 4 - 2)%nat with (i + 2)%nat by lia. replace (i + 4 - 3)%nat with (i + 1)%nat by lia.
  replace (i + 4 - 4)%nat with i by lia. rewrite !(bit_spec p _ D).
  assert (forall k, (k > 0)%nat -> value p / 2 ^ Z.of_nat (i + k) = value p / 2 ^ Z.of_nat i / 2 ^ Z.of_nat k) as Sh.
  { intros k Hk. rewrite Nat2Z.inj_add, Z.pow_add_r by lia.
    rewrite <- Z.div_div; [reflexivity|apply Z.pow_nonzero; lia|apply Z.pow_pos_nonneg; lia]. }
  rewrite (Sh 3%nat), (Sh 2%nat), (Sh 1%nat) by lia.
  change (2 ^ Z.of_nat 3) with 8. change (2 ^ Z.of_nat 2) with 4. change (2 ^ Z.of_nat 1) with 2.
  set (v := value p / 2 ^ Z.of_nat i). clearbody v.
  assert (exists a b c d, (a = 0 \/ a = 1) /\ (b = 0 \/ b = 1) /\ (c = 0 \/ c = 1) /\ (d = 0 \/ d = 1) /\
            v / 8 mod 2 = a /\ v / 4 mod 2 = b /\ v / 2 mod 2 = c /\ v mod 2 = d /\ v mod 16 = 8 * a + 4 * b + 2 * c + d)
    as (a & b & c & d & Ha & Hb & Hc & Hd & -> & -> & -> & -> & ->).
  { exists (v / 8 mod 2), (v / 4 mod 2), (v / 2 mod 2), (v mod 2). repeat split; lia. }
  destruct Ha as [-> | ->], Hb as [-> | ->], Hc as [-> | ->], Hd as [-> | ->]; reflexivity.
Qed.

(** ** Exponentiation *)

Lemma mod_mul_mod a b m : m <> 0 -> ((a mod m) * (b mod m)) mod m = (a * b) mod m.
Proof. intros H. symmetry. apply Z.mul_mod, H. Qed.

Lemma powers_spec x m : is_int256 x -> good_modulus m -> forall n t k,
  is_int256 t -> 0 <= k -> value t mod value m = value x ^ k mod value m ->
  exists l, powers n x m t = Some l /\ length l = S n /\
    forall j, (j <= n)%nat -> is_int256 (nth j l c_ZERO) /\
      value (nth j l c_ZERO) mod value m = value x ^ (k + Z.of_nat j) mod value m.
Proof.
  intros Ix Gm. assert (Nz : value m <> 0).
  { pose proof (good_modulus_value m Gm) as H. rewrite (W_S 7), B_eq in H. pose proof (W_pos 7). lia. }
  induction n as [|n IH]; intros t k It Hk V.
  - exists [t]. cbn [powers]. split; [reflexivity|]. split; [reflexivity|].
    intros j Hj. assert (j = 0%nat) as -> by lia. cbn [nth]. split; [exact It|]. rewrite V. f_equal. f_equal. lia.
  - cbn [powers]. destruct (modmul_spec t x m It Ix Gm) as (t' & E & It' & V'). rewrite E.
    destruct (IH t' (k + 1) It' ltac:(lia)) as (l & El & Ll & Vl).
    { rewrite V', Z.mod_mod by exact Nz. rewrite <- mod_mul_mod, V, mod_mul_mod by exact Nz.
      rewrite Z.pow_add_r, Z.pow_1_r by lia. reflexivity. }
    rewrite El. exists (t :: l). split; [reflexivity|]. split; [cbn [length]; congruence|].
    intros [|j] Hj; cbn [nth].
    + split; [exact It|]. rewrite V. f_equal. f_equal. lia.
    + destruct (Vl j ltac:(lia)) as (I & V2). split; [exact I|]. rewrite V2. f_equal. f_equal. lia.
Qed.

Lemma one_int256 : is_int256 c_ONE.
Proof. split; [reflexivity|]. repeat constructor; discriminate. Qed.

Lemma pow_loop_spec x p m tbl : is_int256 x -> is_int256 p -> good_modulus m ->
  (forall j, (j <= 14)%nat -> is_int256 (nth j tbl c_ZERO) /\
      value (nth j tbl c_ZERO) mod value m = value x ^ (1 + Z.of_nat j) mod value m) ->
  forall n r, is_int256 r -> value r = value x ^ (value p / 2 ^ Z.of_nat (4 * n)) mod value m ->
  exists r', pow_loop n tbl p m r = Some r' /\ is_int256 r' /\ value r' = value x ^ value p mod value m.
Proof.
  intros Ix Ip Gm Ht. assert (Nz : value m <> 0).
  { pose proof (good_modulus_value m Gm) as H. rewrite (W_S 7), B_eq in H. pose proof (W_pos 7). lia. }
  pose proof (int256_bound p Ip) as Bp.
  induction n as [|n IH]; intros r Ir V.
  - cbn [pow_loop]. exists r. split; [reflexivity|]. split; [exact Ir|]. rewrite V.
    f_equal. f_equal. change (2 ^ Z.of_nat (4 * 0)) with 1. apply Z.div_1_r.
  - cbn [pow_loop]. set (e := value p / 2 ^ Z.of_nat (4 * S n)) in *.
    assert (He : 0 <= e) by (apply Z.div_pos; [exact (proj1 Bp)|apply Z.pow_pos_nonneg; [reflexivity|apply Nat2Z.is_nonneg]]).
    assert (Sq : forall k s, 0 <= k -> is_int256 s -> value s = value x ^ k mod value m ->
      exists s', modmul s s m = Some s' /\ is_int256 s' /\ value s' = value x ^ (2 * k) mod value m).
    { intros k s Hk Is Vs. destruct (modmul_spec s s m Is Is Gm) as (s' & Es & Is' & Vs').
      exists s'. split; [exact Es|]. split; [exact Is'|]. rewrite Vs', Vs, mod_mul_mod by exact Nz.
      f_equal. replace (2 * k) with (k + k) by lia. rewrite Z.pow_add_r by exact Hk. reflexivity. }
    destruct (Sq e r He Ir V) as (r1 & -> & I1 & V1).
    destruct (Sq (2 * e) r1 ltac:(clear - He; lia) I1 V1) as (r2 & -> & I2 & V2).
    destruct (Sq (2 * (2 * e)) r2 ltac:(clear - He; lia) I2 V2) as (r3 & -> & I3 & V3).
    destruct (Sq (2 * (2 * (2 * e))) r3 ltac:(clear - He; lia) I3 V3) as (r4 & -> & I4 & V4).
    set (idx := nibble p (4 * S n)).
    assert (Hidx : idx = (value p / 2 ^ Z.of_nat (4 * n)) mod 16).
    { unfold idx. replace (4 * S n)%nat with (4 * n + 4)%nat by (clear; lia). apply nibble_spec, Ip. }
    assert (Hsplit : value p / 2 ^ Z.of_nat (4 * n) = 16 * e + idx).
    { rewrite Hidx. unfold e. replace (4 * S n)%nat with (4 * n + 4)%nat by (clear; lia).
      rewrite Nat2Z.inj_add, Z.pow_add_r by (clear; lia). change (2 ^ Z.of_nat 4) with 16.
      rewrite <- Z.div_div; [|apply Z.pow_nonzero; clear; lia|clear; lia].
      pose proof (Z.div_mod (value p / 2 ^ Z.of_nat (4 * n)) 16 ltac:(clear; lia)) as DM.
      exact DM. }
    assert (Hr : 0 <= idx < 16) by (rewrite Hidx; apply Z.mod_pos_bound; clear; lia).
    set (tbl0 := if idx =? 0 then c_ONE else nth (Z.to_nat idx - 1) tbl c_ZERO).
    assert (T0 : is_int256 tbl0 /\ (idx <> 0 -> value tbl0 mod value m = value x ^ idx mod value m)).
    { unfold tbl0. destruct (Z.eqb_spec idx 0) as [E0|E0]; [split; [exact one_int256|intros F; destruct (F E0)]|].
      destruct (Ht (Z.to_nat idx - 1)%nat ltac:(clear - Hr; lia)) as (It & Vt). split; [exact It|]. intros _. rewrite Vt.
      f_equal. f_equal. clear - Hr E0. lia. }
    destruct T0 as (It0 & Vt0).
    destruct (modmul_spec tbl0 r4 m It0 I4 Gm) as (t & -> & It & Vt).
    apply IH.
    + destruct (idx =? 0); assumption.
    + rewrite Hsplit. destruct (Z.eqb_spec idx 0) as [E0|E0].
      * rewrite E0, V4. f_equal. f_equal. clear. lia.
      * rewrite Vt. rewrite <- mod_mul_mod by exact Nz. rewrite (Vt0 E0), V4. rewrite Z.mod_mod by exact Nz.
        rewrite mod_mul_mod by exact Nz. rewrite <- Z.pow_add_r by (clear - Hr He; lia). f_equal. f_equal. clear. lia.
Qed.

Lemma modpow_spec x p m : is_int256 x -> is_int256 p -> good_modulus m ->
  exists r, modpow x p m = Some r /\ is_int256 r /\ value r = value x ^ value p mod value m.
Proof.
  intros Ix Ip Gm. unfold modpow.
  destruct (powers_spec x m Ix Gm 14 x 1 Ix ltac:(lia)) as (tbl & -> & _ & Ht).
  { rewrite Z.pow_1_r. reflexivity. }
  apply (pow_loop_spec x p m tbl Ix Ip Gm Ht 64 c_ONE one_int256).
  pose proof (int256_bound p Ip) as Bp. rewrite Z.div_small by (change (2 ^ Z.of_nat (4 * 64)) with (W 8); exact Bp).
  rewrite Z.pow_0_r. change (value c_ONE) with 1. symmetry. apply Z.mod_small.
  pose proof (good_modulus_value m Gm) as H. rewrite (W_S 7), B_eq in H. pose proof (W_pos 7). lia.
Qed.

(** ** Shifts *)

Lemma mixed_bound a b q s : 0 <= q < b -> 0 <= s < a -> 0 <= a * q + s < a * b.
Proof. intros Hq Hs. nia. Qed.

Lemma last_cons (d : Z) x e : last (d :: x) e = last x d.
Proof.
  revert d e. induction x as [|a x IH]; intros d e; [reflexivity|].
  transitivity (last (a :: x) e); [reflexivity|]. rewrite (IH a e), (IH a d). reflexivity.
Qed.

Lemma shl_digits_spec k x : 0 < k < 32 -> digits x -> forall below, 0 <= below < B ->
  digits (shl_digits k below x) /\ length (shl_digits k below x) = length x /\
  value (shl_digits k below x) + W (length x) * Z.shiftr (last x below) (32 - k) =
    2 ^ k * value x + Z.shiftr below (32 - k).
Proof.
  intros Hk. induction x as [|d x IH]; intros D below Hb.
  - cbn [shl_digits value length last]. split; [constructor|]. split; [reflexivity|]. rewrite W_0. lia.
  - inversion D as [|? ? Hd Dx]; subst. cbn [shl_digits].
    destruct (IH Dx d Hd) as (D' & L' & V').
    assert (E : Z.lor (Z.shiftl d k mod B) (Z.shiftr below (32 - k)) =
                (2 ^ k * d) mod B + Z.shiftr below (32 - k)).
    { rewrite Z.shiftl_mul_pow2 by lia. rewrite (Z.mul_comm d).
      replace B with (2 ^ k * 2 ^ (32 - k)) by (rewrite <- Z.pow_add_r by lia; unfold B; f_equal; lia).
      rewrite Z.mul_mod_distr_l by (apply Z.pow_nonzero; lia).
      rewrite (Z.mul_comm (2 ^ k)), <- Z.shiftl_mul_pow2 by lia.
      assert (La : Z.land (Z.shiftl (d mod 2 ^ (32 - k)) k) (Z.shiftr below (32 - k)) = 0).
      { apply Z.bits_inj'. intros i Hi. rewrite Z.land_spec, Z.bits_0. apply andb_false_iff.
        destruct (Z.ltb_spec i k) as [L|L]; [left; apply Z.shiftl_spec_low; lia|right].
        rewrite Z.shiftr_spec by lia. destruct (Z.eq_dec below 0) as [->|Nb]; [apply Z.bits_0|].
        apply Z.bits_above_log2; [lia|]. apply Z.log2_lt_pow2; [lia|].
        apply Z.lt_le_trans with (2 ^ 32); [exact (proj2 Hb)|apply Z.pow_le_mono_r; lia]. }
      rewrite <- (Z.lxor_lor _ _ La). symmetry. apply Z.add_nocarry_lxor, La. }
    assert (Bs : 0 <= Z.shiftr below (32 - k) < 2 ^ k).
    { rewrite Z.shiftr_div_pow2 by lia. split; [apply Z.div_pos; [lia|apply Z.pow_pos_nonneg; lia]|].
      apply Z.div_lt_upper_bound; [apply Z.pow_pos_nonneg; lia|]. rewrite <- Z.pow_add_r by lia.
      replace (32 - k + k) with 32 by lia. exact (proj2 Hb). }
    assert (P : B = 2 ^ k * 2 ^ (32 - k)) by (rewrite <- Z.pow_add_r by lia; unfold B; f_equal; lia).
    assert (Sd : Z.shiftr d (32 - k) = (2 ^ k * d) / B).
    { rewrite Z.shiftr_div_pow2 by lia. rewrite P. rewrite Z.div_mul_cancel_l by (apply Z.pow_nonzero; lia). reflexivity. }
    split.
    { constructor; [|exact D']. rewrite E. change (2 ^ 32) with B. rewrite P. rewrite Z.mul_mod_distr_l by (apply Z.pow_nonzero; lia).
      pose proof (Z.mod_pos_bound d (2 ^ (32 - k)) ltac:(apply Z.pow_pos_nonneg; lia)) as Bm.
      apply mixed_bound; assumption. }
    split; [cbn [length]; congruence|].
    cbn [length]. rewrite !value_cons, W_S, E.
    rewrite last_cons.
    pose proof (Z.div_mod (2 ^ k * d) B ltac:(rewrite B_eq; lia)) as DM. rewrite Sd in V'.
    transitivity ((2 ^ k * d) mod B + Z.shiftr below (32 - k) + B * (value (shl_digits k d x) + W (length x) * Z.shiftr (last x d) (32 - k))); [ring|].
    rewrite V'. lia.
Qed.

Lemma shl_spec x k : is_int256 x -> 0 < k < 32 ->
  is_int256 (fst (shl x k)) /\ value (fst (shl x k)) + 2 ^ 256 * snd (shl x k) = 2 ^ k * value x.
Proof.
  intros (L & D) Hk. destruct (shl_digits_spec k x Hk D 0 ltac:(rewrite B_eq; lia)) as (D' & L' & V).
  unfold shl. cbn [fst snd]. split; [split; [congruence|exact D']|].
  rewrite Z.shiftr_0_l, Z.add_0_r in V. rewrite <- V, L, W_8. f_equal. f_equal. f_equal.
  destruct x as [|d0 [|d1 [|d2 [|d3 [|d4 [|d5 [|d6 [|d7 [|]]]]]]]]]; try discriminate L. reflexivity.
Qed.

Lemma shr_spec k x : 0 < k < 32 -> digits x ->
  digits (shr x k) /\ length (shr x k) = length x /\ value (shr x k) = value x / 2 ^ k.
Proof.
  intros Hk. induction x as [|d x IH]; intros D.
  - cbn [shr value length]. split; [constructor|]. split; [reflexivity|]. rewrite Z.div_0_l by (apply Z.pow_nonzero; lia). reflexivity.
  - inversion D as [|? ? Hd Dx]; subst. specialize (IH Dx). destruct IH as (D' & L' & V').
    assert (Pk : 0 < 2 ^ k) by (apply Z.pow_pos_nonneg; lia).
    assert (Pl : 0 < 2 ^ (32 - k)) by (apply Z.pow_pos_nonneg; lia).
    assert (P : B = 2 ^ (32 - k) * 2 ^ k) by (rewrite <- Z.pow_add_r by lia; unfold B; f_equal; lia).
    assert (Bs : 0 <= Z.shiftr d k < 2 ^ (32 - k)).
    { rewrite Z.shiftr_div_pow2 by lia. split; [apply Z.div_pos; lia|].
      apply Z.div_lt_upper_bound; [lia|]. rewrite Z.mul_comm, <- P. exact (proj2 Hd). }
    destruct x as [|e x].
    + cbn [shr value length]. split; [|split; [reflexivity|]].
      * constructor; [|constructor]. change (2 ^ 32) with B. rewrite P. nia.
      * rewrite Z.mul_0_r, !Z.add_0_r. apply Z.shiftr_div_pow2. lia.
    + change (shr (d :: e :: x) k) with (Z.lor (Z.shiftr d k) (Z.shiftl e (32 - k) mod B) :: shr (e :: x) k).
      inversion Dx as [|? ? He Dx']; subst.
      assert (E : Z.lor (Z.shiftr d k) (Z.shiftl e (32 - k) mod B) = 2 ^ (32 - k) * (e mod 2 ^ k) + Z.shiftr d k).
      { rewrite Z.shiftl_mul_pow2 by lia. rewrite (Z.mul_comm e), P.
        rewrite Z.mul_mod_distr_l by lia. rewrite (Z.mul_comm (2 ^ (32 - k))), <- Z.shiftl_mul_pow2 by lia.
        assert (La : Z.land (Z.shiftl (e mod 2 ^ k) (32 - k)) (Z.shiftr d k) = 0).
        { apply Z.bits_inj'. intros i Hi. rewrite Z.land_spec, Z.bits_0. apply andb_false_iff.
          destruct (Z.ltb_spec i (32 - k)) as [L|L]; [left; apply Z.shiftl_spec_low; lia|right].
          destruct (Z.eq_dec (Z.shiftr d k) 0) as [->|Nb]; [apply Z.bits_0|].
          apply Z.bits_above_log2; [lia|]. apply Z.log2_lt_pow2; [lia|].
          apply Z.lt_le_trans with (2 ^ (32 - k)); [lia|apply Z.pow_le_mono_r; lia]. }
        rewrite Z.lor_comm. rewrite <- (Z.lxor_lor _ _ La). symmetry. apply Z.add_nocarry_lxor, La. }
      rewrite E. pose proof (Z.mod_pos_bound e (2 ^ k) Pk) as Bm.
      split; [|split].
      * constructor; [|exact D']. change (2 ^ 32) with B. rewrite P. apply mixed_bound; assumption.
      * cbn [length] in *. congruence.
      * rewrite value_cons, V'. rewrite (value_cons d). rewrite P.
        replace (d + 2 ^ (32 - k) * 2 ^ k * value (e :: x)) with (d + (2 ^ (32 - k) * value (e :: x)) * 2 ^ k) by ring.
        rewrite Z.div_add by lia. rewrite <- (Z.shiftr_div_pow2 d) by lia.
        assert (value (e :: x) mod 2 ^ k = e mod 2 ^ k) as <-.
        { rewrite value_cons, P. replace (e + 2 ^ (32 - k) * 2 ^ k * value x) with (e + (2 ^ (32 - k) * value x) * 2 ^ k) by ring.
          apply Z.mod_add. lia. }
        pose proof (Z.div_mod (value (e :: x)) (2 ^ k) ltac:(lia)) as DM.
        set (v := value (e :: x)) in *. clearbody v. clear - DM.
        transitivity (2 ^ (32 - k) * (2 ^ k * (v / 2 ^ k) + v mod 2 ^ k) + Z.shiftr d k); [ring|].
        rewrite <- DM. ring.
Qed.

(** ** Bytes *)

Lemma big_endian_of_be l : big_endian l = Z.of_N (of_be l).
Proof.
  induction l as [|x l IH]; [reflexivity|]. cbn [big_endian]. rewrite of_be_cons, IH.
  rewrite N2Z.inj_add, N2Z.inj_mul, N2Z.inj_pow, nat_N_Z. f_equal. f_equal.
  rewrite Z.pow_mul_r by lia. reflexivity.
Qed.
Lemma big_endian_app x y : big_endian (x ++ y) = big_endian x * 2 ^ (8 * Z.of_nat (length y)) + big_endian y.
Proof.
  induction x as [|d x IH]; [reflexivity|]. cbn [app big_endian]. rewrite IH, app_length, Nat2Z.inj_add.
  rewrite Z.mul_add_distr_l, Z.pow_add_r by lia. ring.
Qed.
Lemma big_endian_bound l : bytes_ok l = true -> 0 <= big_endian l < 2 ^ (8 * Z.of_nat (length l)).
Proof.
  intros H. rewrite big_endian_of_be. pose proof (of_be_bound l H) as Hb. split; [apply N2Z.is_nonneg|].
  apply N2Z.inj_lt in Hb. rewrite N2Z.inj_pow, nat_N_Z in Hb. rewrite Z.pow_mul_r by lia. exact Hb.
Qed.
Lemma big_endian_inj x y : length x = length y -> bytes_ok x = true -> bytes_ok y = true ->
  big_endian x = big_endian y -> x = y.
Proof.
  intros L Hx Hy E. rewrite !big_endian_of_be in E. apply N2Z.inj in E.
  rewrite <- (be_bytes_of_be x Hx), <- (be_bytes_of_be y Hy), L, E. reflexivity.
Qed.

Lemma to_bin_facts x : digits x ->
  length (to_bin x) = (4 * length x)%nat /\ bytes_ok (to_bin x) = true /\ big_endian (to_bin x) = value x.
Proof.
  unfold to_bin. induction x as [|d x IH]; intros D; [repeat split|].
  inversion D as [|? ? Hd Dx]; subst. destruct (IH Dx) as (L & O & V). cbn [rev].
  rewrite flat_map_app. cbn [flat_map]. rewrite app_nil_r.
  split; [rewrite app_length, L, be_bytes_length; cbn [length]; lia|].
  split; [rewrite bytes_ok_app, O, be_bytes_ok; reflexivity|].
  rewrite big_endian_app, V, be_bytes_length, big_endian_of_be, of_be_be_bytes, value_cons.
  change (256 ^ N.of_nat 4)%N with 4294967296%N. change (2 ^ (8 * Z.of_nat 4)) with B. rewrite two32 in Hd.
  rewrite N.mod_small by lia. rewrite Z2N.id by lia. ring.
Qed.

Lemma from_bin_facts (src : bytes) : length src = 32%nat -> bytes_ok src = true ->
  is_int256 (from_bin src) /\ value (from_bin src) = big_endian src.
Proof.
  intros L O.
  assert (Cut : forall (s : bytes) k, length s = (4 + k)%nat -> bytes_ok s = true ->
    length (firstn 4 s) = 4%nat /\ bytes_ok (firstn 4 s) = true /\ bytes_ok (skipn 4 s) = true /\
    length (skipn 4 s) = k /\
    big_endian s = big_endian (firstn 4 s) * 2 ^ (8 * Z.of_nat k) + big_endian (skipn 4 s)).
  { intros s k Ls Os. rewrite <- (firstn_skipn 4 s) in Os. rewrite bytes_ok_app in Os. apply andb_true_iff in Os as (O1 & O2).
    assert (length (skipn 4 s) = k) as L2 by (rewrite skipn_length; lia).
    split; [rewrite firstn_length; lia|]. split; [exact O1|]. split; [exact O2|]. split; [exact L2|].
    rewrite <- (firstn_skipn 4 s) at 1. rewrite big_endian_app, L2. reflexivity. }
  destruct (Cut src 28%nat L O) as (L0 & O0 & R0 & M0 & V0).
  destruct (Cut _ 24%nat M0 R0) as (L1 & O1 & R1 & M1 & V1).
  destruct (Cut _ 20%nat M1 R1) as (L2 & O2 & R2 & M2 & V2).
  destruct (Cut _ 16%nat M2 R2) as (L3 & O3 & R3 & M3 & V3).
  destruct (Cut _ 12%nat M3 R3) as (L4 & O4 & R4 & M4 & V4).
  destruct (Cut _ 8%nat M4 R4) as (L5 & O5 & R5 & M5 & V5).
  destruct (Cut _ 4%nat M5 R5) as (L6 & O6 & R6 & M6 & V6).
  destruct (Cut _ 0%nat M6 R6) as (L7 & O7 & R7 & M7 & V7).
  rewrite !skipn_skipn in *. cbn [Nat.add] in *.
  assert (E : from_bin src = [big_endian (firstn 4 (skipn 28 src)); big_endian (firstn 4 (skipn 24 src));
    big_endian (firstn 4 (skipn 20 src)); big_endian (firstn 4 (skipn 16 src)); big_endian (firstn 4 (skipn 12 src));
    big_endian (firstn 4 (skipn 8 src)); big_endian (firstn 4 (skipn 4 src)); big_endian (firstn 4 src)]).
  { unfold from_bin. rewrite !big_endian_of_be. reflexivity. }
  assert (Bd : forall c : bytes, length c = 4%nat -> bytes_ok c = true -> 0 <= big_endian c < 2 ^ 32).
  { intros c Lc Oc. pose proof (big_endian_bound c Oc) as H. rewrite Lc in H. exact H. }
  split.
  - rewrite E. split; [reflexivity|]. unfold digits. do 8 (apply Forall_cons; [apply Bd; assumption|]). apply Forall_nil.
  - rewrite E. cbn [value]. rewrite V0, V1, V2, V3, V4, V5, V6, V7.
    assert (skipn 32 src = []) as -> by (apply length_zero_iff_nil; exact M7). cbn [big_endian].
    change (8 * Z.of_nat 28) with 224. change (8 * Z.of_nat 24) with 192. change (8 * Z.of_nat 20) with 160.
    change (8 * Z.of_nat 16) with 128. change (8 * Z.of_nat 12) with 96. change (8 * Z.of_nat 8) with 64.
    change (8 * Z.of_nat 4) with 32. change (8 * Z.of_nat 0) with 0. ring.
Qed.

Lemma from_to_bin x : is_int256 x -> from_bin (to_bin x) = x.
Proof.
  intros (L & D). destruct (to_bin_facts x D) as (Lb & O & V). rewrite L in Lb.
  destruct (from_bin_facts (to_bin x) Lb O) as ((L' & D') & V'). apply value_inj; auto; congruence.
Qed.
Lemma to_from_bin (src : bytes) : length src = 32%nat -> bytes_ok src = true -> to_bin (from_bin src) = src.
Proof.
  intros L O. destruct (from_bin_facts src L O) as ((L' & D') & V').
  destruct (to_bin_facts _ D') as (Lb & O' & V). rewrite L' in Lb. apply big_endian_inj; auto; congruence.
Qed.

(** ** Minimal encodings *)

Lemma from_nonzero_facts l : bytes_ok l = true ->
  bytes_ok (from_nonzero l) = true /\ big_endian (from_nonzero l) = big_endian l /\
  (length (from_nonzero l) <= length l)%nat /\
  match from_nonzero l with [] => True | b :: _ => b <> 0%N end.
Proof.
  induction l as [|b l IH]; intros O; [repeat split; auto|].
  pose proof O as O'. cbn [bytes_ok forallb] in O. apply andb_true_iff in O as (Ob & Ol). destruct (IH Ol) as (I1 & I2 & I3 & I4).
  cbn [from_nonzero]. destruct (N.eqb_spec b 0) as [-> | Nb].
  - split; [exact I1|]. split; [rewrite I2; cbn [big_endian]; lia|]. split; [cbn [length]; lia|exact I4].
  - split; [exact O'|]. split; [reflexivity|]. split; [lia|exact Nb].
Qed.

Lemma land_top b : (b < 256)%N -> (N.land b 0x80 =? 0x80)%N = (128 <=? b)%N.
Proof.
  intros H. change 0x80%N with (2 ^ 7)%N.
  assert (E : N.land b (2 ^ 7) = (if N.testbit b 7 then 2 ^ 7 else 0)%N).
  { apply N.bits_inj. intros i. rewrite N.land_spec, N.pow2_bits_eqb.
    destruct (N.eqb_spec 7 i) as [<-|Ni].
    - rewrite andb_true_r. destruct (N.testbit b 7); [rewrite N.pow2_bits_true; reflexivity|rewrite N.bits_0; reflexivity].
    - rewrite andb_false_r. destruct (N.testbit b 7); [rewrite N.pow2_bits_false by exact Ni; reflexivity|rewrite N.bits_0; reflexivity]. }
  rewrite E. rewrite N.testbit_eqb. change (2 ^ 7)%N with 128%N.
  destruct (N.leb_spec 128 b) as [G|G].
  - assert (b / 128 = 1)%N as -> by (symmetry; apply N.div_unique with (b - 128)%N; lia). reflexivity.
  - rewrite N.div_small by exact G. reflexivity.
Qed.

Lemma minimal_encoding_facts x : is_int256 x ->
  let c := to_minimal_encoding x in
  two_complement c (value x) /\ minimal c /\ bytes_ok c = true /\ (length c <= 33)%nat.
Proof.
  intros (L & D) c. destruct (to_bin_facts x D) as (Lb & O & V). rewrite L in Lb.
  destruct (from_nonzero_facts _ O) as (F1 & F2 & F3 & F4). unfold c, to_minimal_encoding.
  rewrite V in F2. destruct (from_nonzero (to_bin x)) as [|b l] eqn:E.
  - cbn [big_endian] in F2. rewrite <- F2. split; [reflexivity|]. split; [exact Logic.I|]. split; [reflexivity|]. cbn [length]. lia.
  - pose proof F1 as F1'. cbn [bytes_ok forallb] in F1'. apply andb_true_iff in F1' as (Ob & Ol).
    unfold byte_ok in Ob. apply N.ltb_lt in Ob. rewrite (land_top b Ob).
    destruct (N.leb_spec 128 b) as [G|G].
    + split; [|split; [|split]].
      * unfold two_complement. change (128 <=? 0)%N with false. cbn iota. rewrite <- F2. cbn [big_endian]. lia.
      * cbn [minimal]. split; intros (A & A'); lia.
      * exact F1.
      * cbn [length] in *. lia.
    + split; [|split; [|split]].
      * unfold two_complement. assert ((128 <=? b)%N = false) as -> by (apply N.leb_gt; lia). rewrite <- F2. lia.
      * destruct l; [exact Logic.I|]. cbn [minimal]. split; intros (A & A'); [destruct (F4 A)|lia].
      * exact F1.
      * cbn [length] in *. lia.
Qed.

(** Two's complement numbers determine their minimal encodings. *)
Lemma minimal_size c x : two_complement c x -> minimal c -> bytes_ok c = true -> 0 <= x ->
  big_endian c = x /\ x < 2 ^ (8 * Z.of_nat (length c) - 1) /\
  (length c = 1%nat \/ (1 < length c)%nat /\ 2 ^ (8 * Z.of_nat (length c) - 9) <= x).
Proof.
  intros T M O Hx. destruct c as [|f c]; [destruct M|].
  pose proof O as O'. cbn [bytes_ok forallb] in O'. apply andb_true_iff in O' as (Of & Oc).
  pose proof (big_endian_bound _ O) as Bc. pose proof (big_endian_bound _ Oc) as Bt. unfold two_complement in T.
  destruct (N.leb_spec 128 f) as [G|G]; [lia|]. rewrite Z.sub_0_r in T. subst x.
  split; [reflexivity|]. cbn [length] in *. rewrite Nat2Z.inj_succ in *.
  set (k := Z.of_nat (length c)) in *. assert (Hk : 0 <= k) by (unfold k; lia).
  assert (P : 0 < 2 ^ (8 * k)) by (apply Z.pow_pos_nonneg; lia).
  split.
  - cbn [big_endian]. fold k. replace (8 * Z.succ k - 1) with (8 * k + 7) by lia. rewrite Z.pow_add_r by lia.
    change (2 ^ 7) with 128. assert (Z.of_N f <= 127) by lia. nia.
  - destruct c as [|s c]; [left; reflexivity|right]. split; [cbn [length]; lia|].
    cbn [minimal] in M. destruct M as (M & _).
    cbn [length] in k. unfold k in *. rewrite Nat2Z.inj_succ in *. set (j := Z.of_nat (length c)) in *.
    replace (8 * Z.succ (Z.succ j) - 9) with (8 * j + 7) by lia.
    rewrite Z.pow_add_r by (unfold j; lia). change (2 ^ 7) with 128.
    cbn [big_endian]. cbn [length]. rewrite Nat2Z.inj_succ. fold j.
    replace (8 * Z.succ j) with (8 * j + 8) by lia. rewrite Z.pow_add_r by (unfold j; lia). change (2 ^ 8) with 256.
    cbn [bytes_ok forallb] in Oc. apply andb_true_iff in Oc as (_ & Oc'). pose proof (big_endian_bound _ Oc') as Bcc.
    assert (P' : 0 < 2 ^ (8 * j)) by (apply Z.pow_pos_nonneg; unfold j; lia).
    destruct (N.eq_dec f 0) as [-> | Nf].
    + assert (128 <= Z.of_N s) by (destruct (N.ltb_spec s 128); [destruct (M (conj eq_refl H))|lia]). nia.
    + assert (1 <= Z.of_N f) by lia. assert (0 <= Z.of_N s) by lia. nia.
Qed.

Lemma minimal_unique c d x : 0 <= x ->
  two_complement c x -> minimal c -> bytes_ok c = true ->
  two_complement d x -> minimal d -> bytes_ok d = true -> c = d.
Proof.
  intros Hx Tc Mc Oc Td Md Od.
  destruct (minimal_size c x Tc Mc Oc Hx) as (Vc & Uc & Lc). destruct (minimal_size d x Td Md Od Hx) as (Vd & Ud & Ld).
  apply big_endian_inj; auto; [|congruence].
  destruct (Nat.lt_trichotomy (length c) (length d)) as [H|[H|H]]; [exfalso|exact H|exfalso].
  - destruct Ld as [Ld|(_ & Ld)]; [destruct c; [exact Mc|cbn [length] in *; lia]|].
    assert (2 ^ (8 * Z.of_nat (length c) - 1) <= 2 ^ (8 * Z.of_nat (length d) - 9)) by (apply Z.pow_le_mono_r; lia). lia.
  - destruct Lc as [Lc|(_ & Lc)]; [destruct d; [exact Md|cbn [length] in *; lia]|].
    assert (2 ^ (8 * Z.of_nat (length d) - 1) <= 2 ^ (8 * Z.of_nat (length c) - 9)) by (apply Z.pow_le_mono_r; lia). lia.
Qed.
