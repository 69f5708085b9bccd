(** Correctness of the 256-bit arithmetic. *)
From Verif Require Import Base Facts Int.Model.
From Verif Require Import Int.Spec.
From Coq Require Import Lia Znumtheory.
Open Scope Z_scope.

Lemma B_eq : B = 4294967296. Proof. reflexivity. Qed.
Lemma two32 : 2 ^ 32 = 4294967296. Proof. reflexivity. Qed.

Lemma in_range_some lo hi x : lo <= x < hi -> in_range lo hi x = Some x.
Proof.
  intros H. unfold in_range.
  destruct (Z.leb_spec lo x); [|lia]. destruct (Z.ltb_spec x hi); [reflexivity|lia].
Qed.
Lemma u64_some x : 0 <= x < 18446744073709551616 -> u64 x = Some x.
Proof. intros H. apply in_range_some. exact H. Qed.
Lemma u32_some x : 0 <= x < 4294967296 -> u32 x = Some x.
Proof. intros H. apply in_range_some. exact H. Qed.
Lemma i64_some x : -9223372036854775808 <= x < 9223372036854775808 -> i64 x = Some x.
Proof. intros H. apply in_range_some. exact H. Qed.

(** ** Values of digits *)

Definition W (k : nat) : Z := B ^ Z.of_nat k.
Lemma W_0 : W 0 = 1. Proof. reflexivity. Qed.
Lemma W_S k : W (S k) = B * W k.
Proof. unfold W. rewrite Nat2Z.inj_succ, Z.pow_succ_r by lia. reflexivity. Qed.
Lemma W_pos k : 0 < W k.
Proof. unfold W. apply Z.pow_pos_nonneg; [rewrite B_eq; lia|lia]. Qed.
Lemma W_add a b : W (a + b) = W a * W b.
Proof. unfold W. rewrite Nat2Z.inj_add, Z.pow_add_r by lia. reflexivity. Qed.
Lemma W_8 : W 8 = 2 ^ 256. Proof. reflexivity. Qed.

Lemma value_cons d x : value (d :: x) = d + B * value x.
Proof. reflexivity. Qed.
Lemma value_app x y : value (x ++ y) = value x + W (length x) * value y.
Proof.
  induction x as [|d x IH]; [cbn [app value length]; rewrite W_0; lia|].
  cbn [app length]. rewrite !value_cons, IH, W_S. ring.
Qed.
Lemma value_bound x : digits x -> 0 <= value x < W (length x).
Proof.
  induction x as [|d x IH]; intros H; [cbn [value length]; rewrite W_0; lia|].
  cbn [length]. rewrite value_cons, W_S. inversion H; subst. specialize (IH H3).
  rewrite two32, <- B_eq in H2. pose proof (W_pos (length x)). nia.
Qed.
Lemma value_inj x y : length x = length y -> digits x -> digits y -> value x = value y -> x = y.
Proof.
  revert y. induction x as [|d x IH]; intros [|e y] L Dx Dy E; try discriminate L; [reflexivity|].
  injection L as L. inversion Dx; subst. inversion Dy; subst. rewrite !value_cons in E.
  rewrite two32, <- B_eq in *. rewrite B_eq in *.
  assert (d = e) by lia. subst e. f_equal. apply IH; auto. lia.
Qed.
Lemma digits_app x y : digits (x ++ y) <-> digits x /\ digits y.
Proof. apply Forall_app. Qed.
Lemma digits_firstn k x : digits x -> digits (firstn k x).
Proof. intros H. rewrite <- (firstn_skipn k x) in H. apply digits_app in H. tauto. Qed.
Lemma digits_skipn k x : digits x -> digits (skipn k x).
Proof. intros H. rewrite <- (firstn_skipn k x) in H. apply digits_app in H. tauto. Qed.
Lemma digits_repeat k : digits (repeat 0 k).
Proof. apply Forall_forall. intros d H. apply repeat_spec in H. subst. rewrite two32. lia. Qed.
Lemma int256_bound x : is_int256 x -> 0 <= value x < W 8.
Proof. intros (L & D). rewrite <- L. apply value_bound, D. Qed.

(** ** The loop *)

Fixpoint vsum (g : Z -> Z -> Z) (x y : list Z) : Z :=
  match x, y with
  | a :: x', b :: y' => g a b + B * vsum g x' y'
  | _, _ => 0
  end.

Lemma loop_spec step g lo hi :
  (forall c a b, lo <= c <= hi -> 0 <= a < B -> 0 <= b < B ->
     step c a b = Some (c + g a b) /\ lo <= (c + g a b) / B <= hi) ->
  forall x y c, length x = length y -> digits x -> digits y -> lo <= c <= hi ->
  exists r c', loop step c x y = Some (r, c') /\ length r = length x /\ digits r /\ lo <= c' <= hi /\
    value r + W (length x) * c' = c + vsum g x y.
Proof.
  intros St. induction x as [|a x IH]; intros [|b y] c L Dx Dy C; try discriminate L.
  - exists [], c. cbn [loop]. split; [reflexivity|]. split; [reflexivity|]. split; [constructor|].
    split; [exact C|]. cbn [value vsum length]. rewrite W_0. lia.
  - injection L as L. inversion Dx as [|? ? Ha Dx']; subst. inversion Dy as [|? ? Hb Dy']; subst.
    destruct (St c a b C Ha Hb) as (S1 & S2). cbn [loop]. rewrite S1.
    destruct (IH y ((c + g a b) / B) L Dx' Dy' S2) as (r & c' & E & Lr & Dr & C' & V).
    rewrite E. eexists _, c'. split; [reflexivity|]. cbn [length]. split; [f_equal; exact Lr|].
    split.
    { constructor; [|exact Dr]. rewrite two32, <- B_eq. apply Z.mod_pos_bound. rewrite B_eq. lia. }
    split; [exact C'|]. rewrite value_cons, W_S. cbn [vsum].
    pose proof (Z.div_mod (c + g a b) B ltac:(rewrite B_eq; lia)) as DM.
    transitivity ((c + g a b) mod B + B * (value r + W (length x) * c')); [ring|].
    rewrite V. lia.
Qed.

Lemma vsum_ext g h x y :
  (forall a b, g a b = h a b) -> vsum g x y = vsum h x y.
Proof.
  intros E. revert y. induction x as [|a x IH]; intros [|b y]; try reflexivity.
  cbn [vsum]. rewrite E, IH. reflexivity.
Qed.
Lemma vsum_lin u v x y : length x = length y ->
  vsum (fun a b => u * a + v * b) x y = u * value x + v * value y.
Proof.
  revert y. induction x as [|a x IH]; intros [|b y] L; try discriminate L; [cbn [vsum value]; lia|].
  injection L as L. cbn [vsum]. rewrite (IH y L), !value_cons. ring.
Qed.

Local Ltac sum_to u v :=
  erewrite (vsum_ext _ (fun a b => u * a + v * b)) in * by (intros; ring); rewrite vsum_lin in * by assumption.

(** ** Addition and subtraction *)

Lemma add_spec x y : length x = length y -> digits x -> digits y ->
  exists r c, add x y = Some (r, c) /\ length r = length x /\ digits r /\ (c = 0 \/ c = 1) /\
    value r + W (length x) * c = value x + value y.
Proof.
  intros L Dx Dy.
  destruct (loop_spec add_step (fun a b => a + b) 0 1) with (x := x) (y := y) (c := 0)
    as (r & c & E & Lr & Dr & C & V); auto; [|lia|].
  - intros c a b Hc Ha Hb. rewrite B_eq in *. unfold add_step. rewrite u64_some by lia.
    rewrite u64_some by lia. split; [reflexivity|]. lia.
  - unfold add. rewrite E. exists r, c.
    assert (c mod B = c) as -> by (rewrite B_eq; apply Z.mod_small; lia).
    split; [reflexivity|]. split; [exact Lr|]. split; [exact Dr|]. split; [lia|].
    sum_to 1 1. lia.
Qed.

Lemma sub_loop_spec x y : length x = length y -> digits x -> digits y ->
  exists r c, loop sub_step 0 x y = Some (r, c) /\ length r = length x /\ digits r /\
    (c = 0 \/ c = -1) /\ value r + W (length x) * c = value x - value y.
Proof.
  intros L Dx Dy.
  destruct (loop_spec sub_step (fun a b => a - b) (-1) 0) with (x := x) (y := y) (c := 0)
    as (r & c & E & Lr & Dr & C & V); auto; [|lia|].
  - intros c a b Hc Ha Hb. rewrite B_eq in *. unfold sub_step. rewrite i64_some by lia.
    rewrite i64_some by lia. split; [reflexivity|]. lia.
  - exists r, c. split; [exact E|]. split; [exact Lr|]. split; [exact Dr|]. split; [lia|].
    sum_to 1 (-1). lia.
Qed.

Lemma sub_spec x y : length x = length y -> digits x -> digits y ->
  exists r c, sub x y = Some (r, c) /\ length r = length x /\ digits r /\
    ((c = 0 /\ value r = value x - value y /\ value y <= value x) \/
     (c = B - 1 /\ value r = value x - value y + W (length x) /\ value x < value y)).
Proof.
  intros L Dx Dy. destruct (sub_loop_spec x y L Dx Dy) as (r & c & E & Lr & Dr & C & V).
  pose proof (value_bound r Dr) as Br. rewrite Lr in Br.
  unfold sub. rewrite E. exists r, (c mod B). split; [reflexivity|]. split; [exact Lr|]. split; [exact Dr|].
  destruct C as [-> | ->].
  - left. split; [reflexivity|]. lia.
  - right. split; [reflexivity|]. lia.
Qed.

Lemma ct_lt_spec x y : length x = length y -> digits x -> digits y ->
  ct_lt x y = Some (value x <? value y).
Proof.
  intros L Dx Dy. destruct (sub_loop_spec x y L Dx Dy) as (r & c & E & Lr & Dr & C & V).
  pose proof (value_bound r Dr) as Br. rewrite Lr in Br.
  unfold ct_lt. rewrite E. f_equal. destruct C as [-> | ->].
  - symmetry. apply Z.ltb_ge. lia.
  - symmetry. apply Z.ltb_lt. lia.
Qed.

Lemma add_digit_spec x d : digits x -> 0 <= d < B ->
  exists r c, add_digit x d = Some (r, c) /\ length r = length x /\ digits r /\ 0 <= c < B /\
    value r + W (length x) * c = value x + d.
Proof.
  intros Dx Hd.
  destruct (loop_spec (fun c a _ => u64 (c + a)) (fun a b => a) 0 (B - 1)) with (x := x) (y := x) (c := d)
    as (r & c & E & Lr & Dr & C & V); auto; [|lia|].
  - intros c a b Hc Ha Hb. rewrite B_eq in *. rewrite u64_some by lia.
    split; [reflexivity|]. lia.
  - unfold add_digit. rewrite E. exists r, c.
    assert (c mod B = c) as -> by (apply Z.mod_small; lia).
    split; [reflexivity|]. split; [exact Lr|]. split; [exact Dr|]. split; [lia|].
    assert (length x = length x) as L by reflexivity. sum_to 1 0. lia.
Qed.

Definition sel (choice : bool) (v : Z) : Z := if choice then v else 0.

Lemma add_conditional_spec x m t ch : length x = length m -> digits x -> digits m -> 0 <= t < B - 1 ->
  exists r c, add_conditional x m t ch = Some (r, c + t) /\ length r = length x /\ digits r /\
    (c = 0 \/ c = 1) /\ value r + W (length x) * c = value x + sel ch (value m).
Proof.
  intros L Dx Dm Ht.
  destruct (loop_spec (fun c a b => let? c := u64 (c + a) in u64 (c + if ch then b else 0))
              (fun a b => a + if ch then b else 0) 0 1) with (x := x) (y := m) (c := 0)
    as (r & c & E & Lr & Dr & C & V); auto; [|lia|].
  - intros c a b Hc Ha Hb. rewrite B_eq in *. rewrite u64_some by lia.
    destruct ch; rewrite u64_some by lia; (split; [f_equal; lia|]; lia).
  - unfold add_conditional. rewrite E.
    assert (c mod B = c) as -> by (apply Z.mod_small; rewrite B_eq in *; lia).
    rewrite u32_some by (rewrite B_eq in *; lia). exists r, c.
    split; [reflexivity|]. split; [exact Lr|]. split; [exact Dr|]. split; [lia|].
    destruct ch; cbn [sel]; [sum_to 1 1|sum_to 1 0]; lia.
Qed.

Lemma sub_conditional_spec x m t ch : length x = length m -> digits x -> digits m -> 0 <= t < B ->
  exists r c, sub_conditional x m t ch = Some (r, (c + t) mod B =? B - 1) /\ length r = length x /\ digits r /\
    (c = 0 \/ c = -1) /\ value r + W (length x) * c = value x - sel ch (value m).
Proof.
  intros L Dx Dm Ht.
  destruct (loop_spec (fun c a b => let? c := i64 (c + a) in i64 (c - if ch then b else 0))
              (fun a b => a - if ch then b else 0) (-1) 0) with (x := x) (y := m) (c := 0)
    as (r & c & E & Lr & Dr & C & V); auto; [|lia|].
  - intros c a b Hc Ha Hb. rewrite B_eq in *. rewrite i64_some by lia.
    destruct ch; rewrite i64_some by lia; (split; [f_equal; lia|]; lia).
  - unfold sub_conditional. rewrite E.
    rewrite i64_some by (rewrite B_eq in *; lia). exists r, c.
    split; [reflexivity|]. split; [exact Lr|]. split; [exact Dr|]. split; [lia|].
    destruct ch; cbn [sel]; [sum_to 1 (-1)|sum_to 1 0]; lia.
Qed.

(** Subtract the modulus, and add it back if there was a borrow. *)
Lemma sub_add_spec x m : length x = length m -> digits x -> digits m ->
  exists r, modd x m = Some r /\ length r = length x /\ digits r /\
    value r = if value x <? value m then value x else value x - value m.
Proof.
  intros L Dx Dm. unfold modd.
  destruct (sub_conditional_spec x m 0 true L Dx Dm ltac:(rewrite B_eq; lia)) as (r & c & E & Lr & Dr & C & V).
  rewrite E, Z.add_0_r. set (ch := (c mod B =? B - 1)).
  destruct (add_conditional_spec r m 0 ch ltac:(congruence) Dr Dm ltac:(rewrite B_eq; lia))
    as (r' & c' & E' & Lr' & Dr' & C' & V').
  rewrite E'. exists r'. split; [reflexivity|]. split; [congruence|]. split; [exact Dr'|].
  pose proof (value_bound r Dr) as Br. pose proof (value_bound r' Dr') as Br'.
  pose proof (value_bound x Dx) as Bx. pose proof (value_bound m Dm) as Bm. rewrite <- L in Bm.
  rewrite Lr', Lr in Br'. rewrite Lr in *. cbn [sel] in V. pose proof (W_pos (length x)) as Wp.
  destruct C as [-> | ->].
  - change ch with false in V'. cbn [sel] in V'. destruct (Z.ltb_spec (value x) (value m)); [lia|].
    destruct C' as [-> | ->]; lia.
  - change ch with true in V'. cbn [sel] in V'. destruct (Z.ltb_spec (value x) (value m)); [|lia].
    destruct C' as [-> | ->]; lia.
Qed.

Lemma modd_spec x m : is_int256 x -> is_int256 m -> value x < 2 * value m ->
  exists r, modd x m = Some r /\ is_int256 r /\ value r = value x mod value m.
Proof.
  intros (Lx & Dx) (Lm & Dm) H.
  destruct (sub_add_spec x m ltac:(congruence) Dx Dm) as (r & E & Lr & Dr & V).
  exists r. split; [exact E|]. split; [split; [congruence|exact Dr]|]. rewrite V.
  pose proof (value_bound x Dx). pose proof (value_bound m Dm).
  destruct (Z.ltb_spec (value x) (value m)); [rewrite Z.mod_small; lia|].
  apply Zmod_unique with 1; lia.
Qed.

Lemma modsub_spec x y m : is_int256 x -> is_int256 y -> is_int256 m -> value x < value m -> value y <= value m ->
  exists r, modsub_vartime x y m = Some r /\ is_int256 r /\ value r = (value x - value y) mod value m.
Proof.
  intros (Lx & Dx) (Ly & Dy) (Lm & Dm) Hx Hy. unfold modsub_vartime.
  destruct (sub_spec x y ltac:(congruence) Dx Dy) as (d & c & E & Ld & Dd & C). rewrite E.
  pose proof (value_bound x Dx). pose proof (value_bound y Dy). pose proof (value_bound m Dm).
  destruct C as [(-> & V & G) | (-> & V & G)].
  - cbn [Z.eqb negb]. exists d. split; [reflexivity|]. split; [split; [congruence|exact Dd]|].
    rewrite V. symmetry. apply Z.mod_small. lia.
  - change (negb (B - 1 =? 0)) with true. cbn [negb]. destruct (add_spec d m ltac:(congruence) Dd Dm) as (s & k & Es & Ls & Ds & K & Vs).
    rewrite Es. exists s. split; [reflexivity|]. split; [split; [congruence|exact Ds]|].
    pose proof (value_bound s Ds) as Bs. rewrite Ls, Ld, Lx in *. rewrite Lm in *. rewrite Ly in *.
    pose proof (W_pos 8). apply Zmod_unique with (-1); [lia|].
    destruct K as [-> | ->]; lia.
Qed.

Lemma modadd_spec x y m : is_int256 x -> is_int256 y -> is_int256 m -> value x < value m -> value y < value m ->
  exists r, modadd_vartime x y m = Some r /\ is_int256 r /\ value r = (value x + value y) mod value m.
Proof.
  intros (Lx & Dx) (Ly & Dy) (Lm & Dm) Hx Hy. unfold modadd_vartime.
  destruct (add_spec x y ltac:(congruence) Dx Dy) as (s & c & E & Ls & Ds & C & V). rewrite E.
  pose proof (value_bound x Dx). pose proof (value_bound y Dy). pose proof (value_bound m Dm) as Bm.
  pose proof (value_bound s Ds) as Bs. rewrite Ls, Lx in *. rewrite Lm in *. rewrite Ly in *.
  pose proof (W_pos 8) as Wp.
  assert (T : exists t, (if negb (c =? 0) then let? (d, _) := sub s m in Some d else Some s) = Some t /\
                is_int256 t /\ value t < 2 * value m /\
                (value t = value x + value y \/ value t = value x + value y - value m /\ value t < value m)).
  { destruct C as [-> | ->].
    - cbn [Z.eqb negb]. exists s. split; [reflexivity|]. split; [split; [congruence|exact Ds]|]. lia.
    - change (negb (1 =? 0)) with true. cbn iota.
      destruct (sub_spec s m ltac:(congruence) Ds Dm) as (d & k & Ed & Ld & Dd & K). rewrite Ed.
      exists d. split; [reflexivity|]. split; [split; [congruence|exact Dd]|]. rewrite Ls, ?Lx in *.
      pose proof (value_bound d Dd) as Bd. rewrite Ld, ?Ls, ?Lx in *. lia. }
  destruct T as (t & -> & (Lt & Dt) & Bt & Vt). unfold modsub_vartime.
  destruct (sub_spec t m ltac:(congruence) Dt Dm) as (d & k & Ed & Ld & Dd & K). rewrite Ed.
  destruct K as [(-> & Vd & G) | (-> & Vd & G)].
  - cbn [Z.eqb negb]. exists d. split; [reflexivity|]. split; [split; [congruence|exact Dd]|].
    destruct Vt as [Vt | (Vt & Vt')]; [|lia]. apply Zmod_unique with 1; lia.
  - change (negb (B - 1 =? 0)) with true. cbn iota.
    destruct (add_spec d m ltac:(congruence) Dd Dm) as (u & q & Eu & Lu & Du & Q & Vu). rewrite Eu.
    exists u. split; [reflexivity|]. split; [split; [congruence|exact Du]|].
    pose proof (value_bound u Du) as Bu. pose proof (value_bound t Dt) as Btt. rewrite Lu, Ld, Lt in *.
    assert (value u = value t) by (destruct Q as [-> | ->]; lia).
    destruct Vt as [Vt | (Vt & _)]; [apply Zmod_unique with 0; lia|apply Zmod_unique with 1; lia].
Qed.

(** ** Multiplication *)

Lemma mul_add_spec x y f : length x = length y -> digits x -> digits y -> 0 <= f < B ->
  exists r c, mul_add x y f = Some (r, c) /\ length r = length x /\ digits r /\ 0 <= c < B /\
    value r + W (length x) * c = value x + f * value y.
Proof.
  intros L Dx Dy Hf.
  destruct (loop_spec (mul_step f) (fun a b => a + f * b) 0 (B - 1)) with (x := x) (y := y) (c := 0)
    as (r & c & E & Lr & Dr & C & V); auto.
  - intros c a b Hc Ha Hb. rewrite B_eq in *. unfold mul_step.
    assert (0 <= b * f <= 18446744065119617025) as Hm by nia.
    rewrite u64_some by lia. rewrite u64_some by lia. rewrite u64_some by lia.
    split; [f_equal; ring|]. assert (f * b = b * f) as -> by ring. lia.
  - rewrite B_eq. lia.
  - unfold mul_add. rewrite E. exists r, c.
    assert (c mod B = c) as -> by (apply Z.mod_small; lia).
    split; [reflexivity|]. split; [exact Lr|]. split; [exact Dr|]. split; [lia|].
    sum_to 1 f. lia.
Qed.

Lemma sub_top_spec x y t u : length x = length y -> digits x -> digits y -> 0 <= t < B -> 0 <= u < B ->
  0 <= value x + W (length x) * t - (value y + W (length x) * u) < 2 * W (length x) ->
  exists r c, sub_top x y t u = Some (r, c) /\ length r = length x /\ digits r /\ (c = 0 \/ c = 1) /\
    value r + W (length x) * c = value x + W (length x) * t - (value y + W (length x) * u).
Proof.
  intros L Dx Dy Ht Hu H.
  destruct (loop_spec (fun c a b => let? c := i64 (c + a) in i64 (c - b)) (fun a b => a - b) (-1) 0)
    with (x := x) (y := y) (c := 0) as (r & c & E & Lr & Dr & C & V); auto; [|lia|].
  - intros c a b Hc Ha Hb. rewrite B_eq in *. rewrite i64_some by lia. rewrite i64_some by lia.
    split; [f_equal; ring|]. lia.
  - sum_to 1 (-1). unfold sub_top. rewrite E. pose proof (value_bound r Dr) as Br. rewrite Lr in Br.
    pose proof (W_pos (length x)) as Wp. set (w := W (length x)) in *. clearbody w.
    assert (K : 0 <= c + t - u <= 1) by nia.
    rewrite i64_some by (rewrite B_eq in *; lia). rewrite i64_some by (rewrite B_eq in *; lia).
    exists r, (c + t - u). assert ((c + t - u) mod B = c + t - u) as -> by (apply Z.mod_small; rewrite B_eq; lia).
    split; [reflexivity|]. split; [exact Lr|]. split; [exact Dr|]. split; [lia|]. lia.
Qed.

(** The buffer. *)
Lemma split_window tmp i : (i + 8 <= length tmp)%nat ->
  tmp = firstn i tmp ++ window tmp i ++ skipn (i + 8) tmp.
Proof.
  intros _. unfold window. rewrite <- (firstn_skipn i tmp) at 1. f_equal.
  rewrite <- (firstn_skipn 8 (skipn i tmp)) at 1. f_equal. rewrite skipn_skipn. f_equal. lia.
Qed.
Lemma window_length tmp i : (i + 8 <= length tmp)%nat -> length (window tmp i) = 8%nat.
Proof. intros H. unfold window. rewrite firstn_length, skipn_length. lia. Qed.
Lemma window_digits tmp i : digits tmp -> digits (window tmp i).
Proof. intros H. apply digits_firstn, digits_skipn, H. Qed.
Lemma put_length tmp i w : (i + length w <= length tmp)%nat -> length (put tmp i w) = length tmp.
Proof. intros H. unfold put. rewrite !app_length, firstn_length, skipn_length. lia. Qed.
Lemma put_digits tmp i w : digits tmp -> digits w -> digits (put tmp i w).
Proof.
  intros H1 H2. unfold put. apply digits_app. split; [apply digits_firstn, H1|].
  apply digits_app. split; [exact H2|apply digits_skipn, H1].
Qed.
Lemma put_prefix tmp i w : (i + length w <= length tmp)%nat ->
  firstn (i + length w) (put tmp i w) = firstn i tmp ++ w.
Proof.
  intros H. unfold put. rewrite app_assoc.
  assert (length (firstn i tmp ++ w) = i + length w)%nat as L by (rewrite app_length, firstn_length; lia).
  rewrite firstn_app, L, Nat.sub_diag, firstn_O, app_nil_r. apply firstn_all2. lia.
Qed.
Lemma firstn_window tmp i : (i + 8 <= length tmp)%nat -> firstn (i + 8) tmp = firstn i tmp ++ window tmp i.
Proof.
  intros H. rewrite (split_window tmp i H) at 1. rewrite app_assoc, firstn_app.
  assert (length (firstn i tmp ++ window tmp i) = i + 8)%nat as L
    by (rewrite app_length, firstn_length, window_length; lia).
  rewrite L, Nat.sub_diag, firstn_O, app_nil_r. apply firstn_all2. lia.
Qed.
Lemma value_firstn_window tmp i : (i + 8 <= length tmp)%nat ->
  value (firstn (i + 8) tmp) = value (firstn i tmp) + W i * value (window tmp i).
Proof. intros H. rewrite (firstn_window tmp i H), value_app, firstn_length. f_equal. f_equal. f_equal. lia. Qed.
Lemma value_put tmp i w : (i + length w <= length tmp)%nat ->
  value (firstn (i + length w) (put tmp i w)) = value (firstn i tmp) + W i * value w.
Proof. intros H. rewrite (put_prefix tmp i w H), value_app, firstn_length. f_equal. f_equal. f_equal. lia. Qed.

Lemma mul_loop_spec a : is_int256 a -> forall b i tmp top,
  digits b -> (i + length b = 8)%nat -> length tmp = 17%nat -> digits tmp -> 0 <= top < B ->
  forall done,
  match i with
  | O => done = 0 /\ tmp = repeat 0 17
  | S _ => value (firstn (i + 7) tmp) + W (i + 7) * top = value a * done
  end ->
  (i = 0%nat -> b <> []) ->
  exists tmp' top', mul_loop i tmp top a b = Some (tmp', top') /\ length tmp' = 17%nat /\ digits tmp' /\
    0 <= top' < B /\ value (firstn 15 tmp') + W 15 * top' = value a * (done + W i * value b).
Proof.
  intros (La & Da). induction b as [|f b IH]; intros i tmp top Db Hi Lt Dt Ht done I NE.
  - cbn [mul_loop length] in *. exists tmp, top. split; [reflexivity|]. split; [exact Lt|]. split; [exact Dt|].
    split; [exact Ht|]. destruct i as [|i]; [destruct (NE eq_refl eq_refl)|].
    assert (S i + 7 = 15)%nat as Ei by (cbn [length] in Hi; lia). rewrite Ei in I. rewrite I. cbn [value]. ring.
  - cbn [mul_loop]. inversion Db as [|? ? Hf Db']; subst. cbn [length] in Hi.
    set (t1 := if Nat.eqb i 0 then tmp else put tmp (i + 7) [top]).
    assert (L1 : length t1 = 17%nat).
    { unfold t1. destruct (Nat.eqb i 0); [exact Lt|]. rewrite put_length; [exact Lt|cbn [length]; lia]. }
    assert (D1 : digits t1).
    { unfold t1. destruct (Nat.eqb i 0); [exact Dt|]. apply put_digits; [exact Dt|].
      constructor; [|constructor]. rewrite two32, <- B_eq. exact Ht. }
    assert (V1 : value (firstn (i + 8) t1) = value a * done).
    { unfold t1. destruct i as [|i]; cbn [Nat.eqb].
      - destruct I as (-> & ->). change (value (firstn (0 + 8) (repeat 0 17))) with 0. ring.
      - change (S i + 8)%nat with (S (i + 8)). replace (S (i + 8))%nat with (S i + 7 + length [top])%nat by (cbn [length]; lia).
        rewrite value_put by (cbn [length]; lia). rewrite value_cons. cbn [value]. rewrite Z.mul_0_r, Z.add_0_r. exact I. }
    destruct (mul_add_spec (window t1 i) a f) as (w & c & E & Lw & Dw & C & V).
    { rewrite window_length by lia. congruence. }
    { apply window_digits, D1. } { exact Da. } { exact Hf. }
    rewrite window_length in Lw, V by lia.
    rewrite E.
    assert (Lp : (i + length w <= length t1)%nat) by lia.
    assert (Iv : value (firstn (S i + 7) (put t1 i w)) + W (S i + 7) * c = value a * (done + W i * f)).
    { replace (S i + 7)%nat with (i + length w)%nat by lia. rewrite value_put by exact Lp. rewrite Lw, W_add.
      rewrite value_firstn_window in V1 by lia.
      transitivity (value (firstn i t1) + W i * (value w + W 8 * c)); [ring|]. rewrite V.
      transitivity (value (firstn i t1) + W i * value (window t1 i) + W i * f * value a); [ring|].
      rewrite V1. ring. }
    destruct (IH (S i) (put t1 i w) c Db' ltac:(lia) ltac:(rewrite put_length; [exact L1|lia])
                 ltac:(apply put_digits; assumption) C (done + W i * f) Iv ltac:(discriminate))
      as (tmp' & top' & E' & L' & D' & T' & V').
    exists tmp', top'. split; [exact E'|]. split; [exact L'|]. split; [exact D'|]. split; [exact T'|].
    rewrite V', value_cons, W_S. ring.
Qed.

Lemma reduce_spec m : is_int256 m -> W 8 - W 7 <= value m -> forall i tmp top,
  (i <= 8)%nat -> length tmp = 17%nat -> digits tmp -> 0 <= top < B ->
  exists tmp', reduce i tmp top m = Some tmp' /\ length tmp' = 17%nat /\ digits tmp' /\
    exists q, value (firstn 8 tmp') = value (firstn (i + 8) tmp) + W (i + 8) * top - q * value m.
Proof.
  intros (Lm & Dm) Hm.
  assert (Bm : 0 <= value m < W 8) by (rewrite <- Lm; apply value_bound, Dm).
  assert (St : forall i tmp top, (i <= 8)%nat -> length tmp = 17%nat -> digits tmp -> 0 <= top < B ->
    exists red tr w c w' bo, mul_add c_ZERO m top = Some (red, tr) /\
      sub_top (window tmp i) red top tr = Some (w, c) /\
      sub_conditional w m c (c =? 1) = Some (w', bo) /\ length w' = 8%nat /\ digits w' /\
      exists q, value w' = value (window tmp i) + W 8 * top - q * value m).
  { intros i tmp top Hi Lt Dt Ht.
    assert (DZ : digits c_ZERO) by (apply (digits_repeat 8)).
    destruct (mul_add_spec c_ZERO m top) as (red & tr & E1 & L1 & D1 & T1 & V1); [rewrite Lm; reflexivity|exact DZ|exact Dm|exact Ht|].
    change (length c_ZERO) with 8%nat in *. change (value c_ZERO) with 0 in V1.
    assert (Lw := window_length tmp i ltac:(lia)). assert (Dw := window_digits tmp i Dt).
    pose proof (value_bound _ Dw) as Bw. rewrite Lw in Bw.
    pose proof (W_S 7) as W78. pose proof (W_pos 7) as Wp7.
    destruct (sub_top_spec (window tmp i) red top tr) as (w & c & E2 & L2 & D2 & T2 & V2); [congruence|exact Dw|exact D1|exact Ht|exact T1| |].
    { rewrite Lw, V1, Z.add_0_l. split; [nia|].
      assert (W 8 * top - top * value m <= top * W 7) by nia.
      assert (top * W 7 <= B * W 7) by nia. lia. }
    rewrite Lw in *. rewrite V1, Z.add_0_l in V2.
    destruct (sub_conditional_spec w m c (c =? 1)) as (w' & k & E3 & L3 & D3 & K & V3); [congruence|exact D2|exact Dm|rewrite B_eq; lia|].
    exists red, tr, w, c, w', ((k + c) mod B =? B - 1).
    split; [exact E1|]. split; [exact E2|]. split; [exact E3|]. split; [congruence|]. split; [exact D3|].
    rewrite L2 in V3. pose proof (value_bound w D2) as Bw2. rewrite L2 in Bw2.
    pose proof (value_bound w' D3) as Bw3. rewrite L3, L2 in Bw3.
    destruct T2 as [-> | ->].
    - cbn [Z.eqb sel] in V3. change (0 =? 1) with false in V3. cbn [sel] in V3. exists top. destruct K as [-> | ->]; lia.
    - change (1 =? 1) with true in V3. cbn [sel] in V3. exists (top + 1).
      assert (top * (W 8 - value m) <= (B - 1) * W 7) by nia.
      destruct K as [-> | ->]; nia. }
  induction i as [|i IH]; intros tmp top Hi Lt Dt Ht.
  - destruct (St 0%nat tmp top Hi Lt Dt Ht) as (red & tr & w & c & w' & bo & E1 & E2 & E3 & L & D & q & V).
    cbn [reduce]. rewrite E1, E2, E3. exists (put tmp 0 w'). split; [reflexivity|].
    split; [rewrite put_length; [exact Lt|lia]|]. split; [apply put_digits; assumption|].
    exists q. replace 8%nat with (0 + length w')%nat at 1 by lia. rewrite value_put by lia.
    rewrite value_firstn_window by lia. rewrite W_add, W_0. cbn [firstn value]. lia.
  - destruct (St (S i) tmp top Hi Lt Dt Ht) as (red & tr & w & c & w' & bo & E1 & E2 & E3 & L & D & q & V).
    cbn [reduce]. rewrite E1, E2, E3. set (t1 := put tmp (S i) w').
    assert (L1 : length t1 = 17%nat) by (unfold t1; rewrite put_length; [exact Lt|lia]).
    assert (D1 : digits t1) by (apply put_digits; assumption).
    assert (T1 : 0 <= nth (S i + 7) t1 0 < B).
    { apply (proj1 (Forall_forall _ _) D1). apply nth_In. lia. }
    destruct (IH t1 (nth (S i + 7) t1 0) ltac:(lia) L1 D1 T1) as (tmp' & E' & L' & D' & q' & V').
    exists tmp'. split; [exact E'|]. split; [exact L'|]. split; [exact D'|].
    exists (W (S i) * q + q'). rewrite V'.
    assert (P : value (firstn (i + 8) t1) + W (i + 8) * nth (S i + 7) t1 0 = value (firstn (S i + 8) t1)).
    { replace (S i + 7)%nat with (i + 8)%nat by lia. replace (S i + 8)%nat with (S (i + 8)) by lia.
      rewrite <- (firstn_skipn (i + 8) t1) at 3. 
      assert (exists d rest, skipn (i + 8) t1 = d :: rest) as (d & rest & Es).
      { destruct (skipn (i + 8) t1) as [|d rest] eqn:Es; [|eauto].
        apply (f_equal (@length _)) in Es. rewrite skipn_length in Es. cbn [length] in Es. lia. }
      assert (nth (i + 8) t1 0 = d) as ->.
      { rewrite <- (firstn_skipn (i + 8) t1), Es, app_nth2; rewrite firstn_length; [|lia].
        replace (i + 8 - Nat.min (i + 8) (length t1))%nat with 0%nat by lia. reflexivity. }
      rewrite Es. assert (Lf : length (firstn (i + 8) t1) = (i + 8)%nat) by (rewrite firstn_length; lia).
      rewrite firstn_app, Lf. replace (S (i + 8) - (i + 8))%nat with 1%nat by lia.
      rewrite (firstn_all2 (firstn (i + 8) t1)) by lia. rewrite value_app, Lf. cbn [firstn value]. lia. }
    rewrite P. unfold t1. replace (S i + 8)%nat with (S i + length w')%nat at 1 by lia. rewrite value_put by lia.
    rewrite (value_firstn_window tmp (S i)) by lia. rewrite V, W_add. ring.
Qed.

(** The moduli for which the reduction is meant. *)
Definition good_modulus (m : int256) : Prop := is_int256 m /\ nth 7 m 0 = 4294967295.
Lemma good_modulus_value m : good_modulus m -> W 8 - W 7 <= value m.
Proof.
  intros ((L & D) & H).
  destruct m as [|d0 [|d1 [|d2 [|d3 [|d4 [|d5 [|d6 [|d7 [|]]]]]]]]]; try discriminate L. cbn [nth] in H. subst d7.
  assert (D7 : digits [d0; d1; d2; d3; d4; d5; d6]).
  { apply (digits_app [d0; d1; d2; d3; d4; d5; d6] [4294967295]) in D. tauto. }
  pose proof (value_bound _ D7) as Bd. cbn [length] in Bd.
  assert (value [d0; d1; d2; d3; d4; d5; d6; 4294967295] = value [d0; d1; d2; d3; d4; d5; d6] + W 7 * 4294967295) as ->.
  { etransitivity; [apply (value_app [d0; d1; d2; d3; d4; d5; d6] [4294967295])|].
    cbn [length]. rewrite (value_cons 4294967295 []). cbn [value]. ring. }
  rewrite (W_S 7), B_eq. lia.
Qed.

Lemma modmul_top_spec a b t m : is_int256 a -> is_int256 b -> 0 <= t < B -> good_modulus m ->
  exists r, modmul_top a b t m = Some r /\ is_int256 r /\
    value r = (value a * (value b + W 8 * t)) mod value m.
Proof.
  intros Ha (Lb & Db) Ht Gm. pose proof (good_modulus_value m Gm) as Hm. destruct Gm as (Im & _).
  pose proof Im as (Lm & Dm). unfold modmul_top.
  destruct (mul_loop_spec a Ha b 0 (repeat 0 17) 0 Db ltac:(lia) eq_refl (digits_repeat 17) ltac:(rewrite B_eq; lia) 0
              (conj eq_refl eq_refl)) as (tmp & top & E1 & L1 & D1 & T1 & V1).
  { intros _ ->. discriminate Lb. }
  rewrite E1. rewrite W_0, Z.mul_1_l, Z.add_0_l in V1.
  set (t1 := put tmp 15 [top]).
  assert (L2 : length t1 = 17%nat) by (unfold t1; rewrite put_length; [exact L1|cbn [length]; lia]).
  assert (D2 : digits t1).
  { apply put_digits; [exact D1|]. constructor; [|constructor]. exact T1. }
  assert (V2 : value (firstn (8 + 8) t1) = value a * value b).
  { change (8 + 8)%nat with (15 + length [top])%nat. unfold t1. rewrite value_put by (cbn [length]; lia).
    rewrite <- V1, value_cons. cbn [value]. ring. }
  destruct Ha as (La & Da).
  destruct (mul_add_spec (window t1 8) a t) as (w & c & E2 & Lw & Dw & C & V3).
  { rewrite window_length by lia. congruence. } { apply window_digits, D2. } { exact Da. } { exact Ht. }
  rewrite window_length in Lw, V3 by lia. rewrite E2.
  set (t2 := put t1 8 w).
  assert (L3 : length t2 = 17%nat) by (unfold t2; rewrite put_length; [exact L2|lia]).
  assert (D3 : digits t2) by (apply put_digits; assumption).
  destruct (reduce_spec m Im Hm 8 t2 c ltac:(lia) L3 D3 C) as (t3 & E3 & L4 & D4 & q & V4).
  rewrite E3.
  assert (Lx := window_length t3 0 ltac:(lia)). assert (Dx := window_digits t3 0 D4).
  change (let? (w0, choice) := sub_conditional (window t3 0) m 0 true in
          let? (w1, _) := add_conditional w0 m 0 choice in Some w1) with (modd (window t3 0) m).
  destruct (sub_add_spec (window t3 0) m ltac:(congruence) Dx Dm) as (r & E5 & L5 & D5 & V5).
  exists r. split; [exact E5|]. split; [split; [congruence|exact D5]|].
  assert (Vw : value (window t3 0) = value a * (value b + W 8 * t) - q * value m).
  { change (window t3 0) with (firstn 8 t3). rewrite V4. f_equal.
    unfold t2. replace (8 + 8)%nat with (8 + length w)%nat at 1 by lia. rewrite value_put by lia.
    rewrite value_firstn_window in V2 by lia. rewrite W_add.
    transitivity (value (firstn 8 t1) + W 8 * (value w + W 8 * c)); [ring|]. rewrite V3.
    transitivity (value (firstn 8 t1) + W 8 * value (window t1 8) + W 8 * t * value a); [ring|]. rewrite V2. ring. }
  pose proof (value_bound _ Dx) as Bx. rewrite Lx in Bx. pose proof (value_bound m Dm) as Bm. rewrite Lm in Bm.
  pose proof (W_S 7) as W78. rewrite B_eq in W78. pose proof (W_pos 7).
  rewrite V5. destruct (Z.ltb_spec (value (window t3 0)) (value m)).
  - apply Zmod_unique with q; lia.
  - apply Zmod_unique with (q + 1); lia.
Qed.

Lemma modmul_spec a b m : is_int256 a -> is_int256 b -> good_modulus m ->
  exists r, modmul a b m = Some r /\ is_int256 r /\ value r = (value a * value b) mod value m.
Proof.
  intros Ha Hb Hm. destruct (modmul_top_spec a b 0 m Ha Hb ltac:(rewrite B_eq; lia) Hm) as (r & E & I & V).
  exists r. split; [exact E|]. split; [exact I|]. rewrite V. f_equal. ring.
Qed.
