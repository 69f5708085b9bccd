(** AES-256 of the library is the standard's, and decryption inverts encryption. *)
From Coq Require Import Ring.
From Verif Require Import Base Facts.
From Verif.Aes Require Import Model Spec.
Open Scope N_scope.

(** ** Bytes *)

Lemma all_bytes_in x : x < 256 -> In x all_bytes.
Proof.
  intros H. unfold all_bytes. apply in_map_iff. exists (N.to_nat x). split; [lia|]. apply in_seq. lia.
Qed.
Lemma on_bytes (P : N -> bool) : forallb P all_bytes = true -> forall x, x < 256 -> P x = true.
Proof. intros H x Hx. rewrite forallb_forall in H. apply H, all_bytes_in, Hx. Qed.
Lemma on_bytes_eq (f g : N -> N) : forallb (fun x => f x =? g x) all_bytes = true ->
  forall x, x < 256 -> f x = g x.
Proof. intros H x Hx. apply N.eqb_eq. apply (on_bytes (fun x => f x =? g x) H x Hx). Qed.

Lemma sbox_table x : x < 256 -> at_ SBOX (N.to_nat x) = sbox x.
Proof. apply (on_bytes_eq (fun x => at_ SBOX (N.to_nat x)) sbox). vm_compute. reflexivity. Qed.
Lemma find_ext {A} (f g : A -> bool) l : (forall x, In x l -> f x = g x) -> find f l = find g l.
Proof.
  induction l as [|a l IH]; intros H; [reflexivity|]. cbn [find]. rewrite (H a (or_introl eq_refl)).
  rewrite IH; [reflexivity|]. intros x Hx. apply H. right. exact Hx.
Qed.
Lemma byte_in x : In x all_bytes -> x < 256.
Proof. unfold all_bytes. intros H. apply in_map_iff in H as (n & <- & H). apply in_seq in H. lia. Qed.
Lemma inv_sbox_table x : x < 256 -> at_ SBOX_INV (N.to_nat x) = inv_sbox x.
Proof.
  intros Hx. unfold inv_sbox. rewrite (find_ext _ (fun y => at_ SBOX (N.to_nat y) =? x)).
  - revert x Hx. apply on_bytes_eq. vm_compute. reflexivity.
  - intros y Hy. rewrite (sbox_table y) by (apply byte_in, Hy). reflexivity.
Qed.
Lemma sbox_inv x : x < 256 -> at_ SBOX_INV (N.to_nat (at_ SBOX (N.to_nat x))) = x.
Proof. apply (on_bytes_eq (fun x => at_ SBOX_INV (N.to_nat (at_ SBOX (N.to_nat x)))) (fun x => x)). vm_compute. reflexivity. Qed.
Lemma inv_sbox_sbox x : x < 256 -> at_ SBOX (N.to_nat (at_ SBOX_INV (N.to_nat x))) = x.
Proof. apply (on_bytes_eq (fun x => at_ SBOX (N.to_nat (at_ SBOX_INV (N.to_nat x)))) (fun x => x)). vm_compute. reflexivity. Qed.
Lemma sbox_byte x : at_ SBOX x < 256.
Proof.
  destruct (Nat.lt_ge_cases x 256) as [H|H].
  - assert (E : forallb (fun b => b <? 256) SBOX = true) by (vm_compute; reflexivity).
    rewrite forallb_forall in E. apply N.ltb_lt, E, nth_In. exact H.
  - unfold at_. rewrite nth_overflow; [reflexivity|exact H].
Qed.
Lemma inv_sbox_byte x : at_ SBOX_INV x < 256.
Proof.
  destruct (Nat.lt_ge_cases x 256) as [H|H].
  - assert (E : forallb (fun b => b <? 256) SBOX_INV = true) by (vm_compute; reflexivity).
    rewrite forallb_forall in E. apply N.ltb_lt, E, nth_In. exact H.
  - unfold at_. rewrite nth_overflow; [reflexivity|exact H].
Qed.

(** ** Exclusive or *)

Lemma byte_bits x : x < 256 <-> forall i, 8 <= i -> N.testbit x i = false.
Proof.
  split.
  - intros H i Hi. destruct (N.eq_dec x 0) as [->|Hx]; [apply N.bits_0|]. apply N.bits_above_log2.
    assert (N.log2 x < 8); [|lia]. apply N.log2_lt_pow2; [lia|exact H].
  - intros H. destruct (N.lt_ge_cases x 256) as [L|L]; [exact L|]. exfalso.
    assert (Hx : x <> 0) by lia. pose proof (N.bit_log2 x Hx) as B.
    rewrite H in B; [discriminate|]. apply N.log2_le_pow2; [lia|exact L].
Qed.
Lemma lxor_byte a b : a < 256 -> b < 256 -> N.lxor a b < 256.
Proof. rewrite !byte_bits. intros A B i Hi. rewrite N.lxor_spec, A, B by exact Hi. reflexivity. Qed.

Lemma xor_ring : ring_theory false true xorb andb xorb (fun b => b) (@eq bool).
Proof. constructor; intros; repeat match goal with b : bool |- _ => destruct b end; reflexivity. Qed.
Add Ring xor_bool : xor_ring (decidable bool_eq_ok).

(** Equalities of exclusive ors. *)
Ltac xor := unfold xor4; apply N.bits_inj; intros ?; rewrite ?N.lxor_spec, ?N.bits_0; ring.

Lemma mul2_eq x : mul2 x = N.lxor (N.shiftl x 1 mod 256) (if N.testbit x 7 then 0x1b else 0).
Proof.
  unfold mul2. f_equal. change 1 with (N.ones 1) at 1. rewrite N.land_ones, N.shiftr_div_pow2.
  change (2 ^ 1) with 2. rewrite <- N.testbit_spec'. destruct (N.testbit x 7); reflexivity.
Qed.
Lemma mul2_bit x i : N.testbit (mul2 x) i =
  xorb (if i <? 8 then if i =? 0 then false else N.testbit x (i - 1) else false)
       (andb (N.testbit x 7) (N.testbit 0x1b i)).
Proof.
  rewrite mul2_eq, N.lxor_spec. f_equal.
  - change 256 with (2 ^ 8). destruct (N.ltb_spec i 8) as [L|L].
    + rewrite N.mod_pow2_bits_low by exact L. destruct (N.eqb_spec i 0) as [->|Hi].
      * apply N.shiftl_spec_low. reflexivity.
      * apply N.shiftl_spec_high'. lia.
    + apply N.mod_pow2_bits_high, L.
  - destruct (N.testbit x 7); [reflexivity|]. apply N.bits_0.
Qed.
Lemma mul2_xor a b : mul2 (N.lxor a b) = N.lxor (mul2 a) (mul2 b).
Proof.
  apply N.bits_inj. intros i. rewrite N.lxor_spec, !mul2_bit, !N.lxor_spec.
  destruct (i <? 8); [destruct (i =? 0)|]; ring.
Qed.
Lemma mul2_byte x : mul2 x < 256.
Proof.
  rewrite mul2_eq. apply lxor_byte; [apply N.mod_lt; discriminate|destruct (N.testbit x 7); reflexivity].
Qed.
Lemma mul3_xor a b : mul3 (N.lxor a b) = N.lxor (mul3 a) (mul3 b).
Proof. unfold mul3. rewrite mul2_xor. xor. Qed.
Lemma mul9_xor a b : mul9 (N.lxor a b) = N.lxor (mul9 a) (mul9 b).
Proof. unfold mul9. rewrite !mul2_xor. xor. Qed.
Lemma mul11_xor a b : mul11 (N.lxor a b) = N.lxor (mul11 a) (mul11 b).
Proof. unfold mul11. rewrite !mul2_xor. xor. Qed.
Lemma mul13_xor a b : mul13 (N.lxor a b) = N.lxor (mul13 a) (mul13 b).
Proof. unfold mul13. rewrite !mul2_xor. xor. Qed.
Lemma mul14_xor a b : mul14 (N.lxor a b) = N.lxor (mul14 a) (mul14 b).
Proof. unfold mul14. rewrite !mul2_xor. xor. Qed.
Lemma mul3_byte x : x < 256 -> mul3 x < 256.
Proof. intros H. apply lxor_byte; [apply mul2_byte|exact H]. Qed.
Lemma mul9_byte x : x < 256 -> mul9 x < 256.
Proof. intros H. apply lxor_byte; [apply mul2_byte|exact H]. Qed.
Lemma mul11_byte x : x < 256 -> mul11 x < 256.
Proof. intros H. apply lxor_byte; [apply mul2_byte|exact H]. Qed.
Lemma mul13_byte x : x < 256 -> mul13 x < 256.
Proof. intros H. apply lxor_byte; [apply mul2_byte|exact H]. Qed.
Lemma mul14_byte x : mul14 x < 256.
Proof. apply mul2_byte. Qed.

(** The multiplications are those of the field. *)
Lemma mul_gmul x : x < 256 -> gmul 1 x = x /\ gmul 2 x = mul2 x /\ gmul 3 x = mul3 x /\
  gmul 9 x = mul9 x /\ gmul 11 x = mul11 x /\ gmul 13 x = mul13 x /\ gmul 14 x = mul14 x.
Proof.
  intros Hx.
  assert (E : forall k f, forallb (fun x => gmul k x =? f x) all_bytes = true -> gmul k x = f x).
  { intros k f H. apply (on_bytes_eq (gmul k) f H x Hx). }
  repeat split; apply (E _ (fun x => x)) || apply E; vm_compute; reflexivity.
Qed.

(** The two matrices are inverse to each other: the sums of a row with a column. *)
Lemma sums x : x < 256 ->
  xor4 (mul14 (mul2 x)) (mul11 x) (mul13 x) (mul9 (mul3 x)) = x /\
  xor4 (mul14 (mul3 x)) (mul11 (mul2 x)) (mul13 x) (mul9 x) = 0 /\
  xor4 (mul14 x) (mul11 (mul3 x)) (mul13 (mul2 x)) (mul9 x) = 0 /\
  xor4 (mul14 x) (mul11 x) (mul13 (mul3 x)) (mul9 (mul2 x)) = 0.
Proof.
  intros Hx. split; [|split; [|split]];
    match goal with |- ?l = ?r => let f := eval pattern x in l in let g := eval pattern x in r in
      match f with ?f' _ => match r with x => apply (on_bytes_eq f' (fun x => x)) | _ => apply (on_bytes_eq f' (fun _ => r)) end end
    end; (vm_compute; reflexivity) || exact Hx.
Qed.
Lemma sums' x : x < 256 ->
  xor4 (mul2 (mul14 x)) (mul3 (mul9 x)) (mul13 x) (mul11 x) = x /\
  xor4 (mul2 (mul11 x)) (mul3 (mul14 x)) (mul9 x) (mul13 x) = 0 /\
  xor4 (mul2 (mul13 x)) (mul3 (mul11 x)) (mul14 x) (mul9 x) = 0 /\
  xor4 (mul2 (mul9 x)) (mul3 (mul13 x)) (mul11 x) (mul14 x) = 0.
Proof.
  intros Hx. split; [|split; [|split]];
    match goal with |- ?l = ?r => let f := eval pattern x in l in let g := eval pattern x in r in
      match f with ?f' _ => match r with x => apply (on_bytes_eq f' (fun x => x)) | _ => apply (on_bytes_eq f' (fun _ => r)) end end
    end; (vm_compute; reflexivity) || exact Hx.
Qed.

(** ** Blocks *)

Definition blk (n : nat) (l : bytes) : Prop := length l = n /\ Forall (fun b => b < 256) l.
Lemma blk_cons n x l : x < 256 -> blk n l -> blk (S n) (x :: l).
Proof. intros Hx [L F]. split; [cbn; lia|constructor; assumption]. Qed.
Lemma blk_inv n l : blk (S n) l -> exists x l', l = x :: l' /\ x < 256 /\ blk n l'.
Proof.
  intros [L F]. destruct l as [|x l]; [discriminate|]. exists x, l. inversion F; subst.
  repeat split; auto. 
Qed.
Lemma blk_nil l : blk 0 l -> l = [].
Proof. intros [L _]. destruct l; [reflexivity|discriminate]. Qed.
Ltac open_blk H :=
  repeat (let x := fresh "x" in let l := fresh "l" in let E := fresh "E" in let B := fresh "B" in
    apply blk_inv in H as (x & l & E & B & H); subst); apply blk_nil in H; subst.
Ltac close_blk := repeat apply blk_cons; [..|split; [reflexivity|constructor]].

Lemma blk_app n m a b : blk n a -> blk m b -> blk (n + m) (a ++ b).
Proof. intros [L F] [L' F']. split; [rewrite app_length; lia|apply Forall_app; auto]. Qed.
Lemma xors_blk n : forall a b, blk n a -> blk n b -> blk n (xors a b).
Proof.
  induction n as [|n IH]; intros a b A B.
  - apply blk_nil in A, B. subst. split; [reflexivity|constructor].
  - apply blk_inv in A as (x & a' & -> & X & A). apply blk_inv in B as (y & b' & -> & Y & B).
    apply blk_cons; [apply lxor_byte; assumption|]. apply (IH a' b' A B).
Qed.
Lemma xors_comm : forall a b, xors a b = xors b a.
Proof.
  induction a as [|x a IH]; intros [|y b]; try reflexivity. unfold xors in *. cbn. rewrite N.lxor_comm, IH. reflexivity.
Qed.
Lemma xors_twice : forall a b, length a = length b -> xors (xors a b) b = a.
Proof.
  induction a as [|x a IH]; intros [|y b] L; try discriminate; [reflexivity|]. unfold xors in *. cbn.
  rewrite IH by (cbn in L; lia). rewrite N.lxor_assoc, N.lxor_nilpotent, N.lxor_0_r. reflexivity.
Qed.
Lemma xors_app : forall a b c d, length a = length b -> xors (a ++ c) (b ++ d) = xors a b ++ xors c d.
Proof.
  induction a as [|x a IH]; intros [|y b] c d L; try discriminate; [reflexivity|]. unfold xors in *. cbn.
  rewrite IH by (cbn in L; lia). reflexivity.
Qed.

(** ** The transformations of the model *)

Lemma sub_blk n l : length l = n -> blk n (sub_bytes l).
Proof.
  intros L. split; [unfold sub_bytes; rewrite map_length; exact L|]. apply Forall_map, Forall_forall.
  intros x _. apply sbox_byte.
Qed.
Lemma inv_sub_blk n l : length l = n -> blk n (inv_sub_bytes l).
Proof.
  intros L. split; [unfold inv_sub_bytes; rewrite map_length; exact L|]. apply Forall_map, Forall_forall.
  intros x _. apply inv_sbox_byte.
Qed.
Lemma inv_sub_sub n l : blk n l -> inv_sub_bytes (sub_bytes l) = l.
Proof.
  intros [_ F]. unfold sub_bytes, inv_sub_bytes. rewrite map_map. induction F as [|x l Hx F IH]; [reflexivity|].
  cbn [map]. rewrite IH, sbox_inv by exact Hx. reflexivity.
Qed.
Lemma sub_inv_sub n l : blk n l -> sub_bytes (inv_sub_bytes l) = l.
Proof.
  intros [_ F]. unfold sub_bytes, inv_sub_bytes. rewrite map_map. induction F as [|x l Hx F IH]; [reflexivity|].
  cbn [map]. rewrite IH, inv_sbox_sbox by exact Hx. reflexivity.
Qed.
Lemma shift_blk l : blk 16 l -> blk 16 (shift_rows l).
Proof. intros H. open_blk H. cbn. close_blk; assumption. Qed.
Lemma inv_shift_blk l : blk 16 l -> blk 16 (inv_shift_rows l).
Proof. intros H. open_blk H. cbn. close_blk; assumption. Qed.
Lemma inv_shift_shift l : blk 16 l -> inv_shift_rows (shift_rows l) = l.
Proof. intros H. open_blk H. reflexivity. Qed.
Lemma shift_inv_shift l : blk 16 l -> shift_rows (inv_shift_rows l) = l.
Proof. intros H. open_blk H. reflexivity. Qed.

(** One column. *)
Definition mcol (x0 x1 x2 x3 : N) : bytes :=
  [xor4 (mul2 x0) (mul3 x1) x2 x3; xor4 x0 (mul2 x1) (mul3 x2) x3;
   xor4 x0 x1 (mul2 x2) (mul3 x3); xor4 (mul3 x0) x1 x2 (mul2 x3)].
Definition icol (x0 x1 x2 x3 : N) : bytes :=
  [xor4 (mul14 x0) (mul11 x1) (mul13 x2) (mul9 x3); xor4 (mul9 x0) (mul14 x1) (mul11 x2) (mul13 x3);
   xor4 (mul13 x0) (mul9 x1) (mul14 x2) (mul11 x3); xor4 (mul11 x0) (mul13 x1) (mul9 x2) (mul14 x3)].
Definition on_cols (f : N -> N -> N -> N -> bytes) (l : bytes) : bytes :=
  match l with
  | [x0; x1; x2; x3; x4; x5; x6; x7; x8; x9; x10; x11; x12; x13; x14; x15] =>
      f x0 x1 x2 x3 ++ f x4 x5 x6 x7 ++ f x8 x9 x10 x11 ++ f x12 x13 x14 x15
  | _ => []
  end.
Lemma mix_cols l : blk 16 l -> mix_columns l = on_cols mcol l.
Proof. intros H. open_blk H. reflexivity. Qed.
Lemma inv_mix_cols l : blk 16 l -> inv_mix_columns l = on_cols icol l.
Proof. intros H. open_blk H. reflexivity. Qed.

Lemma xor4_byte a b c d : a < 256 -> b < 256 -> c < 256 -> d < 256 -> xor4 a b c d < 256.
Proof. intros. unfold xor4. repeat apply lxor_byte; assumption. Qed.
#[local] Hint Resolve lxor_byte xor4_byte mul2_byte mul3_byte mul9_byte mul11_byte mul13_byte mul14_byte : byte.
Lemma mcol_blk x0 x1 x2 x3 : x0 < 256 -> x1 < 256 -> x2 < 256 -> x3 < 256 -> blk 4 (mcol x0 x1 x2 x3).
Proof. intros. unfold mcol. close_blk; auto with byte. Qed.
Lemma icol_blk x0 x1 x2 x3 : x0 < 256 -> x1 < 256 -> x2 < 256 -> x3 < 256 -> blk 4 (icol x0 x1 x2 x3).
Proof. intros. unfold icol. close_blk; auto with byte. Qed.
Lemma on_cols_blk f l : (forall x0 x1 x2 x3, x0 < 256 -> x1 < 256 -> x2 < 256 -> x3 < 256 -> blk 4 (f x0 x1 x2 x3)) ->
  blk 16 l -> blk 16 (on_cols f l).
Proof.
  intros Hf H. open_blk H. cbn [on_cols].
  repeat (first [apply (blk_app 4 12)|apply (blk_app 4 8)|apply (blk_app 4 4)|apply Hf]); assumption.
Qed.
Lemma mix_blk l : blk 16 l -> blk 16 (mix_columns l).
Proof. intros H. rewrite mix_cols by exact H. apply on_cols_blk; [apply mcol_blk|exact H]. Qed.
Lemma inv_mix_blk l : blk 16 l -> blk 16 (inv_mix_columns l).
Proof. intros H. rewrite inv_mix_cols by exact H. apply on_cols_blk; [apply icol_blk|exact H]. Qed.

Ltac linear := unfold xor4; rewrite ?mul2_xor, ?mul3_xor, ?mul9_xor, ?mul11_xor, ?mul13_xor, ?mul14_xor.
Lemma icol_mcol x0 x1 x2 x3 : x0 < 256 -> x1 < 256 -> x2 < 256 -> x3 < 256 ->
  icol (xor4 (mul2 x0) (mul3 x1) x2 x3) (xor4 x0 (mul2 x1) (mul3 x2) x3)
       (xor4 x0 x1 (mul2 x2) (mul3 x3)) (xor4 (mul3 x0) x1 x2 (mul2 x3)) = [x0; x1; x2; x3].
Proof.
  intros H0 H1 H2 H3.
  destruct (sums x0 H0) as (A0 & B0 & C0 & D0). destruct (sums x1 H1) as (A1 & B1 & C1 & D1).
  destruct (sums x2 H2) as (A2 & B2 & C2 & D2). destruct (sums x3 H3) as (A3 & B3 & C3 & D3).
  unfold icol. 
  assert (E : forall a b c d a' b' c' d' : N, a = a' -> b = b' -> c = c' -> d = d' -> [a; b; c; d] = [a'; b'; c'; d'])
    by (intros; congruence).
  apply E.
  - transitivity (xor4 x0 0 0 0); [|xor]. rewrite <- A0 at 5. rewrite <- B1, <- C2 at 1. rewrite <- D3. linear. xor.
  - transitivity (xor4 0 x1 0 0); [|xor]. rewrite <- A1 at 5. rewrite <- D0, <- B2 at 1. rewrite <- C3. linear. xor.
  - transitivity (xor4 0 0 x2 0); [|xor]. rewrite <- A2 at 5. rewrite <- C0, <- D1 at 1. rewrite <- B3. linear. xor.
  - transitivity (xor4 0 0 0 x3); [|xor]. rewrite <- A3 at 5. rewrite <- B0, <- C1 at 1. rewrite <- D2. linear. xor.
Qed.
Lemma mcol_icol x0 x1 x2 x3 : x0 < 256 -> x1 < 256 -> x2 < 256 -> x3 < 256 ->
  mcol (xor4 (mul14 x0) (mul11 x1) (mul13 x2) (mul9 x3)) (xor4 (mul9 x0) (mul14 x1) (mul11 x2) (mul13 x3))
       (xor4 (mul13 x0) (mul9 x1) (mul14 x2) (mul11 x3)) (xor4 (mul11 x0) (mul13 x1) (mul9 x2) (mul14 x3))
  = [x0; x1; x2; x3].
Proof.
  intros H0 H1 H2 H3.
  destruct (sums' x0 H0) as (A0 & B0 & C0 & D0). destruct (sums' x1 H1) as (A1 & B1 & C1 & D1).
  destruct (sums' x2 H2) as (A2 & B2 & C2 & D2). destruct (sums' x3 H3) as (A3 & B3 & C3 & D3).
  unfold mcol.
  assert (E : forall a b c d a' b' c' d' : N, a = a' -> b = b' -> c = c' -> d = d' -> [a; b; c; d] = [a'; b'; c'; d'])
    by (intros; congruence).
  apply E.
  - transitivity (xor4 (xor4 (mul2 (mul14 x0)) (mul3 (mul9 x0)) (mul13 x0) (mul11 x0))
      (xor4 (mul2 (mul11 x1)) (mul3 (mul14 x1)) (mul9 x1) (mul13 x1))
      (xor4 (mul2 (mul13 x2)) (mul3 (mul11 x2)) (mul14 x2) (mul9 x2))
      (xor4 (mul2 (mul9 x3)) (mul3 (mul13 x3)) (mul11 x3) (mul14 x3))); [linear; xor|].
    rewrite A0, B1, C2, D3. xor.
  - transitivity (xor4 (xor4 (mul2 (mul9 x0)) (mul3 (mul13 x0)) (mul11 x0) (mul14 x0))
      (xor4 (mul2 (mul14 x1)) (mul3 (mul9 x1)) (mul13 x1) (mul11 x1))
      (xor4 (mul2 (mul11 x2)) (mul3 (mul14 x2)) (mul9 x2) (mul13 x2))
      (xor4 (mul2 (mul13 x3)) (mul3 (mul11 x3)) (mul14 x3) (mul9 x3))); [linear; xor|].
    rewrite D0, A1, B2, C3. xor.
  - transitivity (xor4 (xor4 (mul2 (mul13 x0)) (mul3 (mul11 x0)) (mul14 x0) (mul9 x0))
      (xor4 (mul2 (mul9 x1)) (mul3 (mul13 x1)) (mul11 x1) (mul14 x1))
      (xor4 (mul2 (mul14 x2)) (mul3 (mul9 x2)) (mul13 x2) (mul11 x2))
      (xor4 (mul2 (mul11 x3)) (mul3 (mul14 x3)) (mul9 x3) (mul13 x3))); [linear; xor|].
    rewrite C0, D1, A2, B3. xor.
  - transitivity (xor4 (xor4 (mul2 (mul11 x0)) (mul3 (mul14 x0)) (mul9 x0) (mul13 x0))
      (xor4 (mul2 (mul13 x1)) (mul3 (mul11 x1)) (mul14 x1) (mul9 x1))
      (xor4 (mul2 (mul9 x2)) (mul3 (mul13 x2)) (mul11 x2) (mul14 x2))
      (xor4 (mul2 (mul14 x3)) (mul3 (mul9 x3)) (mul13 x3) (mul11 x3))); [linear; xor|].
    rewrite B0, C1, D2, A3. xor.
Qed.

Lemma inv_mix_mix l : blk 16 l -> inv_mix_columns (mix_columns l) = l.
Proof.
  intros H. rewrite inv_mix_cols by (apply mix_blk, H). rewrite mix_cols by exact H. open_blk H.
  unfold on_cols, mcol. cbn [app]. rewrite !icol_mcol by assumption. reflexivity.
Qed.
Lemma mix_inv_mix l : blk 16 l -> mix_columns (inv_mix_columns l) = l.
Proof.
  intros H. rewrite mix_cols by (apply inv_mix_blk, H). rewrite inv_mix_cols by exact H. open_blk H.
  unfold on_cols, icol. cbn [app]. rewrite !mcol_icol by assumption. reflexivity.
Qed.
Lemma icol_xor x0 x1 x2 x3 y0 y1 y2 y3 :
  icol (N.lxor x0 y0) (N.lxor x1 y1) (N.lxor x2 y2) (N.lxor x3 y3) = xors (icol x0 x1 x2 x3) (icol y0 y1 y2 y3).
Proof.
  unfold icol, xors. cbn [combine map fst snd].
  assert (E : forall a b c d a' b' c' d' : N, a = a' -> b = b' -> c = c' -> d = d' -> [a; b; c; d] = [a'; b'; c'; d'])
    by (intros; congruence).
  apply E; linear; xor.
Qed.
Lemma inv_mix_xors a b : blk 16 a -> blk 16 b ->
  inv_mix_columns (xors a b) = xors (inv_mix_columns a) (inv_mix_columns b).
Proof.
  intros A B. rewrite !inv_mix_cols by (assumption || (apply xors_blk; assumption)).
  open_blk A. open_blk B. unfold on_cols. rewrite !xors_app by reflexivity. rewrite <- !icol_xor. reflexivity.
Qed.

(** ** Decryption inverts encryption, for any round keys *)

Definition keys_ok (keys : list bytes) : Prop := length keys = 15%nat /\ Forall (blk 16) keys.
Lemma key_blk keys i : keys_ok keys -> (i < 15)%nat -> blk 16 (nth i keys []).
Proof. intros [L F] Hi. rewrite Forall_forall in F. apply F, nth_In. lia. Qed.

(** The middle of the inverse cipher, as the standard orders it. *)
Definition inv_round (b k : bytes) : bytes := inv_mix_columns (xors (inv_sub_bytes (inv_shift_rows b)) k).
Lemma aes_dec_inv_round b k : blk 16 b -> blk 16 k -> aes_dec b (inv_mix_columns k) = inv_round b k.
Proof.
  intros B K. unfold aes_dec, inv_round, add_round_key. rewrite inv_mix_xors; [reflexivity| |exact K].
  apply inv_sub_blk, (inv_shift_blk _ B).
Qed.
Lemma inv_round_blk b k : blk 16 b -> blk 16 k -> blk 16 (inv_round b k).
Proof. intros B K. apply inv_mix_blk, xors_blk; [|exact K]. apply inv_sub_blk, (inv_shift_blk _ B). Qed.
Lemma aes_enc_blk b k : blk 16 b -> blk 16 k -> blk 16 (aes_enc b k).
Proof.
  intros B K. apply xors_blk; [|exact K]. apply mix_blk, shift_blk, sub_blk, B.
Qed.
Lemma inv_round_undone b k : blk 16 b -> blk 16 k ->
  xors (mix_columns (inv_round b k)) k = inv_sub_bytes (inv_shift_rows b).
Proof.
  intros B K. unfold inv_round. assert (M : blk 16 (inv_sub_bytes (inv_shift_rows b))) by apply inv_sub_blk, (inv_shift_blk _ B).
  rewrite mix_inv_mix by (apply xors_blk; assumption). apply xors_twice. destruct M as [-> _], K as [-> _]. reflexivity.
Qed.

(** The rounds on a list of round keys. *)
Definition enc_rounds (ks : list bytes) (b : bytes) : bytes := fold_left aes_enc ks b.
Definition dec_rounds (ks : list bytes) (b : bytes) : bytes := fold_left inv_round ks b.
Lemma fold_keeps {A B} (P : A -> Prop) (Q : B -> Prop) (f : A -> B -> A) :
  (forall a k, P a -> Q k -> P (f a k)) -> forall ks a, Forall Q ks -> P a -> P (fold_left f ks a).
Proof.
  intros H ks a F. revert a. induction F as [|k ks Hk F IH]; intros a Ha; [exact Ha|].
  apply IH, H; assumption.
Qed.
Lemma fold_same {A B} (P : A -> Prop) (Q : B -> Prop) (f g : A -> B -> A) (h : B -> B) :
  (forall a k, P a -> Q k -> f a (h k) = g a k /\ P (g a k)) ->
  forall ks a, Forall Q ks -> P a -> fold_left f (map h ks) a = fold_left g ks a.
Proof.
  intros H ks a F. revert a. induction F as [|k ks Hk F IH]; intros a Ha; [reflexivity|].
  cbn [map fold_left]. destruct (H a k Ha Hk) as [-> Hp]. apply IH, Hp.
Qed.
Lemma enc_rounds_blk ks b : Forall (blk 16) ks -> blk 16 b -> blk 16 (enc_rounds ks b).
Proof. apply fold_keeps. exact aes_enc_blk. Qed.
Lemma dec_rounds_blk ks b : Forall (blk 16) ks -> blk 16 b -> blk 16 (dec_rounds ks b).
Proof. apply fold_keeps. exact inv_round_blk. Qed.

Lemma nth_seq_map (keys : list bytes) : length keys = 15%nat -> exists k0 ks k14, keys = k0 :: ks ++ [k14] /\ length ks = 13%nat.
Proof.
  intros L. destruct keys as [|k0 keys]; [discriminate|]. exists k0, (removelast keys), (last keys []).
  assert (keys <> []) by (destruct keys; discriminate).
  split; [f_equal; apply app_removelast_last; assumption|].
  pose proof (app_removelast_last [] H) as E.
  apply (f_equal (@length bytes)) in E. rewrite app_length in E. unfold bytes in *. cbn [length] in L, E. lia.
Qed.
Lemma encrypt_block_eq k0 ks k14 b : length ks = 13%nat ->
  encrypt_block (k0 :: ks ++ [k14]) b = aes_enc_last (enc_rounds ks (xors b k0)) k14.
Proof.
  intros L. unfold encrypt_block, enc_rounds, add_round_key. generalize aes_enc, aes_enc_last, xors.
  intros f g e.
  do 13 (destruct ks as [|? ks]; [discriminate|]). destruct ks; [|discriminate]. reflexivity.
Qed.
Lemma decrypt_block_eq k0 ks k14 b : length ks = 13%nat -> Forall (blk 16) ks -> blk 16 k14 -> blk 16 b ->
  decrypt_block (dec_round_keys (k0 :: ks ++ [k14])) b =
  aes_dec_last (dec_rounds (rev ks) (xors b k14)) k0.
Proof.
  intros L F K B. assert (B' : blk 16 (xors b k14)) by (apply xors_blk; assumption).
  transitivity (aes_dec_last (fold_left aes_dec (map inv_mix_columns (rev ks)) (xors b k14)) k0).
  { clear - L. unfold decrypt_block, dec_round_keys, add_round_key. generalize aes_dec, aes_dec_last, inv_mix_columns, xors.
    intros f g h e.
    do 13 (destruct ks as [|? ks]; [discriminate|]). destruct ks; [|discriminate]. reflexivity. }
  f_equal. apply (fold_same (blk 16) (blk 16)); [|apply Forall_rev, F|exact B'].
  intros a k Ha Hk. split; [apply aes_dec_inv_round|apply inv_round_blk]; assumption.
Qed.

(** The inverse of the last round goes through each key addition: what the inverse rounds see is the state
    after the byte substitution and the row shift. *)
Definition pre (b : bytes) : bytes := shift_rows (sub_bytes b).
Definition unpre (b : bytes) : bytes := inv_sub_bytes (inv_shift_rows b).
Lemma inv_round_eq b k : inv_round b k = inv_mix_columns (xors (unpre b) k).
Proof. reflexivity. Qed.
Lemma aes_enc_eq b k : aes_enc b k = xors (mix_columns (pre b)) k.
Proof. reflexivity. Qed.
Lemma aes_enc_last_eq b k : aes_enc_last b k = xors (pre b) k.
Proof. reflexivity. Qed.
Lemma aes_dec_last_eq b k : aes_dec_last b k = xors (unpre b) k.
Proof. reflexivity. Qed.
Lemma pre_blk b : blk 16 b -> blk 16 (pre b).
Proof. intros B. apply shift_blk, sub_blk, B. Qed.
Lemma unpre_blk b : blk 16 b -> blk 16 (unpre b).
Proof. intros B. apply inv_sub_blk, (inv_shift_blk _ B). Qed.
Lemma unpre_pre b : blk 16 b -> unpre (pre b) = b.
Proof. intros B. unfold unpre, pre. rewrite inv_shift_shift by (apply sub_blk, B). apply (inv_sub_sub 16), B. Qed.
Lemma pre_unpre b : blk 16 b -> pre (unpre b) = b.
Proof.
  intros B. unfold unpre, pre. rewrite (sub_inv_sub 16) by (apply inv_shift_blk, B). apply shift_inv_shift, B.
Qed.
(** Rounds one by one. *)
Lemma fold_rounds {A B} (f g : A -> B -> A) (p : A -> A) (P : A -> Prop) (Q : B -> Prop) :
  (forall a k, P a -> Q k -> P (f a k) /\ g (p (f a k)) k = p a) ->
  forall ks a, Forall Q ks -> P a -> fold_left g (rev ks) (p (fold_left f ks a)) = p a.
Proof.
  intros H ks a F. revert a. induction F as [|k ks Hk F IH]; intros a Ha; [reflexivity|].
  cbn [rev fold_left]. destruct (H a k Ha Hk) as [Hp E]. rewrite fold_left_app, IH by exact Hp. exact E.
Qed.
Lemma fold_rounds' {A B} (f g : A -> B -> A) (p : A -> A) (P : A -> Prop) (Q : B -> Prop) :
  (forall a k, P a -> Q k -> P (g a k) /\ f (p (g a k)) k = p a) ->
  forall ks a, Forall Q ks -> P a -> fold_left f ks (p (fold_left g (rev ks) a)) = p a.
Proof.
  intros H ks a F Ha. rewrite <- (rev_involutive ks) at 1. apply (fold_rounds g f p P Q H); [apply Forall_rev, F|exact Ha].
Qed.
Lemma enc_rounds_pre ks b : Forall (blk 16) ks -> blk 16 b ->
  dec_rounds (rev ks) (pre (enc_rounds ks b)) = pre b.
Proof.
  apply (fold_rounds aes_enc inv_round pre (blk 16) (blk 16)). intros a k Ha Hk.
  pose proof (aes_enc_blk _ _ Ha Hk) as E. split; [exact E|].
  rewrite inv_round_eq, unpre_pre by exact E. rewrite aes_enc_eq.
  rewrite xors_twice by (destruct (mix_blk _ (pre_blk _ Ha)) as [-> _], Hk as [-> _]; reflexivity).
  apply inv_mix_mix, pre_blk, Ha.
Qed.
Lemma dec_rounds_pre ks b : Forall (blk 16) ks -> blk 16 b ->
  enc_rounds ks (unpre (dec_rounds (rev ks) b)) = unpre b.
Proof.
  apply (fold_rounds' aes_enc inv_round unpre (blk 16) (blk 16)). intros a k Ha Hk.
  pose proof (inv_round_blk _ _ Ha Hk) as E. split; [exact E|].
  rewrite aes_enc_eq, pre_unpre by exact E. apply inv_round_undone; assumption.
Qed.

Lemma decrypt_encrypt_block keys b : keys_ok keys -> blk 16 b ->
  decrypt_block (dec_round_keys keys) (encrypt_block keys b) = b.
Proof.
  intros [L F] B. destruct (nth_seq_map keys L) as (k0 & ks & k14 & -> & Ls).
  inversion F as [|? ? K0 F']; subst. apply Forall_app in F' as [Fs K]. inversion K as [|? ? K14 _]; subst.
  assert (B0 : blk 16 (xors b k0)) by (apply xors_blk; assumption).
  pose proof (enc_rounds_blk _ _ Fs B0) as B1.
  rewrite encrypt_block_eq by exact Ls. rewrite aes_enc_last_eq.
  rewrite decrypt_block_eq; [|exact Ls|exact Fs|exact K14|apply xors_blk; [apply pre_blk, B1|exact K14]].
  rewrite xors_twice by (destruct (pre_blk _ B1) as [-> _], K14 as [-> _]; reflexivity).
  rewrite enc_rounds_pre by assumption. rewrite aes_dec_last_eq, unpre_pre by exact B0. apply xors_twice. destruct B as [-> _], K0 as [-> _]. reflexivity.
Qed.
Lemma encrypt_decrypt_block keys b : keys_ok keys -> blk 16 b ->
  encrypt_block keys (decrypt_block (dec_round_keys keys) b) = b.
Proof.
  intros [L F] B. destruct (nth_seq_map keys L) as (k0 & ks & k14 & -> & Ls).
  inversion F as [|? ? K0 F']; subst. apply Forall_app in F' as [Fs K]. inversion K as [|? ? K14 _]; subst.
  assert (B0 : blk 16 (xors b k14)) by (apply xors_blk; assumption).
  pose proof (dec_rounds_blk _ _ (Forall_rev Fs) B0) as B1.
  rewrite decrypt_block_eq by assumption. rewrite encrypt_block_eq by exact Ls.
  rewrite aes_dec_last_eq.
  rewrite xors_twice by (destruct (unpre_blk _ B1) as [-> _], K0 as [-> _]; reflexivity).
  rewrite dec_rounds_pre by assumption. rewrite aes_enc_last_eq, pre_unpre by exact B0. apply xors_twice. destruct B as [-> _], K14 as [-> _]. reflexivity.
Qed.
Lemma encrypt_block_blk keys b : keys_ok keys -> blk 16 b -> blk 16 (encrypt_block keys b).
Proof.
  intros [L F] B. destruct (nth_seq_map keys L) as (k0 & ks & k14 & -> & Ls).
  inversion F as [|? ? K0 F']; subst. apply Forall_app in F' as [Fs K]. inversion K as [|? ? K14 _]; subst.
  rewrite encrypt_block_eq, aes_enc_last_eq by exact Ls. apply xors_blk; [|exact K14]. apply pre_blk, enc_rounds_blk; [exact Fs|].
  apply xors_blk; assumption.
Qed.
Lemma decrypt_block_blk keys b : keys_ok keys -> blk 16 b -> blk 16 (decrypt_block (dec_round_keys keys) b).
Proof.
  intros [L F] B. destruct (nth_seq_map keys L) as (k0 & ks & k14 & -> & Ls).
  inversion F as [|? ? K0 F']; subst. apply Forall_app in F' as [Fs K]. inversion K as [|? ? K14 _]; subst.
  rewrite decrypt_block_eq, aes_dec_last_eq by assumption. apply xors_blk; [|exact K0]. apply unpre_blk, dec_rounds_blk; [apply Forall_rev, Fs|].
  apply xors_blk; assumption.
Qed.

(** ** The transformations of the standard *)

Definition st_ok (s : state) : Prop := blk 16 (of_state s).
Lemma st_byte s r c : st_ok s -> (r < 4)%nat -> (c < 4)%nat -> s r c < 256.
Proof.
  intros [_ F] Hr Hc. rewrite Forall_forall in F. apply F. unfold of_state. apply in_flat_map. exists c.
  split; [apply in_seq; lia|]. apply in_map_iff. exists r. split; [reflexivity|]. apply in_seq; lia.
Qed.
Lemma of_state_ext s s' : (forall r c, (r < 4)%nat -> (c < 4)%nat -> s r c = s' r c) -> of_state s = of_state s'.
Proof.
  intros H. unfold of_state. cbn [seq flat_map map app]. rewrite !H by lia. reflexivity.
Qed.
Lemma of_to l : length l = 16%nat -> of_state (to_state l) = l.
Proof. intros L. do 16 (destruct l as [|? l]; [discriminate|]). destruct l; [reflexivity|discriminate]. Qed.
Lemma of_sub s : st_ok s -> of_state (SubBytes s) = sub_bytes (of_state s).
Proof.
  intros H. transitivity (of_state (fun r c => at_ SBOX (N.to_nat (s r c)))); [|reflexivity].
  apply of_state_ext. intros r c Hr Hc. unfold SubBytes. symmetry. apply sbox_table, (st_byte s r c H Hr Hc).
Qed.
Lemma of_inv_sub s : st_ok s -> of_state (InvSubBytes s) = inv_sub_bytes (of_state s).
Proof.
  intros H. transitivity (of_state (fun r c => at_ SBOX_INV (N.to_nat (s r c)))); [|reflexivity].
  apply of_state_ext. intros r c Hr Hc. unfold InvSubBytes. symmetry. apply inv_sbox_table, (st_byte s r c H Hr Hc).
Qed.
Lemma of_shift s : of_state (ShiftRows s) = shift_rows (of_state s).
Proof. reflexivity. Qed.
Lemma of_inv_shift s : of_state (InvShiftRows s) = inv_shift_rows (of_state s).
Proof. reflexivity. Qed.

Lemma mix_row m s r c k0 k1 k2 k3 : m r 0%nat = k0 -> m r 1%nat = k1 -> m r 2%nat = k2 -> m r 3%nat = k3 ->
  mix m s r c = xor4 (gmul k0 (s 0%nat c)) (gmul k1 (s 1%nat c)) (gmul k2 (s 2%nat c)) (gmul k3 (s 3%nat c)).
Proof. intros <- <- <- <-. unfold mix. cbn [seq map fold_left]. unfold xor4. rewrite N.lxor_0_l. reflexivity. Qed.
Definition col (f : N -> N -> N -> N -> bytes) (s : state) : state := fun r c =>
  nth r (f (s 0%nat c) (s 1%nat c) (s 2%nat c) (s 3%nat c)) 0.
Lemma of_col f s : (forall a b c d, length (f a b c d) = 4%nat) -> of_state (col f s) = on_cols f (of_state s).
Proof.
  intros L. unfold of_state, col. cbn [seq flat_map map app on_cols].
  assert (E : forall a b c d r, nth 0 (f a b c d) 0 :: nth 1 (f a b c d) 0 :: nth 2 (f a b c d) 0 :: nth 3 (f a b c d) 0 :: r
    = f a b c d ++ r).
  { intros. specialize (L a b c d). destruct (f a b c d) as [|? [|? [|? [|? [|? ?]]]]]; try discriminate. reflexivity. }
  rewrite !E, app_nil_r. reflexivity.
Qed.
Lemma of_mix s : st_ok s -> of_state (MixColumns s) = mix_columns (of_state s).
Proof.
  intros H. rewrite mix_cols by exact H. rewrite <- of_col by reflexivity. apply of_state_ext.
  intros r c Hr Hc. unfold MixColumns, col.
  pose proof (st_byte s 0 c H ltac:(lia) Hc) as B0. pose proof (st_byte s 1 c H ltac:(lia) Hc) as B1.
  pose proof (st_byte s 2 c H ltac:(lia) Hc) as B2. pose proof (st_byte s 3 c H ltac:(lia) Hc) as B3.
  pose proof (mul_gmul _ B0) as (A01 & A02 & A03 & _). pose proof (mul_gmul _ B1) as (A11 & A12 & A13 & _).
  pose proof (mul_gmul _ B2) as (A21 & A22 & A23 & _). pose proof (mul_gmul _ B3) as (A31 & A32 & A33 & _).
  destruct r as [|[|[|[|r]]]]; [..|lia]; [rewrite (mix_row _ _ _ _ 2 3 1 1) by reflexivity | rewrite (mix_row _ _ _ _ 1 2 3 1) by reflexivity | rewrite (mix_row _ _ _ _ 1 1 2 3) by reflexivity | rewrite (mix_row _ _ _ _ 3 1 1 2) by reflexivity];
    cbn [nth mcol icol];
    rewrite ?A01, ?A02, ?A03, ?A11, ?A12, ?A13, ?A21, ?A22, ?A23, ?A31, ?A32, ?A33; reflexivity.
Qed.
Lemma of_inv_mix s : st_ok s -> of_state (InvMixColumns s) = inv_mix_columns (of_state s).
Proof.
  intros H. rewrite inv_mix_cols by exact H. rewrite <- of_col by reflexivity. apply of_state_ext.
  intros r c Hr Hc. unfold InvMixColumns, col.
  pose proof (st_byte s 0 c H ltac:(lia) Hc) as B0. pose proof (st_byte s 1 c H ltac:(lia) Hc) as B1.
  pose proof (st_byte s 2 c H ltac:(lia) Hc) as B2. pose proof (st_byte s 3 c H ltac:(lia) Hc) as B3.
  pose proof (mul_gmul _ B0) as (_ & _ & _ & A01 & A02 & A03 & A04). pose proof (mul_gmul _ B1) as (_ & _ & _ & A11 & A12 & A13 & A14).
  pose proof (mul_gmul _ B2) as (_ & _ & _ & A21 & A22 & A23 & A24). pose proof (mul_gmul _ B3) as (_ & _ & _ & A31 & A32 & A33 & A34).
  destruct r as [|[|[|[|r]]]]; [..|lia]; [rewrite (mix_row _ _ _ _ 14 11 13 9) by reflexivity | rewrite (mix_row _ _ _ _ 9 14 11 13) by reflexivity | rewrite (mix_row _ _ _ _ 13 9 14 11) by reflexivity | rewrite (mix_row _ _ _ _ 11 13 9 14) by reflexivity];
    cbn [nth mcol icol];
    rewrite ?A01, ?A02, ?A03, ?A04, ?A11, ?A12, ?A13, ?A14, ?A21, ?A22, ?A23, ?A24, ?A31, ?A32, ?A33, ?A34; reflexivity.
Qed.

(** The round keys of the standard. *)
Definition rk (w : nat -> bytes) (i : nat) : bytes :=
  w (4 * i)%nat ++ w (4 * i + 1)%nat ++ w (4 * i + 2)%nat ++ w (4 * i + 3)%nat.
Definition words_ok (w : nat -> bytes) : Prop := forall j, (j < 60)%nat -> blk 4 (w j).
Lemma rk_blk w i : words_ok w -> (i < 15)%nat -> blk 16 (rk w i).
Proof.
  intros H Hi. unfold rk. apply (blk_app 4 12); [apply H; lia|]. apply (blk_app 4 8); [apply H; lia|].
  apply (blk_app 4 4); apply H; lia.
Qed.
Lemma word_nths (w : bytes) : length w = 4%nat -> w = [nth 0 w 0; nth 1 w 0; nth 2 w 0; nth 3 w 0].
Proof. intros L. do 4 (destruct w as [|? w]; [discriminate|]). destruct w; [reflexivity|discriminate]. Qed.
Lemma of_add s w i : words_ok w -> (i < 15)%nat -> of_state (AddRoundKey s w i) = xors (of_state s) (rk w i).
Proof.
  intros H Hi. unfold rk. assert (L : forall j, (j < 60)%nat -> length (w j) = 4%nat) by (intros j Hj; apply H, Hj).
  rewrite (word_nths (w (4 * i)%nat)) by (apply L; lia).
  rewrite (word_nths (w (4 * i + 1)%nat)) by (apply L; lia).
  rewrite (word_nths (w (4 * i + 2)%nat)) by (apply L; lia).
  rewrite (word_nths (w (4 * i + 3)%nat)) by (apply L; lia).
  unfold of_state, AddRoundKey, xors. cbn [seq flat_map map app combine fst snd].
  rewrite Nat.add_0_r. reflexivity.
Qed.

(** ** The cipher of the standard, on blocks *)

Lemma cipher_round s w i : words_ok w -> (i < 15)%nat -> st_ok s ->
  of_state (AddRoundKey (MixColumns (ShiftRows (SubBytes s))) w i) = aes_enc (of_state s) (rk w i).
Proof.
  intros W Hi S. rewrite of_add by assumption.
  assert (S1 : st_ok (SubBytes s)) by (unfold st_ok; rewrite of_sub by exact S; apply sub_blk, S).
  assert (S2 : st_ok (ShiftRows (SubBytes s))) by (unfold st_ok; rewrite of_shift; apply shift_blk, S1).
  rewrite of_mix by exact S2. rewrite of_shift, of_sub by exact S. unfold aes_enc, aes_enc_last, add_round_key. reflexivity.
Qed.
Lemma cipher_last s w i : words_ok w -> (i < 15)%nat -> st_ok s ->
  of_state (AddRoundKey (ShiftRows (SubBytes s)) w i) = aes_enc_last (of_state s) (rk w i).
Proof.
  intros W Hi S. rewrite of_add by assumption. rewrite of_shift, of_sub by exact S. unfold aes_enc, aes_enc_last, add_round_key. reflexivity.
Qed.
Lemma inv_cipher_last s w i : words_ok w -> (i < 15)%nat -> st_ok s ->
  of_state (AddRoundKey (InvSubBytes (InvShiftRows s)) w i) = aes_dec_last (of_state s) (rk w i).
Proof.
  intros W Hi S. rewrite of_add by assumption.
  assert (S1 : st_ok (InvShiftRows s)) by (unfold st_ok; rewrite of_inv_shift; apply inv_shift_blk, S).
  rewrite of_inv_sub by exact S1. rewrite of_inv_shift. unfold aes_dec_last, add_round_key. reflexivity.
Qed.
Lemma inv_cipher_round s w i : words_ok w -> (i < 15)%nat -> st_ok s ->
  of_state (InvMixColumns (AddRoundKey (InvSubBytes (InvShiftRows s)) w i)) = inv_round (of_state s) (rk w i).
Proof.
  intros W Hi S. pose proof (inv_cipher_last s w i W Hi S) as E. rewrite of_inv_mix; [rewrite E; unfold inv_round, aes_dec_last, add_round_key; reflexivity|].
  unfold st_ok. rewrite E, aes_dec_last_eq. apply xors_blk; [apply unpre_blk, S|apply rk_blk; assumption].
Qed.
Lemma fold_of {A B C} (of : A -> B) (P : B -> Prop) (f : A -> nat -> A) (g : B -> C -> B) (h : nat -> C) :
  forall l, (forall s i, In i l -> P (of s) -> of (f s i) = g (of s) (h i) /\ P (of (f s i))) ->
  forall s, P (of s) -> of (fold_left f l s) = fold_left g (map h l) (of s) /\ P (of (fold_left f l s)).
Proof.
  induction l as [|i l IH]; intros H s Hs; [split; [reflexivity|exact Hs]|]. cbn [fold_left map].
  destruct (H s i (or_introl eq_refl) Hs) as [E Hp]. rewrite <- E. apply IH; [|exact Hp].
  intros s' j Hj. apply H. right. exact Hj.
Qed.
Lemma add_ok s w i : words_ok w -> (i < 15)%nat -> st_ok s -> st_ok (AddRoundKey s w i).
Proof.
  intros W Hi S. unfold st_ok. rewrite of_add by assumption. apply xors_blk; [exact S|apply rk_blk; assumption].
Qed.
Lemma to_ok l : blk 16 l -> st_ok (to_state l).
Proof. intros H. unfold st_ok. rewrite of_to by apply H. exact H. Qed.

Lemma cipher_blocks key b : words_ok (key_word key) -> blk 16 b ->
  Cipher key b = encrypt_block (map (rk (key_word key)) (seq 0 15)) b.
Proof.
  intros W B. set (w := key_word key) in *.
  change (map (rk w) (seq 0 15)) with (rk w 0 :: map (rk w) (seq 1 13) ++ [rk w 14]).
  rewrite encrypt_block_eq by reflexivity. unfold Cipher. fold w.
  pose proof (add_ok _ w 0 W ltac:(lia) (to_ok b B)) as S0.
  destruct (fold_of of_state (blk 16)
    (fun s round => AddRoundKey (MixColumns (ShiftRows (SubBytes s))) w round) aes_enc (rk w) (seq 1 13)) with
    (s := AddRoundKey (to_state b) w 0) as [E S1].
  - intros s i Hi S. apply in_seq in Hi. assert (Hi' : (i < 15)%nat) by lia.
    pose proof (cipher_round s w i W Hi' S) as E. split; [exact E|]. rewrite E.
    apply aes_enc_blk; [exact S|apply rk_blk; assumption].
  - exact S0.
  - rewrite (cipher_last _ w 14 W ltac:(lia) S1). rewrite E, (of_add _ w 0 W ltac:(lia)), of_to by apply B.
    unfold enc_rounds. reflexivity.
Qed.
Lemma inv_cipher_blocks key b : words_ok (key_word key) -> blk 16 b ->
  InvCipher key b = decrypt_block (dec_round_keys (map (rk (key_word key)) (seq 0 15))) b.
Proof.
  intros W B. set (w := key_word key) in *.
  change (map (rk w) (seq 0 15)) with (rk w 0 :: map (rk w) (seq 1 13) ++ [rk w 14]).
  rewrite decrypt_block_eq; [|reflexivity| |apply rk_blk; [exact W|lia]|exact B].
  2:{ apply Forall_map, Forall_forall. intros i Hi. apply in_seq in Hi. apply rk_blk; [exact W|lia]. }
  unfold InvCipher. fold w.
  pose proof (add_ok _ w 14 W ltac:(lia) (to_ok b B)) as S0.
  destruct (fold_of of_state (blk 16)
    (fun s round => InvMixColumns (AddRoundKey (InvSubBytes (InvShiftRows s)) w round)) inv_round (rk w)
    (rev (seq 1 13))) with (s := AddRoundKey (to_state b) w 14) as [E S1].
  - intros s i Hi S. apply in_rev, in_seq in Hi. assert (Hi' : (i < 15)%nat) by lia.
    pose proof (inv_cipher_round s w i W Hi' S) as E. split; [exact E|]. rewrite E.
    apply inv_round_blk; [exact S|apply rk_blk; assumption].
  - exact S0.
  - rewrite (inv_cipher_last _ w 0 W ltac:(lia) S1). rewrite E, (of_add _ w 14 W ltac:(lia)), of_to by apply B.
    rewrite <- map_rev. unfold dec_rounds. reflexivity.
Qed.

(** ** The key schedule *)

Lemma expansion_length key n : length (expansion key n) = n.
Proof. induction n as [|n IH]; [reflexivity|]. cbn [expansion]. rewrite app_length, IH. cbn. lia. Qed.
Lemma expansion_nth key : forall n m j, (j < n)%nat -> (n <= m)%nat ->
  nth j (expansion key m) [] = nth j (expansion key n) [].
Proof.
  intros n m j Hj Hm. induction Hm as [|m Hm IH]; [reflexivity|]. rewrite <- IH.
  transitivity (nth j (expansion key m ++ [next_word key (expansion key m) m]) []); [reflexivity|].
  apply app_nth1. rewrite expansion_length. lia.
Qed.
Lemma key_word_next key i : (i < 60)%nat -> key_word key i = next_word key (expansion key i) i.
Proof.
  intros Hi. unfold key_word. rewrite (expansion_nth key (S i) 60 i) by lia.
  transitivity (nth i (expansion key i ++ [next_word key (expansion key i) i]) []); [reflexivity|].
  rewrite app_nth2 by (rewrite expansion_length; lia). rewrite expansion_length, Nat.sub_diag. reflexivity.
Qed.
Lemma key_word_old key i j : (j < i)%nat -> (i < 60)%nat -> nth j (expansion key i) [] = key_word key j.
Proof. intros Hj Hi. symmetry. apply expansion_nth; lia. Qed.

Lemma part_blk n key : blk n key -> forall i k, (i + k <= n)%nat -> blk k (firstn k (skipn i key)).
Proof.
  intros [L F] i k H. split; [rewrite firstn_length, skipn_length; lia|].
  apply Forall_forall. intros x Hx. rewrite Forall_forall in F. apply F.
  rewrite <- (firstn_skipn i key). apply in_or_app. right.
  rewrite <- (firstn_skipn k (skipn i key)). apply in_or_app. left. exact Hx.
Qed.
Lemma sub_word n w : blk n w -> SubWord w = subword w.
Proof.
  intros [_ F]. unfold SubWord, subword. induction F as [|x w Hx F IH]; [reflexivity|]. cbn [map].
  rewrite IH, sbox_table by exact Hx. reflexivity.
Qed.
Lemma subword_blk n w : length w = n -> blk n (subword w).
Proof. apply sub_blk. Qed.
Lemma rot_word w : blk 4 w -> RotWord w = rotword w /\ blk 4 (rotword w).
Proof. intros H. open_blk H. split; [reflexivity|]. cbn. close_blk; assumption. Qed.
Lemma rcon i : (1 <= i <= 7)%nat -> Rcon i = [at_ RCON (i - 1); 0; 0; 0] /\ at_ RCON (i - 1) < 256.
Proof.
  intros H. do 8 (destruct i as [|i]; [try lia; vm_compute; split; reflexivity|]). lia.
Qed.
Lemma xor_rcon w c : length w = 4%nat -> xor_words w [c; 0; 0; 0] = put w 0 (N.lxor (at_ w 0) c).
Proof.
  intros L. do 4 (destruct w as [|? w]; [discriminate|]). destruct w; [|discriminate].
  unfold xor_words. cbn [combine map fst snd put at_ nth]. rewrite !N.lxor_0_r. reflexivity.
Qed.
Lemma put_blk : forall n l i v, blk n l -> v < 256 -> blk n (put l i v).
Proof.
  induction n as [|n IH]; intros l i v H Hv.
  - apply blk_nil in H. subst. split; [reflexivity|constructor].
  - apply blk_inv in H as (x & l' & -> & Hx & H). destruct i; apply blk_cons; auto.
Qed.

(** What the code computes from the word before the first one of the round [i]. *)
Definition mixed (i : nat) (word : bytes) : bytes :=
  if Nat.even i then
    let word := subword (rotword word) in put word 0 (N.lxor (at_ word 0) (at_ RCON (i / 2 - 1)))
  else subword word.
Lemma at_0_byte n w : blk n w -> at_ w 0 < 256.
Proof. intros [_ F]. destruct w; [reflexivity|]. inversion F; assumption. Qed.
Lemma rounds_mod i : (2 <= i < 15)%nat ->
  ((4 * i) mod 8 =? 0)%nat = Nat.even i /\ ((4 * i) mod 8 =? 4)%nat = negb (Nat.even i) /\ (4 * i / 8 = i / 2)%nat /\
  (Nat.even i = true -> 1 <= i / 2 <= 7)%nat.
Proof.
  intros H. do 15 (destruct i as [|i]; [try lia; (split; [reflexivity|]; split; [reflexivity|]; split; [reflexivity|]; intros E;
    try discriminate E; split; apply Nat.leb_le; reflexivity)|]). lia.
Qed.
Lemma mixed_blk i w : (2 <= i < 15)%nat -> blk 4 w -> blk 4 (mixed i w).
Proof.
  intros Hi W. unfold mixed. destruct (rounds_mod i Hi) as (_ & _ & _ & H). destruct (Nat.even i).
  - destruct (rot_word w W) as [_ R]. pose proof (subword_blk 4 _ (proj1 R)) as S. apply put_blk; [exact S|].
    apply lxor_byte; [apply (at_0_byte 4), S|]. apply rcon, (H eq_refl).
  - apply subword_blk, W.
Qed.
Lemma xor_words_eq a b : xor_words a b = xors a b.
Proof. reflexivity. Qed.
(** The words of the standard: the first eight and the recurrence. *)
Definition schedule (key : bytes) (w : nat -> bytes) : Prop :=
  (forall i, (i < 8)%nat -> w i = firstn 4 (skipn (4 * i) key)) /\
  (forall i, (8 <= i < 60)%nat -> w i = xor_words (w (i - 8)%nat)
    (if (i mod 8 =? 0)%nat then xor_words (SubWord (RotWord (w (i - 1)%nat))) (Rcon (i / 8))
     else if (i mod 8 =? 4)%nat then SubWord (w (i - 1)%nat) else w (i - 1)%nat)).
Lemma key_word_schedule key : schedule key (key_word key).
Proof.
  split.
  - intros i Hi. rewrite key_word_next by lia. unfold next_word. destruct (Nat.ltb_spec i 8); [reflexivity|lia].
  - intros i Hi. rewrite key_word_next by lia. unfold next_word. destruct (Nat.ltb_spec i 8); [lia|].
    rewrite !key_word_old by lia. reflexivity.
Qed.
Lemma first_word key w i : schedule key w -> (2 <= i < 15)%nat -> blk 4 (w (4 * i - 1)%nat) ->
  w (4 * i)%nat = xors (mixed i (w (4 * i - 1)%nat)) (w (4 * (i - 2))%nat).
Proof.
  intros [_ R] Hi W. rewrite R by lia. destruct (rounds_mod i Hi) as (-> & -> & -> & H0).
  replace (4 * i - 8)%nat with (4 * (i - 2))%nat by lia.
  unfold mixed. destruct (Nat.even i); cbn [negb].
  - destruct (rot_word _ W) as [-> T]. rewrite (sub_word 4) by exact T. destruct (rcon _ (H0 eq_refl)) as [-> _].
    rewrite xor_rcon by (unfold subword; rewrite map_length; apply T). rewrite xor_words_eq. apply xors_comm.
  - rewrite (sub_word 4) by exact W. rewrite xor_words_eq. apply xors_comm.
Qed.
Lemma other_word key w i k : schedule key w -> (2 <= i < 15)%nat -> (1 <= k < 4)%nat ->
  w (4 * i + k)%nat = xors (w (4 * i + k - 1)%nat) (w (4 * (i - 2) + k)%nat).
Proof.
  intros [_ R] Hi Hk. rewrite R by lia.
  assert (E : ((4 * i + k) mod 8 = (4 * i) mod 8 + k)%nat).
  { clear - Hi Hk. do 15 (destruct i as [|i]; [try lia; destruct k as [|[|[|[|k]]]]; try lia; reflexivity|]). lia. }
  destruct (rounds_mod i Hi) as (E0 & E4 & _).
  assert (N0 : ((4 * i + k) mod 8 =? 0)%nat = false).
  { apply Nat.eqb_neq. lia. }
  assert (N4 : ((4 * i + k) mod 8 =? 4)%nat = false).
  { apply Nat.eqb_neq. destruct (Nat.even i); cbn [negb] in E4; apply Nat.eqb_eq in E0 || apply Nat.eqb_eq in E4; lia. }
  rewrite N0, N4. replace (4 * i + k - 8)%nat with (4 * (i - 2) + k)%nat by lia. rewrite xor_words_eq. apply xors_comm.
Qed.
Lemma key_words_ok key w : schedule key w -> blk 32 key -> words_ok w.
Proof.
  intros S K j. induction j as [j IH] using (well_founded_induction lt_wf). intros Hj.
  destruct (Nat.lt_ge_cases j 8) as [H|H].
  - rewrite (proj1 S) by exact H. apply (part_blk 32); [exact K|lia].
  - assert (E : (j = 4 * (j / 4) + j mod 4)%nat) by (apply Nat.div_mod; lia).
    assert (Hk : (j mod 4 < 4)%nat) by (apply Nat.mod_upper_bound; lia).
    set (i := (j / 4)%nat) in *. set (k := (j mod 4)%nat) in *. clearbody i k.
    destruct (Nat.eq_dec k 0) as [->|Hk0].
    + rewrite Nat.add_0_r in E. subst j. rewrite (first_word key) by (exact S || lia || (apply IH; lia)).
      apply xors_blk; [apply mixed_blk; [lia|]|]; apply IH; lia.
    + subst j. rewrite (other_word key) by (exact S || lia). apply xors_blk; apply IH; lia.
Qed.

Lemma word_at_rk w i j : words_ok w -> (i < 15)%nat -> (j < 4)%nat -> word_at (rk w i) j = w (4 * i + j)%nat.
Proof.
  intros W Hi Hj. unfold rk, word_at.
  assert (L : forall j, (j < 60)%nat -> length (w j) = 4%nat) by (intros j' Hj'; apply W, Hj').
  rewrite (word_nths (w (4 * i)%nat)) by (apply L; lia).
  rewrite (word_nths (w (4 * i + 1)%nat)) by (apply L; lia).
  rewrite (word_nths (w (4 * i + 2)%nat)) by (apply L; lia).
  rewrite (word_nths (w (4 * i + 3)%nat)) by (apply L; lia).
  destruct j as [|[|[|[|j]]]]; [| | | |lia]; rewrite ?Nat.add_0_r;
    match goal with |- _ = w ?x => rewrite (word_nths (w x)) at 5 by (apply L; lia) || rewrite (word_nths (w x)) by (apply L; lia) end; reflexivity.
Qed.
Lemma key_round_rk key w i : schedule key w -> blk 32 key -> (2 <= i < 15)%nat ->
  key_round (map (rk w) (seq 0 i), w (4 * i - 1)%nat) i =
  (map (rk w) (seq 0 (S i)), w (4 * S i - 1)%nat).
Proof.
  intros Sc K Hi. pose proof (key_words_ok key w Sc K) as W. unfold key_round. fold (mixed i (w (4 * i - 1)%nat)).
  rewrite (nth_indep _ [] (rk w 0)) by (rewrite map_length, seq_length; lia).
  rewrite map_nth, seq_nth by lia. rewrite seq_S, map_app. cbn [Nat.add].
  unfold key_words. cbn [seq fold_left fst snd app]. rewrite !word_at_rk by (assumption || lia).
  rewrite Nat.add_0_r, <- (first_word key) by (exact Sc || lia || (apply W; lia)).
  assert (E : forall k, (k < 3)%nat -> xors (w (4 * i + k)%nat) (w (4 * (i - 2) + S k)%nat) = w (4 * i + S k)%nat).
  { intros k Hk. rewrite (other_word key w i (S k) Sc) by lia. replace (4 * i + S k - 1)%nat with (4 * i + k)%nat by lia. reflexivity. }
  pose proof (E 0%nat ltac:(lia)) as E0. rewrite Nat.add_0_r in E0. rewrite E0, (E 1%nat), (E 2%nat) by lia.
  cbn [map]. f_equal; [|f_equal; lia]. f_equal. f_equal.
  unfold rk. rewrite <- !app_assoc. reflexivity.
Qed.

Lemma fold_steps {A} (f : A -> nat -> A) (g : nat -> A) n m :
  (forall i, (n <= i < n + m)%nat -> f (g i) i = g (S i)) -> fold_left f (seq n m) (g n) = g (n + m)%nat.
Proof.
  revert n. induction m as [|m IH]; intros n H; [rewrite Nat.add_0_r; reflexivity|]. cbn [seq fold_left].
  rewrite H by lia. rewrite IH by (intros i Hi; apply H; lia). f_equal. lia.
Qed.
Lemma enc_round_keys_eq key : blk 32 key -> enc_round_keys key = map (rk (key_word key)) (seq 0 15).
Proof.
  intros K. pose proof (key_word_schedule key) as Sc. pose proof (key_words_ok key _ Sc K) as W.
  set (w := key_word key) in *. clearbody w. unfold enc_round_keys.
  assert (P : forall a, firstn 16 (skipn a key) = firstn 4 (skipn a key) ++ firstn 4 (skipn (4 + a) key) ++
    firstn 4 (skipn (8 + a) key) ++ firstn 4 (skipn (12 + a) key)).
  { intros a. rewrite <- !skipn_skipn. generalize (skipn a key). intros l.
    do 16 (destruct l as [|? l]; [reflexivity|]). reflexivity. }
  assert (R0 : firstn 16 key = rk w 0).
  { rewrite <- (skipn_O key) at 1. rewrite P. unfold rk. rewrite !(proj1 Sc) by lia. reflexivity. }
  assert (R1 : firstn 16 (skipn 16 key) = rk w 1).
  { rewrite P. unfold rk. rewrite !(proj1 Sc) by lia. reflexivity. }
  rewrite R0, R1. rewrite word_at_rk by (assumption || lia).
  pose proof (fold_steps key_round (fun i => (map (rk w) (seq 0 i), w (4 * i - 1)%nat)) 2 13) as F.
  transitivity (fst (map (rk w) (seq 0 15), w (4 * 15 - 1)%nat)); [|reflexivity]. f_equal. apply F.
  intros i Hi. apply (key_round_rk key); [exact Sc|exact K|lia].
Qed.
Lemma round_keys_ok key : blk 32 key -> keys_ok (enc_round_keys key).
Proof.
  intros K. rewrite enc_round_keys_eq by exact K. pose proof (key_words_ok key _ (key_word_schedule key) K) as W.
  split; [rewrite map_length, seq_length; reflexivity|]. apply Forall_map, Forall_forall. intros i Hi. apply in_seq in Hi.
  apply rk_blk; [exact W|lia].
Qed.

(** ** Results *)

Theorem encrypt_is_cipher key b : blk 32 key -> blk 16 b -> encrypt key b = Cipher key b.
Proof.
  intros K B. unfold encrypt. rewrite enc_round_keys_eq by exact K. symmetry. apply cipher_blocks; [|exact B].
  apply (key_words_ok key); [apply key_word_schedule|exact K].
Qed.
Theorem decrypt_is_inv_cipher key b : blk 32 key -> blk 16 b -> decrypt key b = InvCipher key b.
Proof.
  intros K B. unfold decrypt. rewrite enc_round_keys_eq by exact K. symmetry. apply inv_cipher_blocks; [|exact B].
  apply (key_words_ok key); [apply key_word_schedule|exact K].
Qed.
Theorem decrypt_encrypt key b : blk 32 key -> blk 16 b -> decrypt key (encrypt key b) = b.
Proof. intros K B. apply decrypt_encrypt_block; [apply round_keys_ok, K|exact B]. Qed.
Theorem encrypt_decrypt key b : blk 32 key -> blk 16 b -> encrypt key (decrypt key b) = b.
Proof. intros K B. apply encrypt_decrypt_block; [apply round_keys_ok, K|exact B]. Qed.
Theorem encrypt_blk key b : blk 32 key -> blk 16 b -> blk 16 (encrypt key b).
Proof. intros K B. apply encrypt_block_blk; [apply round_keys_ok, K|exact B]. Qed.
Theorem decrypt_blk key b : blk 32 key -> blk 16 b -> blk 16 (decrypt key b).
Proof. intros K B. apply decrypt_block_blk; [apply round_keys_ok, K|exact B]. Qed.
