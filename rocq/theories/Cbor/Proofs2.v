From Verif Require Import Base Facts Cbor.Model Cbor.Spec Cbor.Proofs.

(* ------------------------------------------------ injectivity of encodings *)

Lemma head_inj m1 n1 m2 n2 x y :
  (n1 < 2 ^ 64)%N -> (n2 < 2 ^ 64)%N ->
  head m1 n1 ++ x = head m2 n2 ++ y -> m1 = m2 /\ n1 = n2 /\ x = y.
Proof.
  intros H1 H2 E. rewrite !head_arg in E. cbn [app] in E.
  injection E as Eb Er.
  pose proof (arg_info_lt n1) as A1. pose proof (arg_info_lt n2) as A2.
  assert (Ha : arg_info n1 = arg_info n2) by lia.
  pose proof (read_variadic_complete n1 x H1) as R1.
  pose proof (read_variadic_complete n2 y H2) as R2.
  rewrite Er, Ha, R2 in R1. injection R1 as -> ->. repeat split; lia.
Qed.

Lemma app_same_len {A} (a b x y : list A) :
  length a = length b -> a ++ x = b ++ y -> a = b /\ x = y.
Proof.
  revert b. induction a as [|p a IH]; intros [|q b] Hl E; cbn in *; try discriminate; [auto|].
  injection E as -> E. injection Hl as Hl. destruct (IH b Hl E) as [-> ->]. auto.
Qed.

Lemma enc_simple s : enc (VSimple s) = head 7 (simple_code s).
Proof. destruct s; reflexivity. Qed.

Lemma simple_code_inj a b : simple_code a = simple_code b -> a = b.
Proof. destruct a, b; cbn; intros H; try discriminate; reflexivity. Qed.

Section OK.
Variable W : N.
Hypothesis HW : (W <= 64)%N.

Lemma pow_W n : (n < 2 ^ W)%N -> (n < 2 ^ 64)%N.
Proof. intros H. eapply N.lt_le_trans; [exact H|]. apply N.pow_le_mono_r; [discriminate|exact HW]. Qed.

Lemma neg_arg z : (- 2 ^ 63 <= z < 0)%Z -> (Z.to_N (-1 - z) < 2 ^ 64)%N.
Proof. intros H. assert (Z.of_N (Z.to_N (-1 - z)) < 2 ^ 64)%Z; [|lia]. rewrite Z2N.id by lia. lia. Qed.

Lemma simple_code_lt s : (simple_code s < 2 ^ 64)%N.
Proof. destruct s; reflexivity. Qed.

(** The (major, argument, body) decomposition of an encoding. *)
Definition arg_of (v : value) : N :=
  match v with
  | VUnsigned n => n
  | VNegative z => Z.to_N (-1 - z)
  | VBytes b => Nlen b
  | VText t => Nlen t
  | VArray a => Nlen a
  | VMap m => Nlen m
  | VTag t _ => t
  | VSimple s => simple_code s
  end.
Definition body_of (v : value) : bytes :=
  match v with
  | VBytes b => b
  | VText t => t
  | VArray a => flat_map enc a
  | VMap m => flat_map (fun p => enc (fst p) ++ enc (snd p)) m
  | VTag _ w => enc w
  | _ => []
  end.

Lemma enc_parts v : enc v = head (type_label v) (arg_of v) ++ body_of v.
Proof.
  destruct v; cbn [enc type_label arg_of body_of]; rewrite ?app_nil_r; try reflexivity.
  apply enc_simple.
Qed.

Lemma arg_of_lt v : value_ok W v -> (arg_of v < 2 ^ 64)%N.
Proof.
  intros H. inversion H; subst; cbn [arg_of]; auto using neg_arg, pow_W, simple_code_lt.
Qed.

Lemma enc_inj_app a : forall b x y,
  value_ok W a -> value_ok W b -> enc a ++ x = enc b ++ y -> a = b /\ x = y.
Proof.
  induction a as [n|z|bs|t|l IH|m IH|t w IH|s] using value_ind'; intros b x y Ha Hb E;
  rewrite (enc_parts b), (enc_parts _), <- !app_assoc in E;
  apply head_inj in E; auto using arg_of_lt; destruct E as (El & En & Ex);
  destruct b as [n'|z'|bs'|t'|l'|m'|t' w'|s']; try discriminate El;
  cbn [arg_of body_of] in *; inversion Ha; inversion Hb; subst.
  - auto.
  - split; [f_equal; lia|exact Ex].
  - unfold Nlen in En. apply app_same_len in Ex; [|lia]. destruct Ex as [-> ->]. auto.
  - unfold Nlen in En. apply app_same_len in Ex; [|lia]. destruct Ex as [-> ->]. auto.
  - enough (l = l' /\ x = y) as [-> ->] by auto.
    assert (Hlen : length l = length l') by (unfold Nlen in En; lia). clear En.
    rename H1 into F1, H4 into F2. clear H0 H3 Ha Hb El.
    revert l' Hlen F2 Ex. induction l as [|e r IHr]; intros [|e' r'] Hlen F2 Ex;
      cbn in Hlen; try discriminate; [auto|].
    cbn [flat_map] in Ex. rewrite <- !app_assoc in Ex.
    inversion IH as [|? ? I1 I2]; subst. inversion F1; subst. inversion F2; subst.
    apply I1 in Ex; auto. destruct Ex as [-> Ex].
    destruct (IHr I2 H2 r') as [-> ->]; auto.
  - enough (m = m' /\ x = y) as [-> ->] by auto.
    assert (Hlen : length m = length m') by (unfold Nlen in En; lia). clear En.
    rename H1 into F1, H5 into F2. clear H0 H2 H4 H6 Ha Hb El.
    revert m' Hlen F2 Ex. induction m as [|[k w] r IHr]; intros [|[k' w'] r'] Hlen F2 Ex;
      cbn in Hlen; try discriminate; [auto|].
    cbn [flat_map fst snd] in Ex. rewrite <- !app_assoc in Ex.
    inversion IH as [|? ? [I1 I1'] I2]; subst. inversion F1 as [|? ? [A1 A2] F1']; subst.
    inversion F2 as [|? ? [B1 B2] F2']; subst. cbn [fst snd] in *.
    apply I1 in Ex; auto. destruct Ex as [-> Ex].
    apply I1' in Ex; auto. destruct Ex as [-> Ex].
    destruct (IHr I2 F1' r') as [-> ->]; auto.
  - apply IH in Ex; auto. destruct Ex as [-> ->]. auto.
  - apply simple_code_inj in En. subst. auto.
Qed.

(* ------------------------------------------------ order of encodings *)

Lemma arg_info_mono m n : (m < n)%N -> (arg_info m <= arg_info n)%N.
Proof.
  intros H. unfold arg_info.
  destruct (N.ltb_spec m 24); destruct (N.ltb_spec n 24);
  destruct (N.ltb_spec m (2 ^ 8)); destruct (N.ltb_spec n (2 ^ 8));
  destruct (N.ltb_spec m (2 ^ 16)); destruct (N.ltb_spec n (2 ^ 16));
  destruct (N.ltb_spec m (2 ^ 32)); destruct (N.ltb_spec n (2 ^ 32)); lia.
Qed.

Lemma arg_bytes_cmp m n :
  (m < 2 ^ 64)%N -> (n < 2 ^ 64)%N -> arg_info m = arg_info n ->
  lexcmp (arg_bytes m) (arg_bytes n) = N.compare m n.
Proof.
  intros Hm Hn. unfold arg_info, arg_bytes.
  destruct (N.ltb_spec m 24); destruct (N.ltb_spec n 24);
  destruct (N.ltb_spec m (2 ^ 8)); destruct (N.ltb_spec n (2 ^ 8));
  destruct (N.ltb_spec m (2 ^ 16)); destruct (N.ltb_spec n (2 ^ 16));
  destruct (N.ltb_spec m (2 ^ 32)); destruct (N.ltb_spec n (2 ^ 32)); intros E; try lia;
  try (apply lexcmp_be_bytes; cbn; lia).
  subst. cbn. symmetry. apply N.compare_refl.
Qed.

Lemma arg_bytes_len m n : arg_info m = arg_info n -> length (arg_bytes m) = length (arg_bytes n).
Proof.
  unfold arg_info, arg_bytes.
  destruct (N.ltb_spec m 24); destruct (N.ltb_spec n 24);
  destruct (N.ltb_spec m (2 ^ 8)); destruct (N.ltb_spec n (2 ^ 8));
  destruct (N.ltb_spec m (2 ^ 16)); destruct (N.ltb_spec n (2 ^ 16));
  destruct (N.ltb_spec m (2 ^ 32)); destruct (N.ltb_spec n (2 ^ 32)); intros E; try lia; reflexivity.
Qed.

Lemma lexcmp_head m1 n1 m2 n2 x y :
  (n1 < 2 ^ 64)%N -> (n2 < 2 ^ 64)%N ->
  lexcmp (head m1 n1 ++ x) (head m2 n2 ++ y) =
  match N.compare m1 m2 with
  | Eq => match N.compare n1 n2 with Eq => lexcmp x y | c => c end
  | c => c
  end.
Proof.
  intros H1 H2. rewrite !head_arg. cbn [app lexcmp].
  pose proof (arg_info_lt n1) as A1. pose proof (arg_info_lt n2) as A2.
  destruct (N.compare_spec m1 m2) as [->|Hm|Hm].
  2: { assert (m1 * 32 + arg_info n1 < m2 * 32 + arg_info n2)%N as Hlt by lia.
       apply N.compare_lt_iff in Hlt. rewrite Hlt. reflexivity. }
  2: { assert (m2 * 32 + arg_info n2 < m1 * 32 + arg_info n1)%N as Hlt by lia.
       apply N.compare_gt_iff in Hlt. rewrite Hlt. reflexivity. }
  destruct (N.compare_spec (m2 * 32 + arg_info n1) (m2 * 32 + arg_info n2)) as [E|Hlt|Hlt].
  - assert (Ea : arg_info n1 = arg_info n2) by lia.
    rewrite lexcmp_app_same by (apply arg_bytes_len; exact Ea).
    rewrite arg_bytes_cmp by assumption. reflexivity.
  - assert (n1 < n2)%N as L.
    { destruct (N.lt_total n1 n2) as [?|[?|G]]; [assumption|subst; lia|].
      apply arg_info_mono in G. lia. }
    apply N.compare_lt_iff in L. rewrite L. reflexivity.
  - assert (n2 < n1)%N as L.
    { destruct (N.lt_total n2 n1) as [?|[?|G]]; [assumption|subst; lia|].
      apply arg_info_mono in G. lia. }
    apply N.compare_gt_iff in L. rewrite L. reflexivity.
Qed.

Lemma Nlen_compare {A B} (a : list A) (b : list B) :
  N.compare (Nlen a) (Nlen b) = Nat.compare (length a) (length b).
Proof. unfold Nlen. symmetry. apply Nat2N.inj_compare. Qed.

Lemma cmp_lex a : forall b,
  value_ok W a -> value_ok W b -> value_cmp a b = lexcmp (enc a) (enc b).
Proof.
  induction a as [n|z|bs|t|l IH|m IH|t w IH|s] using value_ind'; intros b Ha Hb;
  rewrite (enc_parts b), (enc_parts _), lexcmp_head by auto using arg_of_lt;
  destruct b as [n'|z'|bs'|t'|l'|m'|t' w'|s']; try reflexivity;
  cbn [arg_of body_of type_label]; rewrite N.compare_refl;
  inversion Ha; inversion Hb; subst; cbn [value_cmp lexcmp].
  - destruct (N.compare n n'); reflexivity.
  - rewrite <- Z.compare_antisym.
    rewrite <- (N2Z.inj_compare (Z.to_N (-1 - z))), !Z2N.id by lia.
    destruct (Z.compare_spec z' z); destruct (Z.compare_spec (-1 - z) (-1 - z')); try lia; reflexivity.
  - rewrite Nlen_compare. unfold cmp_then.
    destruct (Nat.compare _ _); reflexivity.
  - rewrite Nlen_compare. unfold cmp_then.
    destruct (Nat.compare _ _); reflexivity.
  - rewrite Nlen_compare.
    destruct (Nat.eqb_spec (length l) (length l')) as [Hlen|Hlen].
    2: { destruct (Nat.compare_spec (length l) (length l')); try lia; reflexivity. }
    rewrite Hlen, Nat.compare_refl.
    rename H0 into F1, H3 into F2. 
    match goal with h : Forall (value_ok W) l |- _ => rename h into G1 end.
    match goal with h : Forall (value_ok W) l' |- _ => rename h into G2 end.
    clear F1 F2 Ha Hb.
    revert l' Hlen G2. induction l as [|e r IHr]; intros [|e' r'] Hlen G2;
      cbn in Hlen; try discriminate; [reflexivity|].
    inversion IH as [|? ? I1 I2]; subst. inversion G1; subst. inversion G2; subst.
    cbn [flat_map]. rewrite lexcmp_app_prefix.
    + rewrite I1 by assumption. destruct (lexcmp (enc e) (enc e')); try reflexivity.
      apply IHr; auto.
    + intros u v Huv. apply enc_inj_app in Huv; auto. destruct Huv as [-> _]. reflexivity.
  - rewrite Nlen_compare.
    destruct (Nat.eqb_spec (length m) (length m')) as [Hlen|Hlen].
    2: { destruct (Nat.compare_spec (length m) (length m')); try lia; reflexivity. }
    rewrite Hlen, Nat.compare_refl.
    match goal with h : Forall _ m, h' : Forall (fun p => value_ok W _ /\ _) m |- _ => idtac end.
    assert (G1 : Forall (fun p => value_ok W (fst p) /\ value_ok W (snd p)) m) by assumption.
    assert (G2 : Forall (fun p => value_ok W (fst p) /\ value_ok W (snd p)) m') by assumption.
    clear - IH G1 G2 Hlen HW.
    revert m' Hlen G2. induction m as [|[k w] r IHr]; intros [|[k' w'] r'] Hlen G2;
      cbn in Hlen; try discriminate; [reflexivity|].
    inversion IH as [|? ? [I1 I1'] I2]; subst. inversion G1 as [|? ? [A1 A2] G1']; subst.
    inversion G2 as [|? ? [B1 B2] G2']; subst. cbn [fst snd] in *.
    cbn [flat_map fst snd]. rewrite <- !app_assoc.
    rewrite lexcmp_app_prefix.
    2: { intros u v Huv. apply enc_inj_app in Huv; auto. destruct Huv as [-> _]. reflexivity. }
    rewrite lexcmp_app_prefix.
    2: { intros u v Huv. apply enc_inj_app in Huv; auto. destruct Huv as [-> _]. reflexivity. }
    rewrite I1, I1' by assumption. unfold cmp_then.
    destruct (lexcmp (enc k) (enc k')); try reflexivity.
    destruct (lexcmp (enc w) (enc w')); try reflexivity.
    apply IHr; auto.
  - rewrite IH by assumption. unfold cmp_then. destruct (N.compare _ _); reflexivity.
  - destruct (N.compare (simple_code s) (simple_code s')); reflexivity.
Qed.

End OK.
