(** Reduction modulo p without division, for the computations in this directory. *)
From Coq Require Import ZArith Zpow_facts Lia Bool.
From Verif Require Int.Spec.
Open Scope Z_scope.
Ltac Zify.zify_post_hook ::= idtac.
Notation p := Int.Spec.p.

(** 2^256 - p *)
Definition c256 : Z := 26959946660873538059280334323183841250350249843923952699046031785985.
(** Replaces multiples of 2^(256 + 32 i), for i below the given number, the largest first. *)
Fixpoint fold_words (i : nat) (t : Z) : Z :=
  match i with
  | O => t
  | S i' =>
      let k := 32 * Z.of_nat i' in
      let hi := Z.shiftr t (256 + k) in
      match hi with
      | Z0 => fold_words i' t
      | _ => fold_words i' (t - Z.shiftl hi (256 + k) + Z.shiftl (hi * c256) k)
      end
  end.
Lemma fold_words_spec i : forall t, fold_words i t mod p = t mod p.
Proof.
  induction i as [|i IH]; intros t; [reflexivity|]. cbn [fold_words]. set (k := 32 * Z.of_nat i).
  assert (Hk : 0 <= k) by (unfold k; lia). set (hi := Z.shiftr t (256 + k)).
  assert (E : (t - Z.shiftl hi (256 + k) + Z.shiftl (hi * c256) k) mod p = t mod p).
  { rewrite !Z.shiftl_mul_pow2, Z.pow_add_r by lia.
    replace (t - hi * (2 ^ 256 * 2 ^ k) + hi * c256 * 2 ^ k) with (t + (- (hi * 2 ^ k)) * (2 ^ 256 - c256)) by ring.
    change (2 ^ 256 - c256) with p. apply Z_mod_plus_full. }
  clearbody hi. destruct hi; [apply IH| |]; rewrite IH; exact E.
Qed.
Definition norm (t : Z) : Z :=
  if (0 <=? t) && (t <? p) then t else let u := t - p in if (0 <=? u) && (u <? p) then u else t mod p.
Lemma norm_spec t : norm t = t mod p.
Proof.
  unfold norm. destruct ((0 <=? t) && (t <? p)) eqn:E; [symmetry; apply Z.mod_small; apply andb_prop in E; lia|].
  destruct ((0 <=? t - p) && (t - p <? p)) eqn:E'; [|reflexivity]. apply Zmod_unique with 1; apply andb_prop in E'; lia.
Qed.
Definition red (t : Z) : Z := norm (fold_words 1 (fold_words 8 t)).
Lemma red_spec t : red t = t mod p.
Proof. unfold red. rewrite norm_spec, !fold_words_spec. reflexivity. Qed.

Fixpoint power_p (x : Z) (e : positive) : Z :=
  match e with
  | xH => x
  | xO e' => let t := power_p x e' in red (t * t)
  | xI e' => let t := power_p x e' in red (red (t * t) * x)
  end.
Lemma power_p_spec x e : (power_p x e) mod p = x ^ Zpos e mod p.
Proof.
  induction e as [e IH|e IH|]; cbn [power_p]; rewrite ?red_spec.
  - rewrite Zmod_mod. rewrite Pos2Z.inj_xI. rewrite Z.pow_add_r, Z.pow_1_r, Z.pow_twice_r by discriminate.
    rewrite (Zmult_mod _ x), Zmod_mod, (Zmult_mod (power_p x e)), IH, <- (Zmult_mod (x ^ _)), <- Zmult_mod. reflexivity.
  - rewrite Zmod_mod. rewrite Pos2Z.inj_xO, Z.pow_twice_r. rewrite (Zmult_mod (power_p x e)), IH, <- Zmult_mod. reflexivity.
  - rewrite Z.pow_1_r. reflexivity.
Qed.
