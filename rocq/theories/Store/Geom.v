(** The numbers of a supported storage, and positions. *)
From Verif Require Import Base Facts.
From Verif.Kv Require Import Model.
From Verif.Store Require Import Format Bits Words.
Open Scope nat_scope.

(** The facts about a format the proofs use. *)
Record wff (F : format) : Prop := mkWff {
  g_Q : 6 <= virt_page_size F <= 1022;
  g_P : page_size F = 4 * (virt_page_size F + 2);
  g_N : 3 <= num_pages F <= 64;
  g_E : (N.of_nat (max_page_erases F) <= 65535)%N;
  g_M : 5 <= max_prefix F <= virt_page_size F - 1;
  g_M256 : max_prefix F <= 256;
  g_val : max_value F <= 4 * max_prefix F;
  g_len : (N.of_nat (max_value F) <= 1023)%N;
  g_mono : forall n, n <= max_value F -> to_words n <= max_prefix F }.

Lemma to_words_bound n : n <= 4 * to_words n.
Proof. unfold to_words. lia. Qed.
Lemma to_words_mul n : to_words (n * 4) = n.
Proof. unfold to_words. lia. Qed.
Lemma to_words_1023 : to_words (N.to_nat 1023) = 256.
Proof. reflexivity. Qed.
Lemma format_wff s F : format_new s = Some F -> wff F.
Proof.
  unfold format_new. destruct (supported s) eqn:S; [|discriminate]. intros H.
  unfold supported in S. rewrite !andb_true_iff, !N.leb_le in S.
  destruct S as [[[[[S1 S2] [S3 S3']] [S4 S4']] S5] S6].
  apply N.eqb_eq in S1. rewrite S1 in *. apply N.eqb_eq in S2.
  assert (EF : F = mkFormat (N.to_nat (s_page_size s)) (N.to_nat (s_num_pages s))
                            (N.to_nat (s_max_page_erases s))) by congruence.
  clear H. subst F.
  set (F := mkFormat _ _ _).
  assert (P : page_size F = 4 * (virt_page_size F + 2)).
  { unfold virt_page_size. cbn [page_size F]. lia. }
  assert (Q : 6 <= virt_page_size F <= 1022) by (cbn [page_size F] in P; lia).
  assert (V : max_value F <= (virt_page_size F - 1) * 4 /\ (N.of_nat (max_value F) <= 1023)%N).
  { unfold max_value. split; lia. }
  destruct V as [V1 V2].
  pose proof (to_words_mono _ _ V1) as M1. rewrite to_words_mul in M1.
  assert (V3 : max_value F <= N.to_nat 1023) by lia.
  pose proof (to_words_mono _ _ V3) as M2. rewrite to_words_1023 in M2.
  assert (M3 : 5 <= max_prefix F).
  { unfold max_prefix. transitivity (to_words (5 * 4)); [rewrite to_words_mul; lia|].
    apply to_words_mono. unfold max_value. lia. }
  split.
  - exact Q.
  - exact P.
  - cbn [num_pages F]. lia.
  - cbn [max_page_erases F]. lia.
  - unfold max_prefix in *. lia.
  - exact M2.
  - apply to_words_bound.
  - exact V2.
  - intros n Hn. apply to_words_mono, Hn.
Qed.

Ltac Zify.zify_post_hook ::= idtac.

(** format.rs 271-298: W = (N - 1) Q - M, V = W - (N - 1), C = V - N. *)
Lemma window_eq F : wff F ->
  window_size F + max_prefix F = (num_pages F - 1) * virt_page_size F.
Proof.
  intros G. destruct (g_Q F G), (g_N F G), (g_M F G). unfold window_size.
  assert (virt_page_size F <= (num_pages F - 1) * virt_page_size F); [|lia].
  transitivity (1 * virt_page_size F); [lia|]. apply Nat.mul_le_mono_r. lia.
Qed.
Lemma virt_eq F : wff F -> virt_size F + (num_pages F - 1) = window_size F.
Proof.
  intros G. pose proof (window_eq F G). destruct (g_Q F G), (g_N F G), (g_M F G).
  unfold virt_size. rewrite Nat.mul_sub_distr_l.
  assert (2 * virt_page_size F <= (num_pages F - 1) * virt_page_size F).
  { apply Nat.mul_le_mono_r. lia. }
  assert ((num_pages F - 1) * 1 + max_prefix F <= (num_pages F - 1) * virt_page_size F); [|lia].
  assert ((num_pages F - 1) * 6 <= (num_pages F - 1) * virt_page_size F).
  { apply Nat.mul_le_mono_l. lia. }
  lia.
Qed.
Lemma cap_eq F : wff F -> capacity_of F + num_pages F = virt_size F /\ 2 <= capacity_of F.
Proof.
  intros G. pose proof (window_eq F G). pose proof (virt_eq F G).
  destruct (g_Q F G), (g_N F G), (g_M F G). unfold capacity_of.
  assert ((num_pages F - 1) * virt_page_size F =
          virt_page_size F + (num_pages F - 2) * (virt_page_size F - 6) + (num_pages F - 2) * 6).
  { replace (num_pages F - 1) with (S (num_pages F - 2)) by lia.
    rewrite <- Nat.add_assoc, <- Nat.mul_add_distr_l.
    replace (virt_page_size F - 6 + 6) with (virt_page_size F) by lia. lia. }
  pose proof (Nat.le_0_l ((num_pages F - 2) * (virt_page_size F - 6))).
  set (z := (num_pages F - 2) * (virt_page_size F - 6)) in *. lia.
Qed.

(* ------------------------------------------------------------- positions *)

Lemma pos_parts F pos : wff F ->
  pos = position F (pos_cycle F pos) (pos_page F pos) (pos_word F pos) /\
  pos_page F pos < num_pages F /\ pos_word F pos < virt_page_size F.
Proof.
  intros G. destruct (g_Q F G), (g_N F G).
  unfold position, pos_cycle, pos_page, pos_word. split.
  - pose proof (Nat.div_mod pos (virt_page_size F)) as D1.
    pose proof (Nat.div_mod (pos / virt_page_size F) (num_pages F)) as D2.
    rewrite (Nat.mul_comm (pos / virt_page_size F / num_pages F)). rewrite <- D2 by lia.
    rewrite (Nat.mul_comm (pos / virt_page_size F)). apply D1. lia.
  - split; apply Nat.mod_upper_bound; lia.
Qed.
Lemma parts_pos F cycle page word : wff F -> page < num_pages F -> word < virt_page_size F ->
  pos_cycle F (position F cycle page word) = cycle /\
  pos_page F (position F cycle page word) = page /\
  pos_word F (position F cycle page word) = word.
Proof.
  intros G H1 H2. unfold position, pos_cycle, pos_page, pos_word.
  assert (D : ((cycle * num_pages F + page) * virt_page_size F + word) / virt_page_size F
              = cycle * num_pages F + page).
  { symmetry. apply Nat.div_unique with word; lia. }
  rewrite D. split; [|split].
  - symmetry. apply Nat.div_unique with page; lia.
  - symmetry. apply Nat.mod_unique with cycle; lia.
  - symmetry. apply Nat.mod_unique with (cycle * num_pages F + page); lia.
Qed.
