(** Fermat's little theorem: the multiples of a are the residues in another order. *)
From Coq Require Import ZArith Znumtheory Lia List Permutation.
Import ListNotations.
Open Scope Z_scope.
Ltac Zify.zify_post_hook ::= idtac.

Definition residues (q : Z) : list Z := map Z.of_nat (seq 1 (Z.to_nat (q - 1))).
Lemma residues_In q x : In x (residues q) <-> 0 < x < q.
Proof.
  unfold residues. rewrite in_map_iff. split.
  - intros (k & <- & Hk). apply in_seq in Hk. lia.
  - intros H. exists (Z.to_nat x). split; [lia|]. apply in_seq. lia.
Qed.
Lemma residues_NoDup q : NoDup (residues q).
Proof. apply FinFun.Injective_map_NoDup; [intros x y; apply Nat2Z.inj|apply seq_NoDup]. Qed.
Lemma residues_length q : 1 < q -> Z.of_nat (length (residues q)) = q - 1.
Proof. intros H. unfold residues. rewrite map_length, seq_length. lia. Qed.

Definition product (l : list Z) : Z := fold_right Z.mul 1 l.
Lemma product_perm l l' : Permutation l l' -> product l = product l'.
Proof. induction 1; cbn [product fold_right] in *; unfold product in *; lia. Qed.
Lemma product_map a q l : product (map (fun x => (a * x) mod q) l) mod q = (a ^ Z.of_nat (length l) * product l) mod q.
Proof.
  induction l as [|x l IH]; [reflexivity|]. cbn [map product fold_right length]. fold (product (map (fun x => (a * x) mod q) l)). fold (product l).
  rewrite Nat2Z.inj_succ, Z.pow_succ_r by lia. rewrite Zmult_mod_idemp_l, <- Zmult_mod_idemp_r, IH, Zmult_mod_idemp_r. f_equal. ring.
Qed.
Lemma product_not_divided q l : prime q -> (forall x, In x l -> ~ (q | x)) -> ~ (q | product l).
Proof.
  intros Pq. induction l as [|x l IH]; intros H D; cbn [product fold_right] in D.
  - apply Z.divide_1_r in D. assert (1 < q) by (destruct Pq; assumption). lia.
  - apply prime_mult in D; [|exact Pq]. destruct D as [D|D]; [exact (H x (or_introl eq_refl) D)|].
    apply IH; [|exact D]. intros y Hy. apply H. right. exact Hy.
Qed.

Lemma fermat (q a : Z) : prime q -> ~ (q | a) -> a ^ (q - 1) mod q = 1.
Proof.
  intros Pq Na. assert (Hq : 1 < q) by (destruct Pq; assumption).
  assert (P : Permutation (map (fun x => (a * x) mod q) (residues q)) (residues q)).
  { apply Permutation_sym. apply NoDup_Permutation_bis; [apply residues_NoDup|rewrite map_length; lia|].
    intros y Hy. destruct (In_dec Z.eq_dec y (map (fun x => (a * x) mod q) (residues q))) as [I|NI]; [exact I|exfalso].
    (* otherwise the images would fit into one place less *)
    assert (ND : NoDup (map (fun x => (a * x) mod q) (residues q))).
    { assert (G : forall l, (forall x, In x l -> 0 < x < q) -> NoDup l -> NoDup (map (fun x => (a * x) mod q) l)).
      { induction l as [|x l IH]; intros B N; [constructor|]. inversion N as [|? ? N1 N2]; subst. cbn [map]. constructor.
        - rewrite in_map_iff. intros (z & Ez & Iz). apply N1.
          assert (D : (q | a * (z - x))).
          { apply Z.mod_divide; [lia|]. rewrite Z.mul_sub_distr_l, Zminus_mod, Ez, Z.sub_diag. apply Z.mod_0_l. lia. }
          apply prime_mult in D; [|exact Pq]. destruct D as [D|D]; [contradiction|].
          pose proof (B x (or_introl eq_refl)). pose proof (B z (or_intror Iz)).
          assert (z - x = 0). { destruct D as (k & Ek). assert (k = 0) by nia. subst k. lia. }
          replace x with z by lia. exact Iz.
        - apply IH; [intros z Hz; apply B; right; exact Hz|exact N2]. }
      apply G; [intros x; apply residues_In|apply residues_NoDup]. }
    assert (L : incl (y :: map (fun x => (a * x) mod q) (residues q)) (residues q)).
    { intros z [<- | Iz]; [exact Hy|]. apply in_map_iff in Iz. destruct Iz as (x & <- & Ix). apply residues_In in Ix. apply residues_In.
      pose proof (Z.mod_pos_bound (a * x) q ltac:(lia)).
      assert ((a * x) mod q <> 0).
      { intros E. apply Z.mod_divide in E; [|lia]. apply prime_mult in E; [|exact Pq]. destruct E as [E|E]; [contradiction|].
        apply Z.divide_pos_le in E; lia. }
      lia. }
    apply NoDup_incl_length in L; [|constructor; assumption]. cbn [length] in L. rewrite map_length in L. lia. }
  apply product_perm in P. pose proof (product_map a q (residues q)) as E. rewrite P, residues_length in E by exact Hq.
  assert (D : (q | (a ^ (q - 1) - 1) * product (residues q))).
  { apply Z.mod_divide; [lia|]. rewrite Z.mul_sub_distr_r, Z.mul_1_l, Zminus_mod, <- E, Z.sub_diag. apply Z.mod_0_l. lia. }
  apply prime_mult in D; [|exact Pq]. destruct D as [D|D].
  - destruct D as (k & Ek). replace (a ^ (q - 1)) with (1 + k * q) by lia. rewrite Z_mod_plus_full. apply Z.mod_small. lia.
  - exfalso. revert D. apply product_not_divided; [exact Pq|]. intros x Hx D. apply residues_In in Hx. apply Z.divide_pos_le in D; lia.
Qed.
Print Assumptions fermat.
