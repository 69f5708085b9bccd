(** Inverses modulo a prime are powers. *)
From Coq Require Import ZArith Znumtheory Lia.
From Verif Require Import Prime.Fermat.
Open Scope Z_scope.
Ltac Zify.zify_post_hook ::= idtac.

Lemma power_inverse q x : prime q -> 0 < x < q -> (x * (x ^ (q - 2) mod q)) mod q = 1.
Proof.
  intros Pq B. assert (Hq : 1 < q) by (destruct Pq; assumption). destruct (Z.eq_dec q 2) as [-> | N2].
  { replace x with 1 by lia. reflexivity. }
  rewrite Zmult_mod_idemp_r, <- Z.pow_succ_r by lia. replace (Z.succ (q - 2)) with (q - 1) by lia.
  apply fermat; [exact Pq|]. intros D. apply Z.divide_pos_le in D; lia.
Qed.
