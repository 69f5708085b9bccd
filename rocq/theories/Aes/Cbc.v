(** CBC mode of the library is the standard's. *)
From Verif Require Import Base Facts.
From Verif.Aes Require Import Model Spec Proofs.
Open Scope N_scope.

Lemma byte_list_blk n l : byte_list n l <-> blk n l.
Proof. unfold byte_list, blk. rewrite Forall_forall. reflexivity. Qed.

Lemma chunks_concat : forall bs n, Forall (fun b : bytes => length b = 16%nat) bs -> (length (concat bs) <= n)%nat ->
  chunks n (concat bs) = bs.
Proof.
  induction bs as [|b bs IH]; intros n F L; [destruct n; reflexivity|].
  inversion F as [|? ? Lb F']; subst. cbn [concat] in *. rewrite app_length in L.
  destruct n as [|n]; [lia|]. destruct (b ++ concat bs) as [|x r] eqn:E.
  { destruct b; discriminate. }
  cbn [chunks]. rewrite <- E, firstn_app, skipn_app, Lb, Nat.sub_diag.
  rewrite firstn_all2, skipn_all2 by lia. cbn [firstn skipn app]. rewrite app_nil_r, IH by (assumption || lia). reflexivity.
Qed.
Lemma split_blocks : forall n l, length l = (16 * n)%nat -> Forall (fun b => b < 256) l ->
  exists bs, l = concat bs /\ Forall (blk 16) bs /\ length bs = n.
Proof.
  induction n as [|n IH]; intros l L F; [exists []; destruct l; [auto|discriminate]|].
  rewrite <- (firstn_skipn 16 l) in F. apply Forall_app in F as [F1 F2].
  destruct (IH (skipn 16 l)) as (bs & E & B & Lb); [rewrite skipn_length; lia|exact F2|].
  exists (firstn 16 l :: bs). cbn [concat]. rewrite <- E, firstn_skipn. split; [reflexivity|].
  split; [|cbn [length]; lia]. constructor; [|exact B]. split; [rewrite firstn_length; lia|exact F1].
Qed.
Lemma blocks_len bs : Forall (blk 16) bs -> Forall (fun b : bytes => length b = 16%nat) bs.
Proof. intros F. eapply Forall_impl; [|exact F]. intros b [L _]. exact L. Qed.

(** A length that is not a multiple of 16 gives a last chunk that is too short. *)
Lemma chunks_short : forall n l, (length l <= n)%nat -> (length l mod 16 <> 0)%nat ->
  exists pre b, chunks n l = pre ++ [b] /\ length b <> 16%nat.
Proof.
  induction n as [|n IH]; intros l L M.
  - exfalso. apply M. replace (length l) with 0%nat by lia. reflexivity.
  - destruct l as [|x l]; [exfalso; apply M; reflexivity|]. cbn [chunks].
    destruct (Nat.lt_ge_cases (length (x :: l)) 16) as [H|H].
    + exists [], (firstn 16 (x :: l)). rewrite skipn_all2 by lia. split; [destruct n; reflexivity|].
      rewrite firstn_all2 by lia. lia.
    + destruct (IH (skipn 16 (x :: l))) as (pre & b & -> & Hb).
      * rewrite skipn_length. lia.
      * rewrite skipn_length. intros E. apply M. set (k := length (x :: l)) in *. clearbody k.
        replace k with ((k - 16) + 1 * 16)%nat by lia. rewrite Nat.mod_add by lia. exact E.
      * exists (firstn 16 (x :: l) :: pre), b. split; [reflexivity|exact Hb].
Qed.
Lemma enc_short f : forall pre iv b, length b <> 16%nat -> cbc_encrypt_chunks f iv (pre ++ [b]) = None.
Proof.
  induction pre as [|a pre IH]; intros iv b Hb; cbn [app cbc_encrypt_chunks].
  - destruct (Nat.eqb_spec (length b) 16); [contradiction|reflexivity].
  - destruct (Nat.eqb (length a) 16); [|reflexivity]. cbn [negb]. rewrite IH by exact Hb. reflexivity.
Qed.
Lemma dec_short f : forall pre iv b, length b <> 16%nat -> cbc_decrypt_chunks f iv (pre ++ [b]) = None.
Proof.
  induction pre as [|a pre IH]; intros iv b Hb; cbn [app cbc_decrypt_chunks].
  - destruct (Nat.eqb_spec (length b) 16); [contradiction|reflexivity].
  - destruct (Nat.eqb (length a) 16); [|reflexivity]. cbn [negb]. rewrite IH by exact Hb. reflexivity.
Qed.


(** Encryption and decryption with any block functions. *)
Definition chained (f : bytes -> bytes) (iv : bytes) (ps cs : list bytes) : Prop :=
  length cs = length ps /\
  forall j, (j < length ps)%nat -> nth j cs [] = f (xors (nth j ps []) (nth j (iv :: cs) [])).
Lemma chained_cons f iv p ps c cs : chained f iv (p :: ps) (c :: cs) <-> c = f (xors p iv) /\ chained f c ps cs.
Proof.
  unfold chained. cbn [length]. split.
  - intros [L H]. split; [apply (H 0%nat); lia|]. split; [lia|]. intros j Hj. apply (H (S j)). lia.
  - intros [E [L H]]. split; [lia|]. intros [|j] Hj; [exact E|]. apply H. lia.
Qed.
Lemma enc_blocks f : (forall b, blk 16 b -> blk 16 (f b)) ->
  forall ps iv, Forall (blk 16) ps -> blk 16 iv -> exists cs,
  cbc_encrypt_chunks f iv ps = Some (concat cs) /\ chained f iv ps cs /\ Forall (blk 16) cs.
Proof.
  intros Hf. induction ps as [|p ps IH]; intros iv F I.
  - exists []. split; [reflexivity|]. split; [split; [reflexivity|]|constructor]. intros j Hj. cbn in Hj. lia.
  - inversion F as [|? ? P F']; subst. assert (C : blk 16 (f (xors p iv))) by (apply Hf, xors_blk; assumption).
    destruct (IH _ F' C) as (cs & E & N & B). exists (f (xors p iv) :: cs). split; [|split].
    + cbn [cbc_encrypt_chunks]. rewrite (proj1 P), E. reflexivity.
    + apply chained_cons. split; [reflexivity|exact N].
    + constructor; assumption.
Qed.
Lemma dec_blocks f g : (forall b, blk 16 b -> blk 16 (g b)) -> (forall b, blk 16 b -> f (g b) = b) ->
  forall cs iv, Forall (blk 16) cs -> blk 16 iv -> exists ps,
  cbc_decrypt_chunks g iv cs = Some (concat ps) /\ chained f iv ps cs /\ Forall (blk 16) ps.
Proof.
  intros Hg Hf. induction cs as [|c cs IH]; intros iv F I.
  - exists []. split; [reflexivity|]. split; [split; [reflexivity|]|constructor]. intros j Hj. cbn in Hj. lia.
  - inversion F as [|? ? C F']; subst. pose proof (Hg c C) as G.
    destruct (IH c F' C) as (ps & E & N & B). exists (xors (g c) iv :: ps). split; [|split].
    + cbn [cbc_decrypt_chunks]. rewrite (proj1 C), E. reflexivity.
    + apply chained_cons. split; [|exact N]. rewrite xors_twice by (destruct G as [-> _], I as [-> _]; reflexivity).
      symmetry. apply Hf, C.
    + constructor; [apply xors_blk; assumption|exact B].
Qed.
Lemma chained_inj f g : (forall b, blk 16 b -> g (f b) = b) ->
  forall cs iv ps ps', blk 16 iv -> Forall (blk 16) cs -> Forall (blk 16) ps -> Forall (blk 16) ps' ->
  chained f iv ps cs -> chained f iv ps' cs -> ps = ps'.
Proof.
  intros Hf. induction cs as [|c cs IH]; intros iv ps ps' I C P P' H H'.
  - destruct H as [H _], H' as [H' _]. destruct ps, ps'; try discriminate. reflexivity.
  - destruct ps as [|p ps]; [destruct H; discriminate|]. destruct ps' as [|p' ps']; [destruct H'; discriminate|].
    apply chained_cons in H as [E H]. apply chained_cons in H' as [E' H'].
    inversion P; inversion P'; inversion C; subst. f_equal.
    + assert (X : xors p iv = xors p' iv).
      { rewrite <- (Hf (xors p iv)), <- (Hf (xors p' iv)) by (apply xors_blk; assumption). congruence. }
      assert (Lp : length p = length iv) by (destruct I as [-> _]; apply H2).
      assert (Lp' : length p' = length iv) by (destruct I as [-> _]; apply H6).
      rewrite <- (xors_twice p iv Lp), <- (xors_twice p' iv Lp'). congruence.
    + eapply IH; [| | | |exact H|exact H']; try assumption.
Qed.
Lemma chained_fun f : forall ps iv cs cs', chained f iv ps cs -> chained f iv ps cs' -> cs = cs'.
Proof.
  induction ps as [|p ps IH]; intros iv cs cs' H H'.
  - destruct H as [H _], H' as [H' _]. destruct cs, cs'; try discriminate. reflexivity.
  - destruct cs as [|c cs]; [destruct H; discriminate|]. destruct cs' as [|c' cs']; [destruct H'; discriminate|].
    apply chained_cons in H as [E H]. apply chained_cons in H' as [E' H']. subst. f_equal. eapply IH; eassumption.
Qed.
Lemma chained_cbc key : blk 32 key -> forall ps iv cs, blk 16 iv -> Forall (blk 16) ps -> Forall (blk 16) cs ->
  (chained (encrypt key) iv ps cs <-> cbc key iv ps cs).
Proof.
  intros K ps iv cs I P C. unfold chained, cbc.
  assert (E : forall j, (j < length ps)%nat -> length cs = length ps ->
    encrypt key (xors (nth j ps []) (nth j (iv :: cs) [])) = Cipher key (xor_words (nth j ps []) (nth j (iv :: cs) []))).
  { intros j Hj L. transitivity (Cipher key (xors (nth j ps []) (nth j (iv :: cs) []))).
    2:{ apply (f_equal (Cipher key)). symmetry. apply xor_words_eq. }
    apply encrypt_is_cipher; [exact K|]. apply xors_blk.
    - rewrite Forall_forall in P. apply P, nth_In, Hj.
    - destruct j as [|j]; [exact I|]. cbn [nth]. rewrite Forall_forall in C. apply C, nth_In. lia. }
  split; intros [L H]; (split; [exact L|]); intros j Hj; rewrite (H j Hj); [|symmetry]; apply E; assumption.
Qed.

Lemma enc_chunks_ext f g : (forall b, f b = g b) -> forall l iv, cbc_encrypt_chunks f iv l = cbc_encrypt_chunks g iv l.
Proof.
  intros H. induction l as [|b l IH]; intros iv; [reflexivity|]. cbn [cbc_encrypt_chunks]. rewrite H, IH. reflexivity.
Qed.
Lemma dec_chunks_ext f g : (forall b, f b = g b) -> forall l iv, cbc_decrypt_chunks f iv l = cbc_decrypt_chunks g iv l.
Proof.
  intros H. induction l as [|b l IH]; intros iv; [reflexivity|]. cbn [cbc_decrypt_chunks]. rewrite H, IH. reflexivity.
Qed.
Lemma cbc_encrypt_eq key iv l : cbc_encrypt key iv l = cbc_encrypt_chunks (encrypt key) iv (chunks (length l) l).
Proof. unfold cbc_encrypt. apply enc_chunks_ext. intros b. unfold encrypt. reflexivity. Qed.
Lemma cbc_decrypt_eq key iv l : cbc_decrypt key iv l = cbc_decrypt_chunks (decrypt key) iv (chunks (length l) l).
Proof. unfold cbc_decrypt. apply dec_chunks_ext. intros b. unfold decrypt. reflexivity. Qed.
