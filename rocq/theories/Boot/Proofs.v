(** The accelerator computes SHA-256. *)
From Verif Require Import Base Facts Hash.Model Hash.Proofs Boot.Model.
From Verif Require Hash.Spec Upgrade.Model.
Open Scope N_scope.

Lemma absorb_iter n s l : length l = (64 * n)%nat -> absorb s l = iter n s l.
Proof.
  intros E. unfold absorb. rewrite full_blocks_ok by lia. cbn [fst].
  rewrite E. replace (64 * n)%nat with (n * 64)%nat by lia. rewrite Nat.div_mul by lia. reflexivity.
Qed.

(** The padding of the accelerator is that of the standard. *)
Lemma padding_spec m : Spec.padded m (m ++ padding (Nlen m)).
Proof.
  exists (N.to_nat ((119 - Nlen m mod 64) mod 64)).
  pose proof (N.mod_lt (Nlen m) 64 ltac:(lia)) as B.
  pose proof (N.mod_lt (119 - Nlen m mod 64) 64 ltac:(lia)) as B'.
  split; [reflexivity | ]. split; [lia | ].
  pose proof (N.div_mod (Nlen m) 64 ltac:(lia)) as D.
  pose proof (N.div_mod (119 - Nlen m mod 64) 64 ltac:(lia)) as D'.
  assert (E : length m = N.to_nat (64 * (Nlen m / 64) + Nlen m mod 64)) by (unfold Nlen in *; lia).
  set (q := Nlen m / 64) in *. set (r := Nlen m mod 64) in *.
  set (q' := (119 - r) / 64) in *. set (r' := (119 - r) mod 64) in *.
  clearbody q r q' r'. rewrite E.
  replace (N.to_nat (64 * q + r) + 1 + N.to_nat r')%nat
    with (56 + N.to_nat (q + 1 - q') * 64)%nat by lia.
  rewrite Nat.mod_add by lia. reflexivity.
Qed.

Lemma padded_len m p : Spec.padded m p -> exists n, length p = (64 * n)%nat.
Proof.
  intros (k & -> & _ & M).
  exists (S ((length m + 1 + k) / 64)).
  rewrite !app_length, repeat_length, be_bytes_length. cbn [length].
  pose proof (Nat.div_mod (length m + 1 + k) 64 ltac:(lia)) as D. rewrite M in D. lia.
Qed.

(** The digest of a padded message. *)
Lemma iter_sha256 m p n :
  Spec.padded m p -> length p = (64 * n)%nat -> Spec.is_sha256 m (encode (iter n H p)).
Proof.
  intros Hp Lp.
  exists p, (fun i => vars_of (iter i H p)), n.
  split; [exact Hp | ]. split; [exact Lp | ]. split; [exact H_spec | ].
  split; [ | reflexivity].
  intros i Hi. rewrite iter_S. apply hash_block_spec, iter_small, H_small.
Qed.

(** The driver after the blocks [m]. *)
Definition fed (m : bytes) (c : cell) : Prop :=
  exists n, length m = (64 * n)%nat /\ hash_ctx c = iter n H m /\ hash_total_size c = Nlen m.

Lemma split_len x : x < 2 ^ 64 ->
  N.shiftr x 32 mod 2 ^ 32 * 2 ^ 32 + x mod 2 ^ 32 = x.
Proof.
  intros B. rewrite N.shiftr_div_pow2.
  rewrite (N.mod_small (x / 2 ^ 32)).
  - pose proof (N.div_mod x (2 ^ 32) ltac:(discriminate)). lia.
  - apply N.div_lt_upper_bound; [discriminate | ]. rewrite <- N.pow_add_r. exact B.
Qed.

Lemma join_len x : N.shiftl (x / 2 ^ 32) 32 + x mod 2 ^ 32 = x.
Proof.
  rewrite N.shiftl_mul_pow2. pose proof (N.div_mod x (2 ^ 32) ltac:(discriminate)). lia.
Qed.

Lemma transfer_all data : Nlen data < 2 ^ 30 -> firstn (bytes_num data) data = data.
Proof.
  intros B. unfold bytes_num. rewrite N.mod_small by exact B.
  unfold Nlen. rewrite Nat2N.id. apply firstn_all.
Qed.

Lemma small_len (m : bytes) : 8 * Nlen m < 2 ^ 64 -> Nlen m < 2 ^ 64.
Proof. set (x := 2 ^ 64). lia. Qed.

Lemma new_fed h : fed [] (new h).
Proof. exists O. repeat split. Qed.

(** A chunk of whole blocks. *)
Lemma update_fed m c data :
  fed m c -> hw_auto_padding (hw c) = false ->
  data <> [] -> (exists k, length data = (64 * k)%nat) -> Nlen data < 2 ^ 30 ->
  8 * Nlen (m ++ data) < 2 ^ 64 ->
  fed (m ++ data) (update c data false) /\ hw_auto_padding (hw (update c data false)) = false.
Proof.
  intros (n & Lm & Hc & Ht) Ha Hd (k & Ld) B Hl. split; [ | reflexivity].
  pose proof (small_len _ Hl) as Hs.
  destruct data as [ | x data]; [contradiction | ]. unfold update. set (d := x :: data) in *.
  rewrite transfer_all by exact B. unfold dma, hw_len. cbn [hw_auto_padding hw_msb hw_lsb hw_hash].
  rewrite Ha, Ht, split_len.
  2:{ unfold Nlen in *. rewrite app_length in Hs. set (y := 2 ^ 64) in *. lia. }
  replace (Nlen m + Nlen d) with (Nlen (m ++ d)) by (unfold Nlen; rewrite app_length; lia).
  rewrite (N.mod_small _ (2 ^ 64)) by exact Hs.
  exists (n + k)%nat. split; [rewrite app_length; lia | ].
  cbn [hash_ctx hash_total_size]. rewrite app_nil_r.
  split; [rewrite (absorb_iter k) by exact Ld; rewrite Hc, <- iter_add by exact Lm; reflexivity | ].
  apply join_len.
Qed.

Lemma updates_fed chunks : forall m c,
  fed m c -> hw_auto_padding (hw c) = false ->
  Forall (fun d => d <> [] /\ (exists k, length d = (64 * k)%nat) /\ Nlen d < 2 ^ 30) chunks ->
  8 * Nlen (m ++ concat chunks) < 2 ^ 64 ->
  fed (m ++ concat chunks) (updates c chunks) /\ hw_auto_padding (hw (updates c chunks)) = false.
Proof.
  induction chunks as [ | d chunks IH]; intros m c Hf Ha HF Hl; cbn [concat updates fold_left] in *.
  - rewrite app_nil_r. auto.
  - inversion HF as [ | ? ? (H1 & H2 & H3) HF']; subst.
    assert (Hl' : 8 * Nlen (m ++ d) < 2 ^ 64).
    { unfold Nlen in *. rewrite !app_length in *. set (x := 2 ^ 64) in *. lia. }
    destruct (update_fed m c d Hf Ha H1 H2 H3 Hl') as [F A].
    rewrite app_assoc in Hl |- *. exact (IH (m ++ d) _ F A HF' Hl).
Qed.

(** The last chunk. *)
Lemma update_last m c data :
  fed m c -> Nlen data < 2 ^ 30 -> 8 * Nlen (m ++ data) < 2 ^ 64 ->
  Spec.is_sha256 (m ++ data) (fst (finalize_and_clear (update c data true))).
Proof.
  intros (n & Lm & Hc & Ht) B Hl.
  pose proof (small_len _ Hl) as Hs.
  pose proof (padding_spec (m ++ data)) as P.
  destruct (padded_len _ _ P) as (N & LN).
  assert (G : hash_ctx (update c data true) = iter N H ((m ++ data) ++ padding (Nlen (m ++ data)))).
  { assert (Hm : Nlen m < 2 ^ 64).
    { unfold Nlen in *. rewrite app_length in Hs. set (y := 2 ^ 64) in *. lia. }
    assert (T : absorb (iter n H m) (data ++ padding (Nlen (m ++ data))) =
                iter N H ((m ++ data) ++ padding (Nlen (m ++ data)))).
    { rewrite <- app_assoc in LN |- *. set (tail := data ++ padding (Nlen (m ++ data))) in *.
      rewrite app_length in LN.
      rewrite (absorb_iter (N - n)) by lia. rewrite <- iter_add by exact Lm.
      f_equal. lia. }
    destruct data as [ | x data].
    - unfold update, do_pad, hw_len. cbn [hash_ctx hw_hash hw_msb hw_lsb].
      rewrite app_nil_r in T |- *. rewrite Ht, split_len by exact Hm. rewrite Hc. exact T.
    - unfold update. set (d := x :: data) in *. rewrite transfer_all by exact B.
      unfold dma, hw_len. cbn [hw_auto_padding hw_msb hw_lsb hw_hash hash_ctx].
      rewrite Ht, split_len by exact Hm.
      replace (Nlen m + Nlen d) with (Nlen (m ++ d)) by (unfold Nlen; rewrite app_length; lia).
      rewrite (N.mod_small _ (2 ^ 64)) by exact Hs. rewrite Hc. exact T. }
  cbn [finalize_and_clear fst]. rewrite G. exact (iter_sha256 _ _ N P LN).
Qed.
