(** Lemmas on AES-CBC, on the CBOR records the authenticator writes for itself, and on sealed
    credential IDs. *)
From Verif Require Import Base Facts Hid.Model U2f.Model Cbor.Model Cbor.Spec Cbor.Proofs Cbor.Proofs2 Cbor.Proofs3
  Cbor.Proofs4 Cbor.Props Ctap.Crypto Ctap.Types Ctap.Machine Ctap.Commands Ctap.Parse Ctap.System Ctap.Logic.
From Coq Require Import List Lia.
Import ListNotations.
Open Scope list_scope.

(** ** AES-CBC *)

Lemma xor_len a b : length (xor_block a b) = Nat.min (length a) (length b).
Proof. unfold xor_block. now rewrite map_length, combine_length. Qed.

Lemma xor_xor a : forall b, (length a <= length b)%nat -> xor_block (xor_block a b) b = a.
Proof.
  induction a as [ | x a IH]; intros [ | y b] H; cbn in H; try lia; try reflexivity.
  unfold xor_block in *. cbn. rewrite IH by lia. f_equal.
  now rewrite N.lxor_assoc, N.lxor_nilpotent, N.lxor_0_r.
Qed.

Lemma lxor_byte a b : byte_ok a = true -> byte_ok b = true -> byte_ok (N.lxor a b) = true.
Proof.
  unfold byte_ok. intros Ha Hb. apply N.ltb_lt in Ha, Hb. apply N.ltb_lt.
  assert (Q : forall x, (x < 256)%N <-> N.shiftr x 8 = 0%N).
  { intro x. rewrite N.shiftr_div_pow2. change (2 ^ 8)%N with 256%N. split; intro H.
    - now apply N.div_small.
    - apply N.div_small_iff in H; [exact H | lia]. }
  apply Q. rewrite N.shiftr_lxor. apply Q in Ha, Hb. now rewrite Ha, Hb.
Qed.

Lemma xor_ok a : forall b, bytes_ok a = true -> bytes_ok b = true -> bytes_ok (xor_block a b) = true.
Proof.
  induction a as [ | x a IH]; intros [ | y b] Ha Hb; try reflexivity.
  cbn in Ha, Hb. apply andb_true_iff in Ha as [Ha1 Ha2], Hb as [Hb1 Hb2].
  unfold xor_block in *. cbn. rewrite lxor_byte by assumption. now apply IH.
Qed.

Lemma bytes_ok_firstn n l : bytes_ok l = true -> bytes_ok (firstn n l) = true.
Proof.
  intro H. rewrite <- (firstn_skipn n l), bytes_ok_app in H. now apply andb_true_iff in H.
Qed.
Lemma bytes_ok_skipn n l : bytes_ok l = true -> bytes_ok (skipn n l) = true.
Proof.
  intro H. rewrite <- (firstn_skipn n l), bytes_ok_app in H. now apply andb_true_iff in H.
Qed.

Section CbcFacts.
  Variable c : prims.
  Hypothesis ok : prims_ok c.

  Lemma enc_block_len k a iv :
    length a = 16%nat -> length iv = 16%nat -> length (aes_enc c k (xor_block a iv)) = 16%nat.
  Proof. intros Ha Hi. apply (ok_enc_len c ok). rewrite xor_len. lia. Qed.

  Lemma cbc_enc_len k : forall n iv l,
    length l = (16 * n)%nat -> length iv = 16%nat -> length (cbc_enc c k iv n l) = (16 * n)%nat.
  Proof.
    induction n as [ | n IH]; intros iv l Hl Hi; [reflexivity | ]. cbn [cbc_enc].
    assert (F : length (firstn 16 l) = 16%nat) by (rewrite firstn_length; lia).
    rewrite app_length, enc_block_len, IH; auto; try lia.
    - rewrite skipn_length. lia.
    - now apply enc_block_len.
  Qed.

  Lemma cbc_enc_ok k : forall n iv l,
    length l = (16 * n)%nat -> length iv = 16%nat -> bytes_ok (cbc_enc c k iv n l) = true.
  Proof.
    induction n as [ | n IH]; intros iv l Hl Hi; [reflexivity | ]. cbn [cbc_enc].
    assert (F : length (firstn 16 l) = 16%nat) by (rewrite firstn_length; lia).
    rewrite bytes_ok_app, (ok_enc_bytes c ok) by (rewrite xor_len; lia). apply IH.
    - rewrite skipn_length. lia.
    - now apply enc_block_len.
  Qed.

  Lemma cbc_dec_enc k : forall n iv l,
    length l = (16 * n)%nat -> bytes_ok l = true -> length iv = 16%nat -> bytes_ok iv = true ->
    cbc_dec c k iv n (cbc_enc c k iv n l) = l.
  Proof.
    induction n as [ | n IH]; intros iv l Hl Ol Hi Oi.
    - now destruct l.
    - cbn [cbc_enc cbc_dec]. set (a := firstn 16 l).
      assert (F : length a = 16%nat) by (unfold a; rewrite firstn_length; lia).
      assert (L : length (aes_enc c k (xor_block a iv)) = 16%nat) by now apply enc_block_len.
      rewrite firstn_app, L, Nat.sub_diag, firstn_O, app_nil_r, firstn_all2 by lia.
      rewrite skipn_app, L, Nat.sub_diag, skipn_O, skipn_all2 by lia. cbn [app].
      rewrite (ok_dec_enc c ok), xor_xor, IH; try lia.
      + apply firstn_skipn.
      + rewrite skipn_length. lia.
      + now apply bytes_ok_skipn.
      + apply (ok_enc_bytes c ok). rewrite xor_len. lia.
      + rewrite xor_len. lia.
      + apply xor_ok; [now apply bytes_ok_firstn | exact Oi].
  Qed.

  (** Block [i] of a string of blocks. *)
  Definition block (i : nat) (l : bytes) : bytes := firstn 16 (skipn (16 * i) l).

  Lemma block_app i a b : length a = 16%nat -> block (S i) (a ++ b) = block i b.
  Proof.
    intro H. unfold block. replace (16 * S i)%nat with (16 + 16 * i)%nat by lia.
    rewrite skipn_app, H. rewrite (skipn_all2 a) by lia. cbn [app]. now replace (16 + 16 * i - 16)%nat with (16 * i)%nat by lia.
  Qed.
  Lemma cbc_enc_block k : forall n iv l i,
    length l = (16 * n)%nat -> length iv = 16%nat -> (i < n)%nat ->
    block i (cbc_enc c k iv n l) =
    aes_enc c k (xor_block (block i l)
      (match i with O => iv | S j => block j (cbc_enc c k iv n l) end)).
  Proof.
    induction n as [ | n IH]; intros iv l i Hl Hi Hn; [lia | ].
    cbn [cbc_enc]. set (a := firstn 16 l).
    assert (F : length a = 16%nat) by (unfold a; rewrite firstn_length; lia).
    set (b := aes_enc c k (xor_block a iv)).
    assert (L : length b = 16%nat) by now apply enc_block_len.
    assert (B0 : forall x, block 0 (b ++ x) = b).
    { intro x. unfold block. rewrite Nat.mul_0_r, skipn_O, firstn_app, L, Nat.sub_diag, firstn_O, app_nil_r.
      apply firstn_all2. lia. }
    destruct i as [ | i].
    - now rewrite B0.
    - rewrite block_app by exact L.
      rewrite IH by (rewrite ?skipn_length; auto; lia).
      assert (E : block i (skipn 16 l) = block (S i) l).
      { rewrite <- (firstn_skipn 16 l) at 2. now rewrite block_app. }
      rewrite E. f_equal. f_equal. destruct i as [ | j]; [now rewrite B0 | now rewrite block_app].
  Qed.
End CbcFacts.

Lemma mul_blocks n : (n mod 16 = 0 -> n = 16 * (n / 16))%nat.
Proof. intro H. rewrite (Nat.div_mod n 16) at 1 by lia. lia. Qed.

Lemma cbc_encrypt_some c k iv emb p :
  (length p mod 16 = 0)%nat ->
  cbc_encrypt c k iv emb p =
  Some ((if emb then iv else []) ++ cbc_enc c k (if emb then iv else zero_iv) (length p / 16) p).
Proof. intro H. unfold cbc_encrypt. rewrite H. now destruct emb. Qed.

Lemma cbc_roundtrip c k iv emb p :
  prims_ok c -> length iv = 16%nat -> bytes_ok iv = true -> bytes_ok p = true -> (length p mod 16 = 0)%nat ->
  exists ct, cbc_encrypt c k iv emb p = Some ct /\
    length ct = (length p + if emb then 16 else 0)%nat /\ bytes_ok ct = true /\
    cbc_decrypt c k emb ct = Some p.
Proof.
  intros ok Hi Oi Op Hp. rewrite (cbc_encrypt_some c k iv emb p Hp). eexists. split; [reflexivity | ].
  pose proof (mul_blocks _ Hp) as Hq. set (n := (length p / 16)%nat) in *.
  assert (Z : length zero_iv = 16%nat) by reflexivity.
  assert (L : length (cbc_enc c k (if emb then iv else zero_iv) n p) = (16 * n)%nat)
    by (apply cbc_enc_len; destruct emb; auto).
  split; [rewrite app_length, L; destruct emb; cbn [length]; lia | ].
  split.
  { rewrite bytes_ok_app, cbc_enc_ok by (destruct emb; auto). destruct emb; [now rewrite Oi | reflexivity]. }
  unfold cbc_decrypt. rewrite app_length, L.
  destruct emb; cbn [app length andb].
  - rewrite Hi. replace (16 + 16 * n)%nat with (0 + (1 + n) * 16)%nat at 1 by lia.
    rewrite Nat.mod_add by lia. cbn [Nat.eqb negb orb Nat.modulo].
    rewrite firstn_app, skipn_app, Hi, Nat.sub_diag, firstn_O, app_nil_r, skipn_O, firstn_all2, skipn_all2 by lia.
    cbn [app]. rewrite L, Nat.mul_comm, Nat.div_mul by lia.
    replace (16 + n * 16 =? 0)%nat with false by (symmetry; apply Nat.eqb_neq; lia). cbn. f_equal. apply cbc_dec_enc; auto.
  - rewrite Nat.add_0_l, (Nat.mul_comm 16 n), Nat.mod_mul, Nat.div_mul by lia. cbn. f_equal. apply cbc_dec_enc; auto.
Qed.

(** ** Records with optional fields *)

Definition fields (l : list (N * option value)) : list (value * option value) :=
  map (fun p => (VUnsigned (fst p), snd p)) l.
Fixpoint increasing (l : list N) : bool :=
  match l with
  | a :: ((b :: _) as l') => (a <? b)%N && increasing l'
  | _ => true
  end.

Lemma increasing_tail a l : increasing (a :: l) = true -> increasing l = true.
Proof. destruct l; [reflexivity | ]. cbn [increasing]. intro H. now apply andb_true_iff in H. Qed.
Lemma increasing_lt a l : increasing (a :: l) = true -> Forall (fun b => (a < b)%N) l.
Proof.
  revert a. induction l as [ | b l IH]; intros a H; constructor.
  - cbn [increasing] in H. apply andb_true_iff in H as [H _]. now apply N.ltb_lt.
  - pose proof (increasing_tail _ _ H) as H2. cbn [increasing] in H. apply andb_true_iff in H as [H _].
    apply N.ltb_lt in H. eapply Forall_impl; [ | exact (IH b H2)]. intros; cbn in *; lia.
Qed.

Lemma present_keys l a : Forall (fun b => (a < b)%N) (map fst l) ->
  Forall (fun p : value * value => exists b, fst p = VUnsigned b /\ (a < b)%N) (present (fields l)).
Proof.
  induction l as [ | [k [v | ]] l IH]; cbn; intro H; inversion H; subst; auto.
  constructor; [ | auto]. cbn. eauto.
Qed.

Lemma present_sorted l : increasing (map fst l) = true -> sorted_cmp (present (fields l)).
Proof.
  induction l as [ | [k o] l IH]; intro H; [exact I | ].
  pose proof (increasing_lt _ _ H) as F. cbn [map fst] in H, F. apply increasing_tail in H.
  specialize (IH H). destruct o as [v | ]; cbn [fields map present fst snd]; [ | exact IH].
  fold (fields l). destruct (present (fields l)) eqn:E; [exact I | ]. cbn [sorted_cmp fst]. split; [ | exact IH].
  pose proof (present_keys l k F) as P. rewrite E in P. inversion P as [ | ? ? (b & Q1 & Q2)]; subst.
  rewrite Q1. cbn. now apply N.compare_lt_iff.
Qed.

Lemma destructure_present l :
  increasing (map fst l) = true ->
  destructure (present (fields l)) (map VUnsigned (map fst l)) = map snd l.
Proof.
  induction l as [ | [k o] l IH]; intro H; [reflexivity | ].
  pose proof (increasing_lt _ _ H) as F. cbn [map fst] in H, F. apply increasing_tail in H.
  specialize (IH H). pose proof (present_keys l k F) as P.
  destruct o as [v | ]; cbn [fields map present fst snd destructure]; fold (fields l).
  - cbn [peek_value value_cmp]. rewrite N.compare_refl. now rewrite IH.
  - destruct (present (fields l)) as [ | [k2 v2] m] eqn:E.
    + cbn [peek_value]. rewrite <- IH. reflexivity.
    + cbn [peek_value]. inversion P as [ | ? ? (b & Q1 & Q2) ? E1]; subst. cbn [fst] in Q1. subst k2.
      cbn [value_cmp]. apply N.compare_gt_iff in Q2. rewrite Q2. now rewrite IH.
Qed.

Lemma present_in l k v : In (k, v) (present (fields l)) -> exists n, k = VUnsigned n /\ In (n, Some v) l.
Proof.
  induction l as [ | [n [x | ]] l IH]; cbn; [tauto | | ].
  - intros [H | H]; [inversion H; subst; eauto | ]. destruct (IH H) as (m & -> & I). eauto.
  - intro H. destruct (IH H) as (m & -> & I). eauto.
Qed.

Lemma present_length l : (length (present (fields l)) <= length l)%nat.
Proof.
  induction l as [ | [n [x | ]] l IH]; [cbn; lia | | ]; cbn [fields map present fst snd length]; fold (fields l); lia.
Qed.

(** A record with well-formed fields under small increasing keys is a well-formed value. *)
Lemma record_ok W l :
  (W <= 64)%N -> increasing (map fst l) = true -> (Nlen l < 2 ^ 64)%N ->
  Forall (fun p : N * option value => (fst p < 2 ^ 64)%N /\ forall v, snd p = Some v -> value_ok W v) l ->
  map_options (fields l) = VMap (present (fields l)) /\ value_ok W (VMap (present (fields l))).
Proof.
  intros HW Hi Hl Hf. pose proof (present_sorted l Hi) as S. unfold map_options. rewrite map_sort_sorted by exact S.
  split; [reflexivity | ].
  assert (F : Forall (fun p => value_ok W (fst p) /\ value_ok W (snd p)) (present (fields l))).
  { apply Forall_forall. intros [k v] Hin. destruct (present_in _ _ _ Hin) as (n & -> & I).
    rewrite Forall_forall in Hf. destruct (Hf _ I) as [Q1 Q2]. cbn in *. split; [now constructor | auto]. }
  constructor; [ | exact F | now apply (sorted_cmp_keys W HW)].
  pose proof (present_length l). unfold Nlen in *. lia.
Qed.

(** Encodings consist of bytes. *)
Lemma head_ok m n : (m < 8)%N -> bytes_ok (Spec.head m n) = true.
Proof.
  intro Hm. unfold Spec.head.
  destruct (N.ltb_spec n 24); [cbn; unfold byte_ok; rewrite andb_true_r; apply N.ltb_lt; lia | ].
  repeat match goal with |- context [N.ltb ?a ?b] => destruct (N.ltb a b) end;
    cbn [bytes_ok forallb]; fold bytes_ok; fold (bytes_ok); unfold byte_ok at 1;
    (replace (_ <? 256)%N with true by (symmetry; apply N.ltb_lt; lia)); apply be_bytes_ok.
Qed.
Lemma enc_ok W v : value_ok W v -> bytes_ok (enc v) = true.
Proof.
  induction v as [n | z | b | t | a IH | m IH | t w IH | s] using value_ind'; intro H; inversion H; subst; cbn [enc];
    rewrite ?bytes_ok_app, ?head_ok by lia; auto.
  - cbn [andb]. clear H H1. induction a as [ | x a IHa]; [reflexivity | ]. inversion IH; inversion H2; subst.
    cbn [flat_map]. rewrite bytes_ok_app. apply andb_true_iff. split; auto.
  - cbn [andb]. match goal with F : Forall (fun p => value_ok W (fst p) /\ _) m |- _ => rename F into V end.
    clear - IH V. induction m as [ | x a IHa]; [reflexivity | ].
    inversion IH as [ | ? ? [P1 P2]]; inversion V as [ | ? ? [Q1 Q2]]; subst.
    cbn [flat_map]. rewrite !bytes_ok_app. repeat (apply andb_true_iff; split); auto.
  - destruct s; reflexivity.
Qed.

(** ** Padding *)

Lemma add_padding_inv d p : add_padding d = Some p ->
  exists n, (1 <= n <= 191)%nat /\ (length d + n = 192)%nat /\ p = d ++ repeat (N.of_nat n) n.
Proof.
  unfold add_padding. intro H.
  destruct (Nat.eqb_spec (length d) 0) as [E0 | E0]; [discriminate H | ].
  destruct (Nat.ltb_spec MAX_PADDING_LENGTH (length d)) as [E1 | E1]; [discriminate H | ]. cbn [orb] in H.
  exists (MAX_PADDING_LENGTH - (length d - 1))%nat. unfold MAX_PADDING_LENGTH in *.
  split; [lia | ]. split; [lia | congruence].
Qed.
Lemma padding_roundtrip d p : add_padding d = Some p -> length p = 192%nat /\ remove_padding p = Some d.
Proof.
  intro H. destruct (add_padding_inv d p H) as (n & Hn & Hd & ->). clear H.
  assert (L : length (d ++ repeat (N.of_nat n) n) = 192%nat) by (rewrite app_length, repeat_length; lia).
  split; [exact L | ]. unfold remove_padding. rewrite L. change (Nat.eqb 192 (MAX_PADDING_LENGTH + 1)) with true. cbn [negb].
  assert (La : List.last (d ++ repeat (N.of_nat n) n) 0%N = N.of_nat n).
  { destruct n as [ | m]; [lia | ]. replace (S m) with (m + 1)%nat at 2 by lia. rewrite repeat_app, app_assoc.
    cbn [repeat]. apply last_last. }
  rewrite La. rewrite Nnat.Nat2N.id. change (N.of_nat MAX_PADDING_LENGTH) with 191%N.
  destruct (N.eqb_spec (N.of_nat n) 0); [lia | ]. destruct (N.ltb_spec 191 (N.of_nat n)); [lia | ].
  cbn [orb]. replace (192 - n)%nat with (length d) by lia.
  rewrite skipn_app, firstn_app, Nat.sub_diag, skipn_all, skipn_O, firstn_O, firstn_all, app_nil_r. cbn [app].
  assert (A : forall m, forallb (fun x => (x =? N.of_nat n)%N) (repeat (N.of_nat n) m) = true).
  { induction m; [reflexivity | ]. cbn. now rewrite N.eqb_refl. }
  now rewrite A.
Qed.

(** ** Keys, credentials and sealed IDs *)

(** What a private key, a stored credential and a sealed credential contain, as the types of the
    source guarantee: 32 secret bytes, an algorithm that is compiled in, strings of bytes that are
    UTF-8 where the source has str, and sizes below the address space. *)
Definition key_ok (ed25519 : bool) (k : priv) : Prop :=
  length (pk_bytes k) = 32%nat /\ bytes_ok (pk_bytes k) = true /\ (pk_alg k = Eddsa -> ed25519 = true).
Definition blob_ok (W : N) (b : bytes) : Prop := bytes_ok b = true /\ (Nlen b < 2 ^ W)%N.
Definition text_ok (W : N) (t : bytes) : Prop := blob_ok W t /\ utf8_valid t = true.
Definition opt_ok {A} (P : A -> Prop) (o : option A) : Prop := forall a, o = Some a -> P a.
Record cred_ok (W : N) (ed25519 : bool) (r : cred) : Prop := mkCredOk {
  co_id : blob_ok W (cr_id r);
  co_key : key_ok ed25519 (cr_key r);
  co_rp : text_ok W (cr_rp r);
  co_user : blob_ok W (cr_user r);
  co_display : opt_ok (text_ok W) (cr_display r);
  co_order : (cr_order r < 2 ^ 64)%N;
  co_name : opt_ok (text_ok W) (cr_name r);
  co_icon : opt_ok (text_ok W) (cr_icon r);
  co_blob : opt_ok (blob_ok W) (cr_blob r);
  co_lbkey : opt_ok (blob_ok W) (cr_lbkey r)
}.

Section Records.
  Variable c : prims.
  Variable ed25519 : bool.
  Variable W : N.
  Hypothesis ok : prims_ok c.
  Hypothesis HW : (6 <= W <= 64)%N.

  Lemma pow_W : (64 <= 2 ^ W)%N.
  Proof. change 64%N with (2 ^ 6)%N. apply N.pow_le_mono_r; lia. Qed.

  Lemma priv_roundtrip wk iv k :
    length iv = 16%nat -> bytes_ok iv = true -> key_ok ed25519 k ->
    exists b, priv_to_cbor c wk iv k = Ok (VArray [vint (alg_code (pk_alg k)); VBytes b]) /\
      length b = 48%nat /\
      value_ok W (VArray [vint (alg_code (pk_alg k)); VBytes b]) /\
      priv_of_cbor c ed25519 wk (VArray [vint (alg_code (pk_alg k)); VBytes b]) = Ok k.
  Proof.
    intros Hi Oi (L & O & A). unfold priv_to_cbor, priv_of_cbor.
    destruct (cbc_roundtrip c wk iv true (pk_bytes k) ok Hi Oi O) as (ct & E & Lc & Oc & D).
    { now rewrite L. }
    rewrite E. exists ct. split; [reflexivity | ]. rewrite L in Lc. split; [exact Lc | ].
    pose proof pow_W as P. split.
    - constructor; [cbn; lia | ]. constructor; [ | constructor; [ | constructor]].
      + destruct (pk_alg k); cbn; constructor; lia.
      + constructor; [exact Oc | ]. unfold Nlen. rewrite Lc. lia.
    - cbn [extract_array rbind extract_byte_string]. rewrite D. destruct k as [[] kb]; cbn [pk_alg pk_bytes alg_code] in *.
      + cbn. now rewrite L.
      + rewrite A by reflexivity. cbn. now rewrite L.
  Qed.

  (** data_formats.rs 634-712: written and read credential records. *)
  Definition cred_fields (r : cred) (k : value) : list (N * option value) :=
    [ (0, Some (VBytes (cr_id r))); (2, Some (VText (cr_rp r))); (3, Some (VBytes (cr_user r)));
      (4, option_map VText (cr_display r)); (6, option_map policy_to_cbor (cr_policy r));
      (7, Some (VUnsigned (cr_order r))); (8, option_map VText (cr_name r));
      (9, option_map VText (cr_icon r)); (10, option_map VBytes (cr_blob r));
      (11, option_map VBytes (cr_lbkey r)); (12, Some k) ]%N.

  Lemma policy_rt o : map_opt policy_of_cbor (option_map policy_to_cbor o) = Ok o.
  Proof. now destruct o as [[] | ]. Qed.
  Lemma text_rt o : map_opt extract_text_string (option_map VText o) = Ok o.
  Proof. now destruct o. Qed.
  Lemma bytes_rt o : map_opt extract_byte_string (option_map VBytes o) = Ok o.
  Proof. now destruct o. Qed.

  Lemma depth_record l d : (0 <= d)%Z ->
    Forall (fun p : N * option value => forall v, snd p = Some v -> (depth v <= d)%Z) l ->
    (depth (VMap (present (fields l))) <= d + 1)%Z.
  Proof.
    intros Hd H. cbn [depth]. induction l as [ | [n o] l IH]; [cbn; lia | ].
    inversion H as [ | ? ? Hv Hl]; subst. specialize (IH Hl).
    destruct o as [v | ]; cbn [fields map present fst snd]; fold (fields l); [ | exact IH].
    cbn [map max_list fold_right fst snd depth] in *. specialize (Hv v eq_refl). fold (max_list) in *.
    unfold max_list in IH. lia.
  Qed.
  Lemma write_record l d : (0 <= d <= 3)%Z ->
    increasing (map fst l) = true -> (Nlen l < 2 ^ 64)%N ->
    Forall (fun p : N * option value => (fst p < 2 ^ 64)%N /\
      forall v, snd p = Some v -> value_ok W v /\ (depth v <= d)%Z) l ->
    exists b, cbor_write (map_options (fields l)) = Some b /\
      cbor_read W b = Some (VMap (present (fields l))) /\
      b = enc (VMap (present (fields l))).
  Proof.
    intros Hd Hi Hl Hf.
    destruct (record_ok W l ltac:(lia) Hi Hl) as [E1 E2].
    { eapply Forall_impl; [ | exact Hf]. intros p (A & B). split; [exact A | ]. intros v Hv. now apply B. }
    rewrite E1. unfold cbor_write, cbor_read, MAX_CBOR_NESTING_DEPTH.
    destruct (C01_writer_accepts W _ (Some 4%Z) ltac:(lia) E2) as [A _].
    assert (D : (depth (VMap (present (fields l))) <= d + 1)%Z).
    { apply depth_record; [lia | ]. eapply Forall_impl; [ | exact Hf]. intros p (_ & B) v Hv. now apply B. }
    assert (Wi : within (VMap (present (fields l))) (Some 4%Z)) by (unfold within; lia).
    specialize (A Wi). rewrite A. exists (enc (VMap (present (fields l)))). split; [reflexivity | ].
    destruct (C01_roundtrip W _ _ _ ltac:(lia) E2 A) as [R _]. now rewrite R.
  Qed.

  Lemma opt_value (A : Type) (f : A -> value) (P : A -> Prop) o v :
    opt_ok P o -> (forall a, P a -> value_ok W (f a) /\ depth (f a) = 0%Z) ->
    option_map f o = Some v -> value_ok W v /\ (depth v <= 1)%Z.
  Proof.
    intros H1 H2 H3. destruct o as [a | ]; [ | discriminate]. injection H3 as <-.
    destruct (H2 a (H1 a eq_refl)) as [Q ->]. split; [exact Q | lia].
  Qed.
  Lemma value_text t : text_ok W t -> value_ok W (VText t) /\ depth (VText t) = 0%Z.
  Proof. intros [[] ?]. split; [now constructor | reflexivity]. Qed.
  Lemma value_bytes b : blob_ok W b -> value_ok W (VBytes b) /\ depth (VBytes b) = 0%Z.
  Proof. intros []. split; [now constructor | reflexivity]. Qed.
  Lemma value_policy p : value_ok W (policy_to_cbor p) /\ depth (policy_to_cbor p) = 0%Z.
  Proof. destruct p; split; try reflexivity; constructor; cbn; lia. Qed.

  Lemma cred_roundtrip wk iv r :
    length iv = 16%nat -> bytes_ok iv = true -> cred_ok W ed25519 r ->
    exists b, serialize_credential c wk iv r = Ok b /\ deserialize_credential c ed25519 W wk b = Some r.
  Proof.
    intros Hi Oi [I K R U D O N Ic B Lb]. unfold serialize_credential, cred_to_cbor.
    destruct (priv_roundtrip wk iv (cr_key r) Hi Oi K) as (kb & Ek & Lk & Vk & Dk).
    rewrite Ek. cbn [rbind]. set (k := VArray _) in *.
    destruct (write_record (cred_fields r k) 1%Z) as (b & Ew & Er & _); [lia | reflexivity | reflexivity | | ].
    - assert (Dk1 : (depth k <= 1)%Z) by (unfold k; destruct (pk_alg (cr_key r)); apply Z.le_refl).
      unfold cred_fields. repeat apply Forall_cons; try apply Forall_nil; cbn [fst snd]; (split; [reflexivity | ]); intros v Hv.
      + injection Hv as <-. destruct (value_bytes _ I) as [Q ->]. split; [exact Q | lia].
      + injection Hv as <-. destruct (value_text _ R) as [Q ->]. split; [exact Q | lia].
      + injection Hv as <-. destruct (value_bytes _ U) as [Q ->]. split; [exact Q | lia].
      + exact (opt_value _ _ _ _ _ D value_text Hv).
      + refine (opt_value _ _ (fun _ => True) _ _ _ (fun p _ => value_policy p) Hv). now intros ? ?.
      + injection Hv as <-. split; [now constructor | cbn; lia].
      + exact (opt_value _ _ _ _ _ N value_text Hv).
      + exact (opt_value _ _ _ _ _ Ic value_text Hv).
      + exact (opt_value _ _ _ _ _ B value_bytes Hv).
      + exact (opt_value _ _ _ _ _ Lb value_bytes Hv).
      + injection Hv as <-. auto.
    - exists b. change (map_options _) with (map_options (fields (cred_fields r k))) at 1. rewrite Ew.
      split; [reflexivity | ]. unfold deserialize_credential. rewrite Er. unfold cred_of_cbor. cbn [extract_map rbind].
      change [0; 2; 3; 4; 6; 7; 8; 9; 10; 11; 12]%N with (map fst (cred_fields r k)).
      rewrite destructure_present by reflexivity. cbn [cred_fields map snd ok_or_missing rbind extract_byte_string extract_text_string].
      rewrite !text_rt, policy_rt, !bytes_rt. cbn [extract_unsigned rbind]. rewrite Dk. cbn [rbind]. now destruct r.
  Qed.

  (** What can be sealed. *)
  Record source_ok (s : source) : Prop := mkSourceOk {
    so_key_ok : key_ok ed25519 (so_key s);
    so_hash_ok : length (so_rp_hash s) = 32%nat /\ bytes_ok (so_rp_hash s) = true;
    so_blob_ok : opt_ok (blob_ok W) (so_blob s)
  }.
  Definition source_fields (s : source) (k : value) : list (N * option value) :=
    [ (0, Some k); (1, Some (VBytes (so_rp_hash s))); (2, option_map policy_to_cbor (so_policy s));
      (3, option_map VBytes (so_blob s)) ]%N.

  Lemma wrap_inv m iv1 iv2 s id :
    length iv1 = 16%nat -> bytes_ok iv1 = true -> length iv2 = 16%nat -> bytes_ok iv2 = true -> source_ok s ->
    wrap_pure c m iv1 iv2 s = Some id ->
    exists body, id = body ++ hmac c (mk_authentication m) body /\ length body = 209%nat /\ hd 0%N body = 1%N /\
      decrypt_credential_id c ed25519 W m (skipn 1 body) = Some (Some s).
  Proof.
    intros Hi Oi Hi2 Oi2 [K [H1 H2] B] E. unfold wrap_pure in E.
    destruct (priv_roundtrip (mk_encryption m) iv1 (so_key s) Hi Oi K) as (kb & Ek & Lk & Vk & Dk).
    rewrite Ek in E. set (k := VArray _) in *.
    assert (F : Forall (fun p : N * option value => (fst p < 2 ^ 64)%N /\
      forall v, snd p = Some v -> value_ok W v /\ (depth v <= 1)%Z) (source_fields s k)).
    { assert (Dk1 : (depth k <= 1)%Z) by (unfold k; destruct (pk_alg (so_key s)); apply Z.le_refl).
      unfold source_fields. repeat apply Forall_cons; try apply Forall_nil; cbn [fst snd]; (split; [reflexivity | ]); intros v Hv.
      + injection Hv as <-. auto.
      + injection Hv as <-. split; [ | cbn; lia]. constructor; [exact H2 | ]. unfold Nlen. rewrite H1. pose proof pow_W. lia.
      + refine (opt_value _ _ (fun _ => True) _ _ _ (fun p _ => value_policy p) Hv). now intros ? ?.
      + exact (opt_value _ _ _ _ _ B value_bytes Hv). }
    destruct (write_record (source_fields s k) 1%Z) as (b & Ew & Er & Eb); [lia | reflexivity | reflexivity | exact F | ].
    change (source_to_cbor k s) with (map_options (fields (source_fields s k))) in E. rewrite Ew in E.
    destruct (add_padding b) as [p | ] eqn:Ep; [ | discriminate E].
    destruct (padding_roundtrip b p Ep) as [Lp Up].
    assert (Op : bytes_ok p = true).
    { destruct (add_padding_inv b p Ep) as (n & Hn & _ & ->). rewrite bytes_ok_app. apply andb_true_iff. split.
      - rewrite Eb. apply (enc_ok W). apply record_ok; [lia | reflexivity | reflexivity | ].
        eapply Forall_impl; [ | exact F]. intros q (A & V). split; [exact A | ]. intros v Hv. now apply V.
      - assert (Z : forall q u, (q <= 191)%nat -> bytes_ok (repeat (N.of_nat q) u) = true).
        { intros q u Hq. induction u; [reflexivity | ]. cbn. unfold byte_ok at 1.
          replace (N.of_nat q <? 256)%N with true by (symmetry; apply N.ltb_lt; lia). exact IHu. }
        apply Z. lia. }
    destruct (cbc_roundtrip c (mk_encryption m) iv2 true p ok Hi2 Oi2 Op) as (ct & Ec & Lc & _ & Dc); [now rewrite Lp | ].
    rewrite Ec in E. injection E as <-. exists (CBOR_CREDENTIAL_ID_VERSION :: ct). split; [reflexivity | ].
    rewrite Lp in Lc. split; [cbn [length]; lia | ]. split; [reflexivity | ].
    cbn [skipn]. unfold decrypt_credential_id. rewrite Dc, Up, Er.
    change [0; 1; 2; 3]%N with (map fst (source_fields s k)).
    rewrite destructure_present by reflexivity. cbn [source_fields map snd].
    rewrite Dk. cbn [rbind extract_byte_string]. rewrite H1. cbn [Nat.eqb negb].
    rewrite policy_rt, bytes_rt. cbn. now destruct s.
  Qed.

  Ltac heads :=
    repeat match goal with
    | |- context [length (Spec.head ?a ?b)] =>
        let n := eval vm_compute in (length (Spec.head a b)) in
        lazymatch n with
        | S _ => progress change (length (Spec.head a b)) with n
        end
    | |- context [length (enc (vint ?z))] => change (length (enc (vint z))) with 1%nat
    end.
  Lemma head_short m n : (n < 256)%N -> (length (Spec.head m n) <= 2)%nat.
  Proof.
    intro H. unfold Spec.head. destruct (n <? 24)%N; [cbn; lia | ].
    change (2 ^ 8)%N with 256%N. destruct (N.ltb_spec n 256); [cbn; lia | lia].
  Qed.

  Lemma record_len l :
    Forall (fun p : N * option value => (fst p < 256)%N) l -> (Nlen l < 256)%N ->
    (length (enc (VMap (present (fields l)))) <=
     2 + fold_right (fun (p : N * option value) n => (2 + match snd p with Some v => length (enc v) | None => 0 end + n)%nat) 0%nat l)%nat.
  Proof.
    intros Hf Hl. cbn [enc]. rewrite app_length. apply Nat.add_le_mono.
    { apply head_short. pose proof (present_length l). unfold Nlen in *. lia. }
    clear Hl. induction l as [ | [n o] l IH]; [cbn; lia | ]. inversion Hf; subst. specialize (IH H2).
    cbn [fst] in *. cbn [fold_right snd]. destruct o as [v | ]; cbn [fields map present fst snd flat_map]; fold (fields l); [ | lia].
    rewrite !app_length. cbn [enc]. pose proof (head_short 0 n H1). lia.
  Qed.

  Lemma wrap_total m iv1 iv2 s :
    length iv1 = 16%nat -> bytes_ok iv1 = true -> length iv2 = 16%nat -> bytes_ok iv2 = true -> source_ok s ->
    opt_ok (fun b : bytes => (length b <= 64)%nat) (so_blob s) ->
    exists id, wrap_pure c m iv1 iv2 s = Some id.
  Proof.
    intros Hi Oi Hi2 Oi2 [K [H1 H2] B] Hb. unfold wrap_pure.
    destruct (priv_roundtrip (mk_encryption m) iv1 (so_key s) Hi Oi K) as (kb & Ek & Lk & Vk & Dk).
    rewrite Ek. set (k := VArray _) in *.
    assert (F : Forall (fun p : N * option value => (fst p < 2 ^ 64)%N /\
      forall v, snd p = Some v -> value_ok W v /\ (depth v <= 1)%Z) (source_fields s k)).
    { assert (Dk1 : (depth k <= 1)%Z) by (unfold k; destruct (pk_alg (so_key s)); apply Z.le_refl).
      unfold source_fields. repeat apply Forall_cons; try apply Forall_nil; cbn [fst snd]; (split; [reflexivity | ]); intros v Hv.
      + injection Hv as <-. auto.
      + injection Hv as <-. split; [ | cbn; lia]. constructor; [exact H2 | ]. unfold Nlen. rewrite H1. pose proof pow_W. lia.
      + refine (opt_value _ _ (fun _ => True) _ _ _ (fun p _ => value_policy p) Hv). now intros ? ?.
      + exact (opt_value _ _ _ _ _ B value_bytes Hv). }
    destruct (write_record (source_fields s k) 1%Z) as (b & Ew & Er & Eb); [lia | reflexivity | reflexivity | exact F | ].
    change (source_to_cbor k s) with (map_options (fields (source_fields s k))). rewrite Ew.
    assert (Lb : (1 <= length b <= 191)%nat).
    { rewrite Eb. assert (Q : forall x y, (x < 256)%N -> (length (Spec.head y x) <= 2)%nat) by (intros; now apply head_short).
      assert (S1 : (length (enc k) <= 54)%nat).
      { unfold k. destruct (pk_alg (so_key s)); cbn [alg_code vint Z.ltb Z.compare enc flat_map]; rewrite !app_length, Lk;
          unfold Nlen; rewrite Lk; heads; cbn [length]; lia. }
      assert (S2 : (length (enc (VBytes (so_rp_hash s))) <= 34)%nat).
      { cbn [enc]. unfold Nlen. rewrite app_length, H1. heads. lia. }
      assert (S3 : forall p, (length (enc (policy_to_cbor p)) <= 1)%nat) by (intros []; vm_compute; lia).
      assert (S4 : forall x, so_blob s = Some x -> (length (enc (VBytes x)) <= 66)%nat).
      { intros x Hx. specialize (Hb x Hx). cbv beta in Hb. cbn [enc]. rewrite app_length. unfold Nlen.
        specialize (Q (N.of_nat (length x)) 2%N ltac:(lia)). lia. }
      assert (T : (length (enc (VMap (present (fields (source_fields s k))))) <=
        2 + fold_right (fun (p : N * option value) n => (2 + match snd p with Some v => length (enc v) | None => 0 end + n)%nat)
              0%nat (source_fields s k))%nat)
        by (apply record_len; [repeat apply Forall_cons; try apply Forall_nil; reflexivity | reflexivity]).
      unfold source_fields at 2 in T. cbn [fold_right snd] in T.
      assert (T0 : (1 <= length (enc (VMap (present (fields (source_fields s k))))))%nat).
      { cbn [enc]. rewrite app_length. unfold Spec.head.
        repeat match goal with |- context [N.ltb ?a ?b] => destruct (N.ltb a b) end; cbn [length]; lia. }
      split; [exact T0 | ]. etransitivity; [exact T | ].
      destruct (so_policy s) as [p | ], (so_blob s) as [x | ]; cbn [option_map];
        try specialize (S3 p); try specialize (S4 x eq_refl); lia. }
    destruct (add_padding b) as [p | ] eqn:Ep.
    - destruct (padding_roundtrip b p Ep) as [Lp _].
      rewrite cbc_encrypt_some by now rewrite Lp. eauto.
    - exfalso. unfold add_padding in Ep. destruct (Nat.eqb_spec (length b) 0); [lia | ].
      unfold MAX_PADDING_LENGTH in Ep. destruct (Nat.ltb_spec 191 (length b)); [lia | ]. discriminate Ep.
  Qed.

  (** The length of sealed IDs, and what [unwrap_pure] accepts. *)
  Lemma firstn_exact (A : Type) (a b : list A) n : length a = n -> firstn n (a ++ b) = a.
  Proof. intro H. rewrite firstn_app, H, Nat.sub_diag, firstn_O, app_nil_r. apply firstn_all2. lia. Qed.
  Lemma skipn_exact (A : Type) (a b : list A) n : length a = n -> skipn n (a ++ b) = b.
  Proof. intro H. rewrite skipn_app, H, Nat.sub_diag, skipn_O. rewrite skipn_all2 by lia. reflexivity. Qed.

  Lemma unwrap_wrapped m iv1 iv2 s id rp :
    length iv1 = 16%nat -> bytes_ok iv1 = true -> length iv2 = 16%nat -> bytes_ok iv2 = true -> source_ok s ->
    wrap_pure c m iv1 iv2 s = Some id ->
    length id = 241%nat /\
    unwrap_pure c ed25519 W m id rp = Some (if bytes_eqb rp (so_rp_hash s) then Some s else None).
  Proof.
    intros. destruct (wrap_inv m iv1 iv2 s id) as (body & -> & L & V & D); auto.
    assert (LL : length (body ++ hmac c (mk_authentication m) body) = 241%nat)
      by (rewrite app_length, L, (ok_hmac_len c ok); reflexivity).
    split; [exact LL | ]. unfold unwrap_pure. rewrite LL. change (241 - 32)%nat with 209%nat.
    rewrite firstn_exact, skipn_exact by exact L. rewrite bytes_eqb_refl. cbn [negb].
    replace (hd 0%N (body ++ _)) with 1%N by (destruct body; [discriminate L | symmetry; exact V]).
    change (1 =? CBOR_CREDENTIAL_ID_VERSION)%N with true. cbn [negb].
    change (Nat.eqb 241 CBOR_CREDENTIAL_ID_SIZE) with true. cbn [negb]. rewrite D.
    now destruct (bytes_eqb rp (so_rp_hash s)).
  Qed.

  Lemma unwrap_inv m id rp s :
    unwrap_pure c ed25519 W m id rp = Some (Some s) ->
    length id = 241%nat /\ hd 0%N id = 1%N /\ so_rp_hash s = rp /\
    skipn 209 id = hmac c (mk_authentication m) (firstn 209 id).
  Proof.
    unfold unwrap_pure. intro H.
    destruct (bytes_eqb _ (skipn _ id)) eqn:E1; [ | discriminate H]. cbn [negb] in H.
    destruct (N.eqb_spec (hd 0%N id) CBOR_CREDENTIAL_ID_VERSION) as [E2 | ]; [ | discriminate H]. cbn [negb] in H.
    destruct (Nat.eqb_spec (length id) CBOR_CREDENTIAL_ID_SIZE) as [E3 | ]; [ | discriminate H]. cbn [negb] in H.
    destruct (decrypt_credential_id _ _ _ _ _) as [[s' | ] | ]; try discriminate H.
    destruct (bytes_eqb rp (so_rp_hash s')) eqn:E4; [ | discriminate H]. injection H as <-.
    apply bytes_eqb_eq in E1, E4. rewrite E3 in E1. change (CBOR_CREDENTIAL_ID_SIZE - 32)%nat with 209%nat in E1.
    repeat split; auto.
  Qed.
  Lemma unwrap_bad_tag m id rp :
    (241 <= length id)%nat ->
    skipn (length id - 32) id <> hmac c (mk_authentication m) (firstn (length id - 32) id) ->
    unwrap_pure c ed25519 W m id rp = Some None.
  Proof.
    intros _ H. unfold unwrap_pure. destruct (bytes_eqb _ (skipn _ id)) eqn:E1; [ | reflexivity].
    apply bytes_eqb_eq in E1. congruence.
  Qed.
End Records.
