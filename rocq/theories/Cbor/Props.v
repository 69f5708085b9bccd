(** Property theorems C01-C05 about the CBOR library. *)
From Coq Require Import Permutation.
From Verif Require Import Base Facts Cbor.Model Cbor.Spec Cbor.Proofs Cbor.Proofs2 Cbor.Proofs3 Cbor.Proofs4.

(** A non-trivial value used to show that hypotheses are met. *)
Definition sample : value :=
  VMap [(VUnsigned 1, VArray [VNegative (-300); VText [0x61; 0xC3; 0xA9]%N]);
        (VBytes [0; 255]%N, VTag 24 (VBytes []));
        (VText [0x62]%N, VMap [(VUnsigned 70000, VSimple STrue)])].

Lemma sample_ok W : (4 <= W)%N -> value_ok W sample.
Proof.
  intros H.
  assert (2 ^ 4 <= 2 ^ W)%N by (apply N.pow_le_mono_r; lia).
  change (2 ^ 4)%N with 16%N in *.
  repeat (constructor; cbn [fst snd]); try reflexivity; cbn; try lia.
Qed.

(** C01: what the writer emits for a representable value is read back as that value, with
    nothing left over; the bytes are the deterministic encoding of RFC 8949. *)
Theorem C01_roundtrip : forall W v limit bs,
  (W <= 64)%N -> value_ok W v -> write_nested v limit = Ok bs ->
  read_nested W bs limit = Ok v /\ bs = enc v.
Proof.
  intros W v d bs HW Hv E. split; [exact (read_write W HW v d bs Hv E)|].
  unfold write_nested in E. rewrite (encode_spec W HW) in E by exact Hv.
  destruct (withinb v d); congruence.
Qed.
Print Assumptions C01_roundtrip.

(** C01: the writer accepts exactly the values within the depth limit. *)
Theorem C01_writer_accepts : forall W v limit,
  (W <= 64)%N -> value_ok W v ->
  (within v limit -> write_nested v limit = Ok (enc v)) /\
  (~ within v limit -> write_nested v limit = Err EE_TooMuchNesting).
Proof.
  intros W v d HW Hv. unfold write_nested. rewrite (encode_spec W HW) by exact Hv.
  rewrite <- withinb_spec. destruct (withinb v d); split; intros H; congruence.
Qed.
Print Assumptions C01_writer_accepts.

(** C01, at the front of a longer input: the reader of one item stops exactly after
    the bytes written. *)
Theorem C01_exact_consumption : forall W v limit rest,
  (W <= 64)%N -> value_ok W v -> within v limit ->
  decode_item W (S (length (enc v ++ rest))) limit (enc v ++ rest) = Ok (v, rest).
Proof.
  intros W v d rest HW Hv Hd. apply (decode_complete W HW); auto.
  rewrite app_length. lia.
Qed.
Print Assumptions C01_exact_consumption.

Example C01_nonvacuous :
  value_ok 32 sample /\ write_nested sample (Some 4%Z) = Ok (enc sample) /\ length (enc sample) = 25%nat.
Proof. repeat split. apply sample_ok. lia. Qed.

(** C02: on targets with a 64-bit usize, whatever the reader accepts is the
    deterministic encoding of the decoded value, and the writer reproduces it. *)
Theorem C02_canonical : forall l limit v,
  bytes_ok l = true -> read_nested 64 l limit = Ok v ->
  l = enc v /\ write_nested v limit = Ok l.
Proof.
  intros l d v Hl E. destruct (read_sound 64 ltac:(lia) l d v ltac:(lia) Hl E) as (Ho & Hd & He).
  specialize (He eq_refl). split; [exact He|].
  unfold write_nested. rewrite (encode_spec 64 ltac:(lia)) by exact Ho.
  apply withinb_spec in Hd. rewrite Hd, He. reflexivity.
Qed.
Print Assumptions C02_canonical.

(** C02: no two byte strings decode to the same value. *)
Theorem C02_injective : forall l1 l2 limit v,
  bytes_ok l1 = true -> bytes_ok l2 = true ->
  read_nested 64 l1 limit = Ok v -> read_nested 64 l2 limit = Ok v -> l1 = l2.
Proof.
  intros l1 l2 d v H1 H2 E1 E2.
  apply C02_canonical in E1 as [E1 _]; auto. apply C02_canonical in E2 as [E2 _]; auto. congruence.
Qed.
Print Assumptions C02_injective.

Example C02_nonvacuous :
  read_nested 64 (enc sample) (Some 4%Z) = Ok sample /\ bytes_ok (enc sample) = true.
Proof. split; reflexivity. Qed.

(** C02 is false of the code on targets with a 32-bit usize (the embedded
    targets): the length of a string is truncated to 32 bits, so a 2^32-byte length prefix with
    no content is read as the empty string, and written back differently. *)
Theorem C02_canonical_32_refuted : exists l v,
  bytes_ok l = true /\ read_nested 32 l (Some 4%Z) = Ok v /\ write_nested v (Some 4%Z) <> Ok l.
Proof.
  exists [0x5B; 0; 0; 0; 1; 0; 0; 0; 0]%N, (VBytes []).
  repeat split. discriminate.
Qed.
Print Assumptions C02_canonical_32_refuted.

(** C03: every value the reader produces is representable; in particular all its maps,
    at any depth, have strictly increasing keys. *)
Theorem C03_reader_sorted : forall W l limit v,
  (0 < W <= 64)%N -> bytes_ok l = true -> read_nested W l limit = Ok v -> value_ok W v.
Proof.
  intros W l d v [HW0 HW] Hl E. exact (proj1 (read_sound W HW l d v HW0 Hl E)).
Qed.
Print Assumptions C03_reader_sorted.

(** C03: strictly increasing keys are pairwise different. *)
Theorem C03_sorted_unique : forall m, keys_sorted m -> NoDup (map fst m).
Proof. exact keys_sorted_nodup. Qed.
Print Assumptions C03_sorted_unique.

(** C03: the library's order on values is the bytewise order of their encodings, and it is
    a total order compatible with equality. *)
Theorem C03_order_is_encoding_order : forall W a b,
  (W <= 64)%N -> value_ok W a -> value_ok W b -> value_cmp a b = lexcmp (enc a) (enc b).
Proof. intros W a b HW. exact (cmp_lex W HW a b). Qed.
Print Assumptions C03_order_is_encoding_order.

Theorem C03_order_total : forall W a b c,
  (W <= 64)%N -> value_ok W a -> value_ok W b -> value_ok W c ->
  (value_cmp a b = Eq <-> a = b) /\
  (value_cmp a b = Lt <-> value_cmp b a = Gt) /\
  (value_cmp a b = Lt -> value_cmp b c = Lt -> value_cmp a c = Lt).
Proof.
  intros W a b c HW Ha Hb Hc. split; [exact (cmp_eq_iff W HW a b Ha Hb)|].
  split; [|exact (cmp_trans W HW a b c Ha Hb Hc)].
  rewrite (cmp_antisym W HW a b Ha Hb). destruct (value_cmp a b); cbn; split; congruence.
Qed.
Print Assumptions C03_order_total.

(** C03: on keys that contain no other value, which are all the keys CTAP2 uses, it is also the CTAP2 canonical order
    (major type, then length, then bytes). *)
Theorem C03_ctap2_order : forall W a b,
  (W <= 64)%N -> value_ok W a -> value_ok W b -> scalar a = true -> scalar b = true ->
  value_cmp a b = ctap2_order a b.
Proof. intros W a b HW. exact (ctap2_scalar W HW a b). Qed.
Print Assumptions C03_ctap2_order.

(** On compound keys the two orders differ. *)
Theorem C03_ctap2_order_compound_refuted : exists a b,
  value_ok 64 a /\ value_ok 64 b /\ value_cmp a b = Lt /\ ctap2_order a b = Gt.
Proof.
  exists (VArray [VUnsigned 70000]), (VArray [VNegative (-1)]).
  repeat split; repeat constructor; lia.
Qed.
Print Assumptions C03_ctap2_order_compound_refuted.

(** C03: building a map from pairs sorts them, loses and invents nothing, and
    panics exactly on duplicate keys. *)
Theorem C03_map_constructor : forall W m,
  (W <= 64)%N -> Forall (fun p => value_ok W (fst p)) m ->
  (NoDup (map fst m) <-> exists m', value_map m = Some (VMap m')) /\
  (forall v, value_map m = Some v ->
     exists m', v = VMap m' /\ Permutation m m' /\ keys_sorted m').
Proof.
  intros W m HW Hm. pose proof (value_map_spec W HW m Hm) as S.
  destruct (value_map m) as [v|].
  - destruct S as (m' & -> & P & K). split.
    + split; [intros _; eexists; reflexivity|intros _].
      apply (Permutation_NoDup (Permutation_map fst (Permutation_sym P))).
      exact (keys_sorted_nodup m' K).
    + intros v E. injection E as <-. exists m'. auto.
  - split; [|discriminate]. split; [intros H; contradiction|]. intros [m' H]. discriminate.
Qed.
Print Assumptions C03_map_constructor.

Example C03_nonvacuous :
  value_map [(VText [0x62]%N, VUnsigned 2); (VUnsigned 1, VUnsigned 3)] =
  Some (VMap [(VUnsigned 1, VUnsigned 3); (VText [0x62]%N, VUnsigned 2)]) /\
  value_map [(VUnsigned 1, VUnsigned 2); (VUnsigned 1, VUnsigned 3)] = None.
Proof. split; reflexivity. Qed.

(** C04: the nesting limit is exact.  If an input is accepted under some limit, then under any
    other limit it is accepted with the same value when the value's depth is within, and
    rejected for nesting otherwise. *)
Theorem C04_limit_exact : forall W l limit0 limit v,
  read_nested W l limit0 = Ok v ->
  (within v limit -> read_nested W l limit = Ok v) /\
  (~ within v limit -> read_nested W l limit = Err DE_TooMuchNesting).
Proof.
  intros W l d0 d v E. rewrite (read_nested_nest W l d0 v d E), <- withinb_spec.
  destruct (withinb v d); split; congruence.
Qed.
Print Assumptions C04_limit_exact.

Theorem C04_accepted_within : forall W l limit v,
  read_nested W l limit = Ok v -> within v limit.
Proof.
  intros W l d v E. pose proof (read_nested_nest W l d v d E) as E'.
  rewrite E in E'. apply withinb_spec. destruct (withinb v d); congruence.
Qed.
Print Assumptions C04_accepted_within.

(** C04: decoding terminates on every input with a value or one of the reader's errors: it neither
    panics nor runs longer than the input. *)
Theorem C04_total : forall W l limit,
  read_nested W l limit <> Err DE_Panic /\ read_nested W l limit <> Err DE_OutOfFuel.
Proof.
  intros W l d. split; intros E; apply read_nested_total in E; discriminate.
Qed.
Print Assumptions C04_total.

(** C04: a strict prefix of an accepted input is rejected, and so is an extension of it. *)
Theorem C04_prefix_free : forall l x limit v,
  bytes_ok (l ++ x) = true -> x <> [] -> read_nested 64 (l ++ x) limit = Ok v ->
  forall w, read_nested 64 l limit <> Ok w.
Proof.
  intros l x d v Hb Hx E w E'.
  destruct (read_sound 64 ltac:(lia) _ d v ltac:(lia) Hb E) as (Ho & _ & He).
  unfold bytes_ok in Hb. rewrite forallb_app in Hb. apply andb_true_iff in Hb as [Hl _].
  destruct (read_sound 64 ltac:(lia) _ d w ltac:(lia) Hl E') as (Ho' & _ & He').
  specialize (He eq_refl). specialize (He' eq_refl). subst l.
  rewrite <- (app_nil_r (enc v)) in He.
  apply (enc_inj_app 64 ltac:(lia)) in He as [_ He]; auto.
Qed.
Print Assumptions C04_prefix_free.

Example C04_nonvacuous :
  read_nested 64 [0x81; 0x81; 0x01]%N (Some 2%Z) = Ok (VArray [VArray [VUnsigned 1]]) /\
  read_nested 64 [0x81; 0x81; 0x01]%N (Some 1%Z) = Err DE_TooMuchNesting /\
  ~ within (VArray [VArray [VUnsigned 1]]) (Some 1%Z).
Proof. repeat split. cbn. lia. Qed.

(** C05: destructuring a sorted map with sorted keys gives each requested key exactly the value
    stored under it, or none. *)
Theorem C05_destructure : forall W m keys,
  (W <= 64)%N -> value_ok W (VMap m) -> Forall (value_ok W) keys ->
  keys_sorted (map (fun k => (k, k)) keys) ->
  length (destructure m keys) = length keys /\
  forall i k o, nth_error keys i = Some k -> nth_error (destructure m keys) i = Some o ->
  forall v, o = Some v <-> In (k, v) m.
Proof.
  intros W m keys HW Hm Hk Hs. inversion Hm as [| | | | |? _ Hf Hsm| |]; subst.
  assert (F : Forall2 (fun k o => forall v, o = Some v <-> In (k, v) m) keys (destructure m keys)).
  { apply (destructure_spec W HW); auto. unfold keys_ok. eapply Forall_impl; [|exact Hf].
    cbn beta. intuition. }
  split.
  - clear - F. induction F; cbn; congruence.
  - clear - F. induction F as [|k o ks os H F IH]; intros [|i] k' o' E1 E2; try discriminate.
    + injection E1 as ->. injection E2 as ->. exact H.
    + cbn in E1, E2. eapply IH; eauto.
Qed.
Print Assumptions C05_destructure.

Example C05_nonvacuous :
  destructure [(VUnsigned 1, VUnsigned 10); (VUnsigned 2, VUnsigned 20); (VText [0x61]%N, VUnsigned 30)]
    [VUnsigned 2; VUnsigned 3; VText [0x61]%N] = [Some (VUnsigned 20); None; Some (VUnsigned 30)] /\
  keys_sorted (map (fun k => (k, k)) [VUnsigned 2; VUnsigned 3; VText [0x61]%N]).
Proof. split; [reflexivity|]. cbn. auto. Qed.
