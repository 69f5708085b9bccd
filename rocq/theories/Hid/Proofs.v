From Verif Require Import Base Facts Hid.Model Hid.Spec.

Lemma bytes_eqb_spec a b : bytes_eqb a b = true <-> a = b.
Proof.
  revert b. induction a as [|x a IH]; intros [|y b]; cbn [bytes_eqb]; try (split; congruence).
  rewrite andb_true_iff, IH, N.eqb_eq. split; [intros [-> ->]; reflexivity|].
  intros H; injection H as -> ->. auto.
Qed.

Lemma bytes_eqb_refl a : bytes_eqb a a = true.
Proof. apply bytes_eqb_spec. reflexivity. Qed.

Lemma bytes_eqb_false a b : bytes_eqb a b = false <-> a <> b.
Proof.
  rewrite <- bytes_eqb_spec. destruct (bytes_eqb a b); split; congruence.
Qed.

(* ------------------------------------------------------------ packets *)

Lemma land128 b : (b < 256)%N -> N.land b 0x80 = (if b <? 128 then 0 else 128)%N.
Proof.
  intros H.
  assert (E : N.land b (2 ^ 7) = if N.testbit b 7 then (2 ^ 7)%N else 0%N).
  { apply N.bits_inj. intros i. rewrite N.land_spec. destruct (N.eq_dec i 7) as [->|].
    - rewrite N.pow2_bits_true, andb_true_r. destruct (N.testbit b 7); reflexivity.
    - rewrite N.pow2_bits_false by lia. rewrite andb_false_r.
      destruct (N.testbit b 7); [rewrite N.pow2_bits_false by lia; reflexivity|reflexivity]. }
  change (2 ^ 7)%N with 128%N in E. rewrite E, N.testbit_eqb. change (2 ^ 7)%N with 128%N.
  destruct (N.ltb_spec b 128).
  - replace (b / 128)%N with 0%N by lia. reflexivity.
  - replace (b / 128)%N with 1%N by lia. reflexivity.
Qed.

Lemma land127 b : N.land b 0x7F = (b mod 128)%N.
Proof. change 0x7F%N with (N.ones 7). rewrite N.land_ones. reflexivity. Qed.

Lemma lor_shift8 a b : (b < 256)%N -> N.lor (N.shiftl a 8) b = (a * 256 + b)%N.
Proof.
  intros H. rewrite N.shiftl_mul_pow2. change (2 ^ 8)%N with 256%N.
  rewrite <- N.lxor_lor.
  - rewrite <- N.add_nocarry_lxor; [reflexivity|].
    apply N.bits_inj. intros i. rewrite N.land_spec, N.bits_0.
    change 256%N with (2 ^ 8)%N. rewrite <- N.shiftl_mul_pow2.
    destruct (N.ltb_spec i 8).
    + rewrite N.shiftl_spec_low by lia. reflexivity.
    + replace (N.testbit b i) with false; [apply andb_false_r|].
      symmetry. rewrite N.testbit_eqb.
      assert (2 ^ 8 <= 2 ^ i)%N by (apply N.pow_le_mono_r; lia).
      rewrite N.div_small; [reflexivity|]. change (2 ^ 8)%N with 256%N in *. lia.
  - apply N.bits_inj. intros i. rewrite N.land_spec, N.bits_0.
    change 256%N with (2 ^ 8)%N. rewrite <- N.shiftl_mul_pow2.
    destruct (N.ltb_spec i 8).
    + rewrite N.shiftl_spec_low by lia. reflexivity.
    + replace (N.testbit b i) with false; [apply andb_false_r|].
      symmetry. rewrite N.testbit_eqb.
      assert (2 ^ 8 <= 2 ^ i)%N by (apply N.pow_le_mono_r; lia).
      rewrite N.div_small; [reflexivity|]. change (2 ^ 8)%N with 256%N in *. lia.
Qed.

Lemma firstn_app_exact {A} (a b : list A) n : length a = n -> firstn n (a ++ b) = a.
Proof. intros <-. rewrite firstn_app, firstn_all, Nat.sub_diag, app_nil_r. reflexivity. Qed.

Lemma skipn_app_exact {A} (a b : list A) n : length a = n -> skipn n (a ++ b) = b.
Proof. intros <-. rewrite skipn_app, skipn_all, Nat.sub_diag. reflexivity. Qed.

Lemma psp_init cid cmd hi lo d : length cid = 4%nat -> (cmd < 128)%N -> (lo < 256)%N ->
  length d = 57%nat ->
  process_single_packet (cid ++ [cmd + 128; hi; lo]%N ++ d) = (cid, PInit cmd (hi * 256 + lo) d).
Proof.
  intros Hc Hcmd Hlo Hd. unfold process_single_packet.
  rewrite firstn_app_exact, skipn_app_exact by assumption.
  cbn [nth app skipn]. rewrite land128 by lia.
  destruct (N.ltb_spec (cmd + 128) 128); [lia|]. cbn [N.eqb negb].
  change (128 =? 0)%N with false. cbn [negb].
  rewrite land127, lor_shift8 by assumption.
  rewrite <- Hd, firstn_all.
  replace ((cmd + 128) mod 128)%N with cmd by lia. reflexivity.
Qed.

Lemma psp_cont cid seq d : length cid = 4%nat -> (seq < 128)%N -> length d = 59%nat ->
  process_single_packet (cid ++ seq :: d) = (cid, PCont seq d).
Proof.
  intros Hc Hs Hd. unfold process_single_packet.
  rewrite firstn_app_exact, skipn_app_exact by assumption.
  cbn [nth app skipn]. rewrite land128 by lia.
  destruct (N.ltb_spec seq 128); [|lia]. change (0 =? 0)%N with true. cbn [negb].
  rewrite <- Hd, firstn_all. reflexivity.
Qed.

Lemma psp_chan_ok p : packet_ok p -> chan_ok (packet_chan p).
Proof.
  intros [HL Hb]. unfold packet_chan, process_single_packet.
  assert (chan_ok (firstn 4 p)).
  { split; [rewrite firstn_length; lia|]. unfold bytes_ok in *.
    rewrite <- (firstn_skipn 4 p), forallb_app in Hb. apply andb_true_iff in Hb. tauto. }
  destruct (negb _); exact H.
Qed.

Lemma psp_data_len p c pp : length p = 64%nat -> process_single_packet p = (c, pp) ->
  match pp with PInit _ _ d => length d = 57%nat | PCont _ d => length d = 59%nat end.
Proof.
  intros HL. unfold process_single_packet. destruct (negb _); intros E; apply (f_equal snd) in E; cbn [snd] in E; subst pp;
  rewrite firstn_length, !skipn_length; lia.
Qed.

Lemma forallb_nth {A} (f : A -> bool) d l : forallb f l = true -> f d = true ->
  forall n, f (nth n l d) = true.
Proof.
  revert l. induction l as [|x l IH]; intros Hl Hd n; destruct n; cbn; auto;
  cbn in Hl; apply andb_true_iff in Hl as [H1 H2]; auto.
Qed.

Lemma bytes_ok_nth l n : bytes_ok l = true -> (nth n l 0 < 256)%N.
Proof.
  intros H. apply N.ltb_lt. apply (forallb_nth byte_ok 0%N l H). reflexivity.
Qed.

Lemma bytes_ok_skipn n l : bytes_ok l = true -> bytes_ok (skipn n l) = true.
Proof.
  unfold bytes_ok. intros H. rewrite <- (firstn_skipn n l), forallb_app in H.
  apply andb_true_iff in H. tauto.
Qed.
Lemma bytes_ok_firstn n l : bytes_ok l = true -> bytes_ok (firstn n l) = true.
Proof.
  unfold bytes_ok. intros H. rewrite <- (firstn_skipn n l), forallb_app in H.
  apply andb_true_iff in H. tauto.
Qed.

Lemma psp_cont_seq p c seq d : packet_ok p -> process_single_packet p = (c, PCont seq d) ->
  (seq < 128)%N.
Proof.
  intros [HL Hb]. unfold process_single_packet.
  assert (Hr : bytes_ok (skipn 4 p) = true) by (apply bytes_ok_skipn; exact Hb).
  pose proof (bytes_ok_nth _ 0 Hr) as Hn. unfold PACKET_TYPE_MASK.
  rewrite land128 by exact Hn.
  destruct (N.ltb_spec (nth 0 (skipn 4 p) 0%N) 128) as [L|L].
  - change (0 =? 0)%N with true. cbn [negb]. intros E. injection E as _ <- _. exact L.
  - change (128 =? 0)%N with false. cbn [negb]. discriminate.
Qed.

(* ------------------------------------------------------------ sender *)

Lemma pad_length k l : (length l <= k)%nat -> length (pad k l) = k.
Proof. intros H. unfold pad. rewrite app_length, repeat_length. lia. Qed.

Lemma consume_spec dst data :
  consume_data dst data = (pad (length dst) (firstn (length dst) data), Nat.min (length dst) (length data)).
Proof.
  unfold consume_data, pad. destruct (Nat.leb_spec (length data) (length dst)).
  - rewrite firstn_all2 by assumption. rewrite Nat.min_r by assumption. reflexivity.
  - rewrite firstn_length, Nat.min_l by lia. rewrite Nat.sub_diag. cbn [repeat]. rewrite app_nil_r.
    reflexivity.
Qed.

Lemma cmd_lor c : N.lor (cmd_code c) 0x80 = (cmd_code c + 128)%N.
Proof. destruct c; reflexivity. Qed.

Lemma cmd_code_lt c : (cmd_code c < 128)%N.
Proof. destruct c; reflexivity. Qed.

Lemma cmd_of_code c : cmd_of (cmd_code c) = c.
Proof. destruct c; reflexivity. Qed.

Lemma conts_more n1 n2 cid seq l : (length l <= n1)%nat -> (length l <= n2)%nat ->
  conts n1 cid seq l = conts n2 cid seq l.
Proof.
  revert n2 seq l. induction n1 as [|n1 IH]; intros n2 seq l H1 H2.
  - destruct l; [|cbn in H1; lia]. destruct n2; reflexivity.
  - destruct l as [|x l]; [destruct n2; reflexivity|].
    destruct n2 as [|n2]; [cbn in H2; lia|]. cbn [conts]. f_equal.
    cbn [length] in H1, H2. apply IH; rewrite skipn_length; cbn [length]; lia.
Qed.

Lemma conts_nonempty n cid seq l : (0 < length l)%nat -> (length l <= n)%nat ->
  exists n', conts n cid seq l =
    (cid ++ seq :: pad 59 (firstn 59 l)) :: conts n' cid (seq + 1) (skipn 59 l) /\
  (length (skipn 59 l) <= n')%nat.
Proof.
  intros H1 H2. destruct n as [|n]; [lia|]. destruct l as [|x l]; [cbn in H1; lia|].
  exists n. split; [reflexivity|]. rewrite skipn_length. cbn [length] in *. lia.
Qed.

Lemma run_conts m pk : forall fuel i seq,
  length (m_cid m) = 4%nat -> length pk = 64%nat -> firstn 4 pk = m_cid m ->
  (seq + (Nlen (skipn i (m_payload m)) + 58) / 59 <= 255)%N ->
  (length (skipn i (m_payload m)) < fuel)%nat ->
  splitter_run fuel (mkSpl m pk (Some seq) i) =
  conts (length (skipn i (m_payload m))) (m_cid m) seq (skipn i (m_payload m)).
Proof.
  intros fuel. revert pk. induction fuel as [|fuel IH]; intros pk i seq Hc Hpk H4 Hseq Hf; [lia|].
  cbn [splitter_run]. unfold splitter_next. cbn [s_seq s_msg s_i s_packet].
  destruct (Nat.ltb_spec i (length (m_payload m))) as [Hi|Hi].
  - rewrite consume_spec. rewrite (skipn_length 5), Hpk. change (64 - 5)%nat with 59%nat.
    cbv beta iota zeta. unfold Nlen in Hseq.
    destruct (conts_nonempty (length (skipn i (m_payload m))) (m_cid m) seq (skipn i (m_payload m)))
      as (n' & E & Hn'); [rewrite skipn_length; lia|lia|]. rewrite E.
    rewrite H4, <- app_assoc. cbn [app]. f_equal.
    rewrite IH; auto.
    + replace ((seq + 1) mod 256)%N with (seq + 1)%N by (rewrite skipn_length in Hseq; lia).
      rewrite (skipn_length i (m_payload m)).
      replace (i + Nat.min 59 (length (m_payload m) - i))%nat with
        (if (59 <=? length (m_payload m) - i)%nat then i + 59 else length (m_payload m))%nat.
      2: { destruct (Nat.leb_spec 59 (length (m_payload m) - i)); lia. }
      destruct (Nat.leb_spec 59 (length (m_payload m) - i)).
      * rewrite skipn_skipn in *. replace (59 + i)%nat with (i + 59)%nat in * by lia.
        apply conts_more; lia.
      * rewrite skipn_all, skipn_all2 by (rewrite skipn_length; lia). destruct n'; reflexivity.
    + rewrite app_length. cbn [length]. rewrite pad_length by (rewrite firstn_length; lia). lia.
    + rewrite firstn_app_exact by assumption. reflexivity.
    + unfold Nlen. rewrite !skipn_length in *. lia.
    + rewrite !skipn_length in *. lia.
  - rewrite skipn_all2 by lia. reflexivity.
Qed.

Lemma packets_framing m : length (m_cid m) = 4%nat -> (Nlen (m_payload m) <= 7609)%N ->
  hid_packets m = Some (framing m).
Proof.
  intros Hc Hl. unfold hid_packets, splitter_new, MAX_PAYLOAD.
  destruct (N.ltb_spec 7609 (Nlen (m_payload m))) as [L|L]; [unfold Nlen in *; lia|].
  f_equal. remember (S (length (m_payload m))) as fuel eqn:Ef.
  cbn [splitter_run]. unfold splitter_next. cbn [s_seq s_msg s_packet].
  rewrite consume_spec.
  assert (H64 : length (m_cid m ++ repeat 0%N 60) = 64%nat) by (rewrite app_length, repeat_length; lia).
  rewrite skipn_length, H64. change (64 - 7)%nat with 57%nat. cbv beta iota zeta.
  unfold framing. rewrite cmd_lor. rewrite (firstn_app_exact (m_cid m)) by assumption.
  fold (Nlen (m_payload m)). rewrite N.shiftr_div_pow2. change (2 ^ 8)%N with 256%N.
  replace ((Nlen (m_payload m) / 256) mod 256)%N with (Nlen (m_payload m) / 256)%N by lia.
  rewrite <- app_assoc. f_equal.
  rewrite run_conts; auto.
  - destruct (Nat.leb_spec 57 (length (m_payload m))).
    + rewrite Nat.min_l by assumption. apply conts_more; rewrite ?skipn_length; lia.
    + rewrite Nat.min_r by lia. rewrite skipn_all, skipn_all2 by lia.
      destruct (length (m_payload m)); reflexivity.
  - rewrite !app_length. rewrite pad_length by (rewrite firstn_length; lia). cbn [length]. lia.
  - rewrite firstn_app_exact by assumption. reflexivity.
  - unfold Nlen in *. rewrite skipn_length. lia.
  - rewrite skipn_length. lia.
Qed.

Lemma conts_packets n cid seq l : length cid = 4%nat ->
  Forall (fun p => length p = 64%nat) (conts n cid seq l).
Proof.
  intros Hc. revert seq l. induction n as [|n IH]; intros seq l; [constructor|].
  destruct l; [constructor|]. cbn [conts]. constructor; [|apply IH].
  rewrite app_length. cbn [length]. rewrite pad_length by (rewrite firstn_length; lia). lia.
Qed.

Lemma framing_packets m : length (m_cid m) = 4%nat ->
  Forall (fun p => length p = 64%nat) (framing m).
Proof.
  intros Hc. unfold framing. constructor; [|apply conts_packets; exact Hc].
  rewrite !app_length. rewrite pad_length by (rewrite firstn_length; lia). cbn [length]. lia.
Qed.

(* ------------------------------------------------- receiving a message *)

(** The receiver is in the middle of message [m], [k] bytes of payload received. *)
Definition mid (m : message) (d : N) (seq : N) (k : nat) (a : assembler) : Prop :=
  a_idle a = false /\ a_cid a = m_cid m /\ a_timer a = d /\ a_cmd a = cmd_code (m_cmd m) /\
  a_seq a = seq /\ a_remaining a = (length (m_payload m) - k)%nat /\
  a_payload a = firstn k (m_payload m) /\ (k < length (m_payload m))%nat.

Lemma pad_firstn k l n : (n <= length (firstn k l))%nat ->
  firstn n (pad k (firstn k l)) = firstn n l.
Proof.
  intros H. unfold pad. rewrite firstn_app. replace (n - length (firstn k l))%nat with 0%nat by lia.
  rewrite app_nil_r, firstn_firstn. rewrite firstn_length in H. rewrite Nat.min_l by lia. reflexivity.
Qed.

Lemma firstn_plus {A} (l : list A) a b : firstn (a + b) l = firstn a l ++ firstn b (skipn a l).
Proof.
  revert l. induction a as [|a IH]; intros l; [reflexivity|].
  destruct l; cbn; [rewrite firstn_nil; reflexivity|]. rewrite IH. reflexivity.
Qed.

Lemma mid_foreign max m d seq k a t q : mid m d seq k a -> (t < d)%N ->
  packet_chan q <> m_cid m -> asm_parse max t a q None = (a, Err (packet_chan q, ChannelBusy)).
Proof.
  intros (H1 & H2 & H3 & H4 & H5 & H6 & H7 & H8) Ht Hq.
  unfold asm_parse, packet_chan in *. destruct (process_single_packet q) as [c pp]. cbn [fst] in *.
  rewrite H1. cbn [negb andb]. unfold is_elapsed. rewrite H3.
  destruct (N.leb_spec d t); [lia|]. cbn [andb]. rewrite H1, H2.
  apply bytes_eqb_false in Hq. rewrite Hq. reflexivity.
Qed.

Lemma mid_own max m d seq k a t :
  length (m_cid m) = 4%nat -> (seq < 128)%N ->
  mid m d seq k a -> (t < d)%N ->
  asm_parse max t a (m_cid m ++ seq :: pad 59 (firstn 59 (skipn k (m_payload m)))) None =
  (if Nat.ltb 59 (length (m_payload m) - k)
   then mkAsm false (m_cid m) (t + 100)%N (cmd_code (m_cmd m)) (seq + 1)
          (length (m_payload m) - (k + 59)) (firstn (k + 59) (m_payload m))
   else mkAsm true (m_cid m) (t + 100)%N (cmd_code (m_cmd m)) (seq + 1)
          (length (m_payload m) - k) [],
   Ok (if Nat.ltb 59 (length (m_payload m) - k) then None else Some m)).
Proof.
  intros Hc Hs (H1 & H2 & H3 & H4 & H5 & H6 & H7 & H8) Ht.
  unfold asm_parse.
  rewrite psp_cont; auto.
  2: { apply pad_length. rewrite firstn_length. lia. }
  rewrite H1. cbn [negb andb]. unfold is_elapsed. rewrite H3.
  destruct (N.leb_spec d t); [lia|]. cbn [andb]. rewrite H1, H2, bytes_eqb_refl, H5, N.eqb_refl.
  cbn [negb]. unfold append_payload. cbn [a_remaining a_cid a_timer a_cmd a_seq a_payload].
  rewrite pad_length by (rewrite firstn_length; lia). rewrite H6, H4, H7.
  replace ((seq + 1) mod 256)%N with (seq + 1)%N by lia.
  unfold make_timer, TIMEOUT_DURATION_MS.
  destruct (Nat.ltb_spec 59 (length (m_payload m) - k)).
  - f_equal. f_equal; [lia|]. rewrite firstn_plus. f_equal.
    unfold pad. rewrite firstn_length, skipn_length, Nat.min_l by lia. cbn [Nat.sub repeat].
    rewrite app_nil_r. reflexivity.
  - f_equal. f_equal. f_equal. destruct m as [c cm pl]. cbn [m_cid m_cmd m_payload] in *.
    rewrite cmd_of_code. f_equal.
    rewrite pad_firstn by (rewrite firstn_length, skipn_length; lia).
    rewrite <- firstn_plus. apply firstn_all2. lia.
Qed.

Lemma mid_next m t seq k : (59 < length (m_payload m) - k)%nat ->
  mid m (t + 100) (seq + 1) (k + 59)
   (mkAsm false (m_cid m) (t + 100)%N (cmd_code (m_cmd m)) (seq + 1)
          (length (m_payload m) - (k + 59)) (firstn (k + 59) (m_payload m))).
Proof. intros H. repeat split; cbn; lia. Qed.

Lemma start_own max m a t :
  length (m_cid m) = 4%nat -> (Nlen (m_payload m) <= max)%N -> (Nlen (m_payload m) < 65536)%N ->
  idle a ->
  asm_parse max t a (hd [] (framing m)) None =
  (if Nat.ltb 57 (length (m_payload m))
   then mkAsm false (m_cid m) (t + 100)%N (cmd_code (m_cmd m)) 0
          (length (m_payload m) - 57) (firstn 57 (m_payload m))
   else mkAsm true (m_cid m) (t + 100)%N (cmd_code (m_cmd m)) 0 (length (m_payload m)) [],
   Ok (if Nat.ltb 57 (length (m_payload m)) then None else Some m)).
Proof.
  intros Hc Hmax Hl [Hi Hp]. unfold framing. cbn [hd]. unfold asm_parse.
  rewrite psp_init; auto using cmd_code_lt; [|lia|].
  2: { apply pad_length. rewrite firstn_length. lia. }
  rewrite Hi. cbn [negb andb]. rewrite Hi. unfold parse_init_packet.
  replace (Nlen (m_payload m) / 256 * 256 + Nlen (m_payload m) mod 256)%N with (Nlen (m_payload m)) by lia.
  destruct (N.ltb_spec max (Nlen (m_payload m))); [lia|].
  unfold append_payload. cbn [a_remaining a_cid a_timer a_cmd a_seq a_payload].
  rewrite pad_length by (rewrite firstn_length; lia). unfold Nlen. rewrite Nat2N.id, Hp.
  unfold make_timer, TIMEOUT_DURATION_MS.
  destruct (Nat.ltb_spec 57 (length (m_payload m))).
  - cbn [app]. f_equal. f_equal. unfold pad. rewrite firstn_length, Nat.min_l by lia.
    cbn [Nat.sub repeat]. rewrite app_nil_r. reflexivity.
  - f_equal. f_equal. f_equal. destruct m as [c cm pl]. cbn [m_cid m_cmd m_payload] in *.
    rewrite cmd_of_code. f_equal.
    rewrite pad_firstn by (rewrite firstn_length; lia). apply firstn_all2. lia.
Qed.

Lemma woven_mid max m : length (m_cid m) = 4%nat -> (Nlen (m_payload m) <= 7609)%N ->
  forall d ps evs, woven (m_cid m) d ps evs ->
  forall n seq k a, mid m d seq k a -> (N.of_nat k = 57 + 59 * seq)%N ->
  (length (skipn k (m_payload m)) <= n)%nat ->
  ps = conts n (m_cid m) seq (skipn k (m_payload m)) ->
  exists a' outs, feed max a evs = (a', outs) /\ idle a' /\ length outs = length evs /\
    own_outputs (m_cid m) evs outs = repeat (Ok None) (length ps - 1) ++ [Ok (Some m)] /\
    Forall (fun co => snd co = Err (fst co, ChannelBusy)) (foreign_outputs (m_cid m) evs outs).
Proof.
  intros Hc Hl d ps evs Hw. induction Hw as [d|d t p ps evs Ht Hw IH|d t p q ps evs Ht Hq Hw IH];
  intros n seq k a Hm Hk Hn Hps.
  - exfalso. destruct Hm as (_ & _ & _ & _ & _ & _ & _ & H8).
    destruct (conts_nonempty n (m_cid m) seq (skipn k (m_payload m))) as (n' & E & _);
      [rewrite skipn_length; lia|exact Hn|]. rewrite E in Hps. discriminate.
  - assert (Hk8 : (k < length (m_payload m))%nat) by apply Hm.
    destruct (conts_nonempty n (m_cid m) seq (skipn k (m_payload m))) as (n' & E & Hn');
      [rewrite skipn_length; lia|exact Hn|]. rewrite E in Hps.
    assert (Hp := f_equal (hd []) Hps). assert (Hps' := f_equal (@tl _) Hps). cbn [hd tl] in Hp, Hps'.
    assert (Hs : (seq < 128)%N) by (unfold Nlen in *; lia).
    pose proof (mid_own max m d seq k a t Hc Hs Hm Ht) as Hasm. rewrite <- Hp in Hasm.
    cbn [feed]. rewrite Hasm.
    assert (Hpc : packet_chan p = m_cid m).
    { unfold packet_chan. rewrite Hp, psp_cont; auto. apply pad_length. rewrite firstn_length. lia. }
    destruct (Nat.ltb_spec 59 (length (m_payload m) - k)) as [L|L].
    + rewrite skipn_skipn in Hps', Hn'. replace (59 + k)%nat with (k + 59)%nat in * by lia.
      destruct (IH n' (seq + 1)%N (k + 59)%nat _ (mid_next m t seq k L)) as (a' & outs & F & Hi & Hlen & Ho & Hf);
        [lia|exact Hn'|exact Hps'|].
      rewrite F. exists a', (Ok None :: outs). split; [reflexivity|]. split; [exact Hi|].
      split; [cbn; congruence|]. split.
      * unfold own_outputs in *. cbn [combine filter]. cbn [fst snd]. rewrite Hpc, bytes_eqb_refl.
        cbn [map snd]. rewrite Ho. cbn [length].
        assert (0 < length ps)%nat.
        { rewrite Hps'. destruct (conts_nonempty n' (m_cid m) (seq + 1) (skipn (k + 59) (m_payload m))) as (n'' & E' & _);
          [rewrite skipn_length; lia|exact Hn'|]. rewrite E'. cbn. lia. }
        destruct (length ps) as [|j]; [lia|]. cbn [Nat.sub]. rewrite Nat.sub_0_r. reflexivity.
      * unfold foreign_outputs in *. cbn [combine filter]. cbn [fst snd]. rewrite Hpc, bytes_eqb_refl.
        exact Hf.
    + rewrite skipn_all2 in Hps' by (rewrite skipn_length; lia).
      assert (Hnil : ps = []) by (rewrite Hps'; destruct n'; reflexivity). clear Hps Hps' Hp. subst ps.
      inversion Hw; subst. cbn [feed].
      eexists _, [Ok (Some m)]. split; [reflexivity|]. split; [split; reflexivity|]. split; [reflexivity|].
      unfold own_outputs, foreign_outputs. cbn [combine filter]. cbn [fst snd].
      rewrite Hpc, bytes_eqb_refl. cbn. split; [reflexivity|constructor].
  - cbn [feed]. rewrite (mid_foreign max m d seq k a t q Hm Ht Hq).
    destruct (IH n seq k a Hm Hk Hn Hps) as (a' & outs & F & Hi & Hlen & Ho & Hf).
    rewrite F. eexists a', (_ :: outs). split; [reflexivity|]. split; [exact Hi|].
    split; [cbn; congruence|].
    unfold own_outputs, foreign_outputs in *. cbn [combine filter]. cbn [fst snd].
    apply bytes_eqb_false in Hq. rewrite Hq. cbn [negb map fst snd].
    split; [exact Ho|]. constructor; [reflexivity|exact Hf].
Qed.

Lemma receive_message max m t0 p0 ps evs a :
  length (m_cid m) = 4%nat -> (Nlen (m_payload m) <= max)%N -> (max <= 7609)%N ->
  framing m = p0 :: ps -> woven (m_cid m) (t0 + 100) ps evs -> idle a ->
  exists a' outs, feed max a ((t0, None, p0) :: evs) = (a', outs) /\ idle a' /\
    own_outputs (m_cid m) ((t0, None, p0) :: evs) outs = repeat (Ok None) (length ps) ++ [Ok (Some m)] /\
    Forall (fun co => snd co = Err (fst co, ChannelBusy))
      (foreign_outputs (m_cid m) ((t0, None, p0) :: evs) outs).
Proof.
  intros Hc Hl Hmax Hf Hw Hi. cbn [feed].
  assert (Hp0 : p0 = hd [] (framing m)) by (rewrite Hf; reflexivity).
  assert (Hpc : packet_chan p0 = m_cid m).
  { rewrite Hp0. unfold framing, packet_chan. cbn [hd]. rewrite psp_init; auto using cmd_code_lt; [lia|].
    apply pad_length. rewrite firstn_length. lia. }
  pose proof (start_own max m a t0 Hc Hl ltac:(lia) Hi) as Hasm. rewrite <- Hp0 in Hasm.
  rewrite Hasm. clear Hasm.
  assert (Hps := f_equal (@tl _) Hf). unfold framing in Hps. cbn [tl] in Hps.
  destruct (Nat.ltb_spec 57 (length (m_payload m))) as [L|L].
  - destruct (woven_mid max m Hc ltac:(lia) _ _ _ Hw (length (m_payload m)) 0 57
      (mkAsm false (m_cid m) (t0 + 100)%N (cmd_code (m_cmd m)) 0
        (length (m_payload m) - 57) (firstn 57 (m_payload m)))) as (a' & outs & F & Ha & Hlen & Ho & Hf').
    + repeat split; cbn; lia.
    + lia.
    + rewrite skipn_length. lia.
    + auto.
    + rewrite F. exists a', (Ok None :: outs). split; [reflexivity|]. split; [exact Ha|].
      unfold own_outputs, foreign_outputs in *. cbn [combine filter]. cbn [fst snd].
      rewrite Hpc, bytes_eqb_refl. cbn [map snd negb].
      split; [|exact Hf']. rewrite Ho.
      assert (0 < length ps)%nat.
      { rewrite <- Hps. destruct (conts_nonempty (length (m_payload m)) (m_cid m) 0 (skipn 57 (m_payload m))) as (n'' & E' & _);
        [rewrite skipn_length; lia|rewrite skipn_length; lia|]. rewrite E'. cbn. lia. }
      destruct (length ps) as [|j]; [lia|]. cbn [Nat.sub]. rewrite Nat.sub_0_r. reflexivity.
  - rewrite skipn_all2 in Hps by lia.
    assert (Hnil : ps = []) by (rewrite <- Hps; destruct (length (m_payload m)); reflexivity).
    clear Hps. subst ps.
    inversion Hw; subst. cbn [feed].
    eexists _, [Ok (Some m)]. split; [reflexivity|]. split; [split; reflexivity|].
    unfold own_outputs, foreign_outputs. cbn [combine filter]. cbn [fst snd].
    rewrite Hpc, bytes_eqb_refl. cbn. split; [reflexivity|constructor].
Qed.
