From Verif Require Import Base Facts Hid.Model Hid.Spec Hid.Proofs.

(* --------------------------------------------- provenance of messages *)

Definition busy_inv (max : N) (evs : list event) (outs : list output) (a : assembler) : Prop :=
  a_idle a = false /\
  exists pre ses len t,
    evs = pre ++ ses /\ session (a_cid a) (a_cmd a) len ses t (a_seq a) (a_payload a) /\
    a_timer a = (t + 100)%N /\
    (length (a_payload a) + a_remaining a = N.to_nat len)%nat /\ (0 < a_remaining a)%nat /\
    (len <= max)%N /\ Nlen (a_payload a) = (57 + 59 * a_seq a)%N /\
    Forall (fun o => delivered o = false) (skipn (length pre) outs).

Definition asm_inv max evs outs a : Prop := idle a \/ busy_inv max evs outs a.

Lemma not_shut l c : (match l with Some x => negb (bytes_eqb x c) | None => false end) = false ->
  ~ shut_out l c.
Proof.
  destruct l as [x|]; cbn; [|tauto]. intros H Hn. apply negb_false_iff in H.
  apply bytes_eqb_spec in H. contradiction.
Qed.

Lemma skipn_snoc_forall {A} (P : A -> Prop) (l : list A) x n :
  Forall P (skipn n l) -> P x -> Forall P (skipn n (l ++ [x])).
Proof.
  intros H Hx. destruct (Nat.leb_spec n (length l)).
  - rewrite skipn_app. replace (n - length l)%nat with 0%nat by lia.
    apply Forall_app. split; [exact H|]. constructor; [exact Hx|constructor].
  - rewrite skipn_all2; [constructor|]. rewrite app_length. cbn. lia.
Qed.

Lemma init_step max evs outs t l p c cmd len data a a' o :
  length outs = length evs -> ev_ok (t, l, p) -> idle a ->
  ~ shut_out l c -> process_single_packet p = (c, PInit cmd len data) ->
  parse_init_packet max t a c cmd len data = (a', o) ->
  asm_inv max (evs ++ [(t, l, p)]) (outs ++ [o]) a' /\
  (forall m, o = Ok (Some m) -> provenance max (evs ++ [(t, l, p)]) outs m).
Proof.
  intros Hlen [Hp _] [Hi Hpay] Hs Hps. cbn [snd] in Hp.
  pose proof (psp_data_len p c _ Hp Hps) as Hd. cbv beta iota in Hd.
  unfold parse_init_packet.
  destruct (N.ltb_spec max len) as [L|L].
  { intros E. injection E as <- <-. split; [left; split; assumption|discriminate]. }
  unfold append_payload. cbn [a_remaining a_cid a_timer a_cmd a_seq a_payload].
  rewrite Hpay. cbn [app].
  destruct (Nat.ltb_spec (length data) (N.to_nat len)) as [L2|L2]; intros E; injection E as <- <-.
  - split; [|discriminate]. right. split; [reflexivity|].
    cbn [a_remaining a_cid a_timer a_cmd a_seq a_payload].
    exists evs, [(t, l, p)], len, t. split; [reflexivity|]. split; [constructor; assumption|].
    split; [reflexivity|]. split; [lia|]. split; [lia|]. split; [lia|]. split; [unfold Nlen; lia|].
    rewrite skipn_app_exact by exact Hlen. constructor; [reflexivity|constructor].
  - split; [left; split; reflexivity|]. intros m E. injection E as <-.
    exists evs, [(t, l, p)], cmd, len, t, 0%N, data. cbn [m_cid m_cmd m_payload].
    split; [reflexivity|]. split; [constructor; assumption|].
    split; [reflexivity|]. split; [reflexivity|].
    split; [unfold Nlen; rewrite firstn_length; lia|]. split; [exact L|].
    rewrite skipn_all2; [constructor|]. apply Nat.eq_le_incl. exact Hlen.
Qed.

Lemma busy_skip max evs outs a e o :
  length outs = length evs -> busy_inv max evs outs a ->
  (shut_out (snd (fst e)) (a_cid a) \/ packet_chan (snd e) <> a_cid a) -> delivered o = false ->
  asm_inv max (evs ++ [e]) (outs ++ [o]) a.
Proof.
  intros Hlen (Hb & pre & ses & len & t & E & S & R) He Ho. right. split; [exact Hb|].
  destruct R as (R1 & R2 & R3 & R4 & R5 & R6).
  destruct e as [[t' l] p]. exists pre, (ses ++ [(t', l, p)]), len, t.
  split; [rewrite E, app_assoc; reflexivity|].
  split; [apply ses_other; assumption|].
  repeat split; try assumption. apply skipn_snoc_forall; assumption.
Qed.

Lemma idle_snoc max evs outs a : idle a -> asm_inv max evs outs a.
Proof. intros H. left. exact H. Qed.

Lemma idle_default : idle asm_default.
Proof. split; reflexivity. Qed.

Lemma asm_step max evs outs a t l p a' o :
  (max <= 7609)%N -> length outs = length evs -> asm_inv max evs outs a -> ev_ok (t, l, p) ->
  asm_parse max t a p l = (a', o) ->
  asm_inv max (evs ++ [(t, l, p)]) (outs ++ [o]) a' /\
  (forall m, o = Ok (Some m) -> provenance max (evs ++ [(t, l, p)]) outs m).
Proof.
  intros Hmax Hlen Hinv Hp. unfold asm_parse.
  destruct (process_single_packet p) as [c pp] eqn:Ep.
  assert (Hpc : packet_chan p = c) by (unfold packet_chan; rewrite Ep; reflexivity).
  destruct (match l with Some x => negb (bytes_eqb x c) | None => false end) eqn:El.
  { intros E. injection E as <- <-. split; [|discriminate].
    destruct Hinv as [Hi|Hb]; [left; exact Hi|].
    apply busy_skip; auto. cbn [fst snd].
    destruct l as [x|]; [|discriminate]. apply negb_true_iff, bytes_eqb_false in El.
    destruct (bytes_eqb c (a_cid a)) eqn:Ec.
    - left. cbn. apply bytes_eqb_spec in Ec. subst c. congruence.
    - right. apply bytes_eqb_false in Ec. congruence. }
  apply not_shut in El.
  destruct (negb (a_idle a) && is_elapsed t (a_timer a)) eqn:Eto; cbn [andb].
  - (* timed out *)
    destruct (bytes_eqb c (a_cid a)).
    { intros E. injection E as <- <-. split; [left; apply idle_default|discriminate]. }
    unfold asm_reset. cbn [a_idle asm_default].
    destruct pp as [cmd len data|seq data]; intros E.
    + eapply init_step; eauto using idle_default.
    + injection E as <- <-. split; [left; apply idle_default|discriminate].
  - destruct (a_idle a) eqn:Ei.
    + assert (Hi : idle a).
      { destruct Hinv as [Hi|[Hb _]]; [exact Hi|congruence]. }
      destruct pp as [cmd len data|seq data]; intros E.
      * eapply init_step; eauto.
      * injection E as <- <-. split; [left; exact Hi|discriminate].
    + assert (Hb : busy_inv max evs outs a).
      { destruct Hinv as [[Hi _]|Hb]; [congruence|exact Hb]. }
      cbn [negb andb] in Eto. unfold is_elapsed in Eto. apply N.leb_gt in Eto.
      destruct (bytes_eqb c (a_cid a)) eqn:Ec; cbn [negb].
      2: { intros E. injection E as <- <-. split; [|discriminate].
           apply bytes_eqb_false in Ec.
           apply busy_skip; auto. cbn [fst snd]. right. congruence. }
      apply bytes_eqb_spec in Ec.
      destruct pp as [cmd len data|seq data].
      * destruct (cmd =? cmd_code Init)%N; intros E.
        -- eapply init_step; eauto using idle_default.
        -- injection E as <- <-. split; [left; apply idle_default|discriminate].
      * destruct (N.eqb_spec seq (a_seq a)) as [Es|Es]; cbn [negb].
        2: { intros E. injection E as <- <-. split; [left; apply idle_default|discriminate]. }
        subst c seq.
        destruct Hb as (_ & pre & ses & len & t0 & E0 & S & R1 & R2 & R3 & R4 & R5 & R6).
        destruct Hp as [Hp Hp2]. cbn [snd] in Hp.
        pose proof (psp_data_len p _ _ Hp Ep) as Hd. cbv beta iota in Hd.
        unfold append_payload. cbn [a_remaining a_cid a_timer a_cmd a_seq a_payload].
        assert (Hmod : ((a_seq a + 1) mod 256 = a_seq a + 1)%N) by (unfold Nlen in *; lia).
        rewrite Hmod.
        assert (S' : session (a_cid a) (a_cmd a) len (ses ++ [(t, l, p)]) t (a_seq a + 1) (a_payload a ++ data)).
        { rewrite R1 in Eto. rewrite Ec in El, Ep. eapply ses_cont; [exact S|exact Eto|exact El|exact Ep]. }
        destruct (Nat.ltb_spec (length data) (a_remaining a)) as [L|L]; intros E; injection E as <- <-.
        -- split; [|discriminate]. right. split; [reflexivity|].
           cbn [a_remaining a_cid a_timer a_cmd a_seq a_payload].
           exists pre, (ses ++ [(t, l, p)]), len, t.
           split; [rewrite E0, app_assoc; reflexivity|]. split; [exact S'|].
           split; [reflexivity|]. rewrite app_length. split; [lia|]. split; [lia|]. split; [exact R4|].
           split; [unfold Nlen in *; rewrite app_length; lia|].
           apply skipn_snoc_forall; auto.
        -- split; [left; split; reflexivity|]. intros m E. injection E as <-.
           exists pre, (ses ++ [(t, l, p)]), (a_cmd a), len, t, (a_seq a + 1)%N, (a_payload a ++ data).
           cbn [m_cid m_cmd m_payload].
           split; [rewrite E0, app_assoc; reflexivity|]. split; [exact S'|]. split; [reflexivity|].
           rewrite <- R2 at 1.
           split; [rewrite firstn_app_2; reflexivity|].
           split; [unfold Nlen; rewrite app_length, firstn_length; lia|].
           split; [exact R4|exact R6].
Qed.

Lemma feed_app max a e1 e2 : feed max a (e1 ++ e2) =
  let '(a1, o1) := feed max a e1 in
  let '(a2, o2) := feed max a1 e2 in (a2, o1 ++ o2).
Proof.
  revert a. induction e1 as [|[[t l] p] e1 IH]; intros a.
  - cbn. destruct (feed max a e2). reflexivity.
  - cbn [app feed]. destruct (asm_parse max t a p l) as [a1 o]. rewrite IH.
    destruct (feed max a1 e1) as [a2 o1]. destruct (feed max a2 e2) as [a3 o2]. reflexivity.
Qed.

Lemma feed_length max a evs : length (snd (feed max a evs)) = length evs.
Proof.
  revert a. induction evs as [|[[t l] p] evs IH]; intros a; [reflexivity|].
  cbn [feed]. destruct (asm_parse max t a p l) as [a1 o]. specialize (IH a1).
  destruct (feed max a1 evs). cbn in *. congruence.
Qed.

Lemma feed_inv max evs : (max <= 7609)%N -> Forall ev_ok evs ->
  asm_inv max evs (snd (feed max asm_default evs)) (fst (feed max asm_default evs)).
Proof.
  intros Hmax. induction evs as [|e evs IH] using rev_ind; intros H.
  - left. apply idle_default.
  - apply Forall_app in H as [H1 H2]. inversion H2; subst. specialize (IH H1).
    pose proof (feed_length max asm_default evs) as HL.
    rewrite feed_app. destruct (feed max asm_default evs) as [a outs]. cbn [fst snd] in *.
    destruct e as [[t l] p]. cbn [feed].
    destruct (asm_parse max t a p l) as [a' o] eqn:E. cbn [fst snd].
    eapply asm_step; eauto.
Qed.

Lemma delivered_provenance max evs t l p a outs a' m :
  (max <= 7609)%N -> Forall ev_ok evs -> ev_ok (t, l, p) ->
  feed max asm_default evs = (a, outs) ->
  asm_parse max t a p l = (a', Ok (Some m)) ->
  provenance max (evs ++ [(t, l, p)]) outs m.
Proof.
  intros Hmax H Hp F E. pose proof (feed_inv max evs Hmax H) as I.
  pose proof (feed_length max asm_default evs) as HL. rewrite F in I, HL. cbn [fst snd] in *.
  eapply asm_step; eauto.
Qed.

Lemma reachable_bounds max evs a outs :
  (max <= 7609)%N -> Forall ev_ok evs -> feed max asm_default evs = (a, outs) ->
  (a_idle a = true -> a_payload a = []) /\
  (Nlen (a_payload a) <= max)%N /\
  (a_idle a = false ->
     (Nlen (a_payload a) + N.of_nat (a_remaining a) <= max)%N /\ (0 < a_remaining a)%nat /\
     (a_seq a < 128)%N).
Proof.
  intros Hmax H F. pose proof (feed_inv max evs Hmax H) as I. rewrite F in I. cbn [fst snd] in I.
  destruct I as [[Hi Hp]|(Hb & pre & ses & len & t & E & S & R1 & R2 & R3 & R4 & R5 & R6)].
  - split; [auto|]. rewrite Hp. split; [unfold Nlen; cbn; lia|congruence].
  - split; [congruence|]. unfold Nlen in *. split; [lia|]. intros _. lia.
Qed.

(** After a timeout the receiver behaves as a fresh one, except that the timed-out channel is
    told. *)
Lemma timeout_fresh max t a p l :
  a_idle a = false -> (a_timer a <= t)%N -> ~ shut_out l (packet_chan p) ->
  asm_parse max t a p l =
  if bytes_eqb (packet_chan p) (a_cid a) then (asm_default, Err (packet_chan p, MsgTimeout))
  else asm_parse max t asm_default p l.
Proof.
  intros Hi Ht Hs. unfold asm_parse, packet_chan in *.
  destruct (process_single_packet p) as [c pp]. cbn [fst] in *.
  assert (El : (match l with Some x => negb (bytes_eqb x c) | None => false end) = false).
  { destruct l as [x|]; [|reflexivity]. cbn in Hs. apply negb_false_iff.
    destruct (bytes_eqb x c) eqn:E; [reflexivity|]. apply bytes_eqb_false in E. contradiction. }
  rewrite El. rewrite Hi. cbn [negb andb]. unfold is_elapsed.
  destruct (N.leb_spec (a_timer a) t); [|lia]. cbn [andb].
  destruct (bytes_eqb c (a_cid a)); [reflexivity|]. reflexivity.
Qed.

(* ------------------------------------------------- channels and locks *)

Lemma hrun_app max h e1 e2 : hrun max h (e1 ++ e2) =
  let '(h1, o1) := hrun max h e1 in
  let '(h2, o2) := hrun max h1 e2 in (h2, o1 ++ o2).
Proof.
  revert h. induction e1 as [|[[t p] d] e1 IH]; intros h.
  - cbn. destruct (hrun max h e2). reflexivity.
  - cbn [app hrun]. destruct (hid_parse max t h p d) as [h1 o]. rewrite IH.
    destruct (hrun max h1 e1) as [h2 o1]. destruct (hrun max h2 e2) as [h3 o2]. reflexivity.
Qed.

Lemma handed_out_app a b : handed_out (a ++ b) = handed_out a ++ handed_out b.
Proof. apply flat_map_app. Qed.

(** The counter after a message, and the response. *)
Definition nth_cid (k : nat) : chan := be_bytes 4 (N.of_nat (S k) mod 2 ^ 32)%N.
Definition count_from (k n : nat) : list chan := map nth_cid (seq k n).

Lemma preprocess_alloc t h m h' o : preprocess_message t h m = (h', o) ->
  (h_allocated h' = h_allocated h /\ handed_out [o] = []) \/
  (h_allocated h' = (h_allocated h + 1)%N /\
   handed_out [o] = [be_bytes 4 ((h_allocated h + 1) mod 2 ^ 32)%N]).
Proof.
  unfold preprocess_message.
  destruct (has_valid_channel h m) eqn:Hv; cbn [negb].
  2: { intros E. injection E as <- <-. left. split; reflexivity. }
  assert (Hecho : m_cmd m <> Init -> handed_out [Some m] = []).
  { intros Hn. cbn [handed_out flat_map]. unfold cmd_eqb. destruct (m_cmd m); try reflexivity. congruence. }
  destruct (m_cmd m) eqn:Ec.
  1, 2, 5, 6: intros E; injection E as <- <-; left; split; [reflexivity|]; apply Hecho; congruence.
  - (* Lock *)
    destruct (m_payload m) as [|s [|? ?]]; try (intros E; injection E as <- <-; left; split; reflexivity).
    destruct (10 <? s)%N; intros E; injection E as <- <-; left; [split; reflexivity|].
    destruct (s =? 0)%N; split; reflexivity.
  - (* Init *)
    destruct (Nat.eqb_spec (length (m_payload m)) 8) as [H8|H8]; cbn [negb].
    2: { intros E; injection E as <- <-; left; split; reflexivity. }
    destruct (bytes_eqb (m_cid m) CHANNEL_BROADCAST) eqn:Eb.
    + intros E. apply pair_equal_spec in E as [E1 E2]. subst h' o. right. split; [reflexivity|].
      unfold handed_out. cbn [flat_map m_cmd m_cid m_payload]. rewrite Eb, app_nil_r.
      change (cmd_eqb Init Init && true) with true. cbv iota.
      rewrite (skipn_app_exact (m_payload m)) by exact H8.
      rewrite firstn_app_exact by (rewrite be_bytes_length; reflexivity). reflexivity.
    + intros E. injection E as <- <-. left. split; [reflexivity|].
      cbn [handed_out flat_map m_cmd m_cid m_payload]. rewrite Eb, andb_false_r. reflexivity.
  - intros E; injection E as <- <-; left; split; reflexivity.
  - intros E; injection E as <- <-; left; split; reflexivity.
  - intros E; injection E as <- <-; left; split; reflexivity.
Qed.

Lemma parse_alloc max t h p d h' o : hid_parse max t h p d = (h', o) ->
  (h_allocated h' = h_allocated h /\ handed_out [o] = []) \/
  (h_allocated h' = (h_allocated h + 1)%N /\
   handed_out [o] = [be_bytes 4 ((h_allocated h + 1) mod 2 ^ 32)%N]).
Proof.
  unfold hid_parse.
  destruct (if d then _ else _) as [h0 lk] eqn:Eh.
  assert (Ha : h_allocated h0 = h_allocated h).
  { destruct d; [injection Eh as <- _; reflexivity|]. unfold locked_channel in Eh.
    injection Eh as <- _. reflexivity. }
  destruct (asm_parse max t (h_asm h0) p lk) as [a [[m|]|[c e]]].
  - intros E. apply preprocess_alloc in E. cbn [h_allocated] in E. rewrite Ha in E. exact E.
  - intros E. injection E as <- <-. left. split; [exact Ha|reflexivity].
  - intros E. injection E as <- <-. left. split; [exact Ha|].
    destruct e; try reflexivity; destruct (negb _); reflexivity.
Qed.

Lemma handed_out_count caps max evs h outs : hrun max (hid_new caps) evs = (h, outs) ->
  handed_out outs = count_from 0 (N.to_nat (h_allocated h)).
Proof.
  revert h outs. induction evs as [|e evs IH] using rev_ind; intros h outs.
  - cbn. intros E. injection E as <- <-. reflexivity.
  - rewrite hrun_app. destruct (hrun max (hid_new caps) evs) as [h1 o1].
    specialize (IH _ _ eq_refl). destruct e as [[t p] d]. cbn [hrun].
    destruct (hid_parse max t h1 p d) as [h2 o] eqn:E. intros E2. injection E2 as <- <-.
    rewrite handed_out_app, IH. apply parse_alloc in E as [[E1 E2]|[E1 E2]]; rewrite E1, E2.
    + rewrite app_nil_r. reflexivity.
    + unfold count_from. rewrite N2Nat.inj_add. change (N.to_nat 1) with 1%nat.
      rewrite seq_app, map_app. f_equal. cbn [seq map]. unfold nth_cid. f_equal. f_equal. f_equal. lia.
Qed.

Lemma nth_cid_inj i j : (N.of_nat (S i) < 2 ^ 32)%N -> (N.of_nat (S j) < 2 ^ 32)%N ->
  nth_cid i = nth_cid j -> i = j.
Proof.
  intros Hi Hj. unfold nth_cid. rewrite !N.mod_small by lia. intros E.
  apply (f_equal of_be) in E. rewrite !of_be_be_bytes in E by (change (256 ^ N.of_nat 4)%N with (2 ^ 32)%N; lia). lia.
Qed.

Lemma count_nodup n : (N.of_nat n < 2 ^ 32)%N -> NoDup (count_from 0 n).
Proof.
  intros Hn. unfold count_from. apply NoDup_map_inj; [|apply seq_NoDup].
  intros i j Hi Hj E. apply in_seq in Hi, Hj. apply nth_cid_inj in E; lia.
Qed.

Lemma count_special n : (N.of_nat n < 2 ^ 32 - 1)%N ->
  ~ In CHANNEL_RESERVED (count_from 0 n) /\ ~ In CHANNEL_BROADCAST (count_from 0 n).
Proof.
  intros Hn. unfold count_from.
  split; intros H; apply in_map_iff in H as (i & E & Hi); apply in_seq in Hi;
  unfold nth_cid in E; rewrite N.mod_small in E by lia; apply (f_equal of_be) in E;
  rewrite of_be_be_bytes in E by (change (256 ^ N.of_nat 4)%N with (2 ^ 32)%N; lia).
  - change (of_be CHANNEL_RESERVED) with 0%N in E. lia.
  - change (of_be CHANNEL_BROADCAST) with (2 ^ 32 - 1)%N in E. lia.
Qed.

Lemma count_in n c : (N.of_nat n < 2 ^ 32)%N -> chan_ok c -> c <> CHANNEL_RESERVED ->
  (of_be c <= N.of_nat n)%N -> In c (count_from 0 n).
Proof.
  intros Hn [Hl Hb] Hr Hc. unfold count_from.
  assert (E : be_bytes 4 (of_be c) = c) by (rewrite <- Hl at 1; apply be_bytes_of_be; exact Hb).
  assert (of_be c <> 0%N).
  { intros Hz. rewrite Hz in E. apply Hr. rewrite <- E. reflexivity. }
  apply in_map_iff. exists (N.to_nat (of_be c) - 1)%nat. split.
  - unfold nth_cid. rewrite N.mod_small by lia. rewrite <- E at 2. f_equal. lia.
  - apply in_seq. lia.
Qed.

(** Every message comes from the channel of the packet that completes it. *)
Lemma init_msg_cid max t a c cmd len data a' m :
  parse_init_packet max t a c cmd len data = (a', Ok (Some m)) -> m_cid m = c.
Proof.
  unfold parse_init_packet. destruct (max <? len)%N; [discriminate|].
  unfold append_payload. cbn [a_remaining a_cid].
  destruct (Nat.ltb _ _); intros E; [discriminate|]. injection E as _ <-. reflexivity.
Qed.

Lemma init_err_cid max t a c cmd len data a' c' e :
  parse_init_packet max t a c cmd len data = (a', Err (c', e)) -> c' = c.
Proof.
  unfold parse_init_packet. destruct (max <? len)%N; [intros E; injection E as _ <- _; reflexivity|].
  destruct (append_payload _ _). discriminate.
Qed.

Lemma asm_cids max t a p l a' r : asm_parse max t a p l = (a', r) ->
  match r with
  | Ok (Some m) => m_cid m = packet_chan p
  | Ok None => True
  | Err (c, _) => c = packet_chan p
  end.
Proof.
  unfold asm_parse, packet_chan. destruct (process_single_packet p) as [c pp]. cbn [fst].
  destruct (match l with Some x => negb (bytes_eqb x c) | None => false end).
  { intros E. injection E as _ <-. reflexivity. }
  destruct (_ && bytes_eqb c (a_cid a)).
  { intros E. injection E as _ <-. reflexivity. }
  set (a0 := if negb (a_idle a) && is_elapsed t (a_timer a) then asm_reset a else a). clearbody a0.
  assert (Hinit : forall x cmd len data, parse_init_packet max t x c cmd len data = (a', r) ->
    match r with Ok (Some m) => m_cid m = c | Ok None => True | Err (c', _) => c' = c end).
  { intros x cmd len data E. destruct r as [[m|]|[c' e]]; [eapply init_msg_cid; eauto|exact I|].
    eapply init_err_cid; eauto. }
  destruct (a_idle a0).
  { destruct pp; [apply Hinit|]. intros E. injection E as _ <-. reflexivity. }
  destruct (bytes_eqb c (a_cid a0)) eqn:Ec; cbn [negb].
  2: { intros E. injection E as _ <-. reflexivity. }
  apply bytes_eqb_spec in Ec.
  destruct pp as [cmd len data|seq data].
  { destruct (_ =? _)%N; [apply Hinit|]. intros E. injection E as _ <-. reflexivity. }
  destruct (negb (seq =? a_seq a0)%N). { intros E. injection E as _ <-. reflexivity. }
  unfold append_payload. cbn [a_remaining a_cid].
  destruct (Nat.ltb _ _); intros E; injection E as _ <-; [exact I|]. cbn. congruence.
Qed.

Lemma preprocess_cid t h m h' r : preprocess_message t h m = (h', Some r) -> m_cid r = m_cid m.
Proof.
  unfold preprocess_message. destruct (negb _).
  { intros E. injection E as _ <-. reflexivity. }
  destruct (m_cmd m); try (intros E; injection E as _ <-; reflexivity); try discriminate.
  - destruct (m_payload m) as [|s [|? ?]]; try (intros E; injection E as _ <-; reflexivity).
    destruct (10 <? s)%N; intros E; injection E as _ <-; reflexivity.
  - destruct (negb _); [intros E; injection E as _ <-; reflexivity|].
    destruct (if bytes_eqb _ _ then _ else _) as [h2 nc].
    intros E. apply pair_equal_spec in E as [_ E]. injection E as <-. reflexivity.
Qed.

(** A response goes to the channel of the packet; it is either an error, or a message
    accepted on a valid channel. *)
Lemma parse_cid max t h p d h' r : hid_parse max t h p d = (h', Some r) ->
  m_cid r = packet_chan p.
Proof.
  unfold hid_parse. destruct (if d then _ else _) as [h0 lk].
  destruct (asm_parse max t (h_asm h0) p lk) as [a x] eqn:E.
  pose proof (asm_cids _ _ _ _ _ _ _ E) as Hc.
  destruct x as [[m|]|[c e]]; [| discriminate |].
  - intros P. apply preprocess_cid in P. congruence.
  - destruct e; try discriminate; destruct (negb _); intros P; injection P as _ <-; exact Hc.
Qed.

Lemma preprocess_valid t h m h' r : preprocess_message t h m = (h', Some r) ->
  m_cmd r <> Error -> has_valid_channel h m = true /\ m_cmd r = m_cmd m.
Proof.
  unfold preprocess_message. destruct (has_valid_channel h m); cbn [negb].
  2: { intros E. injection E as _ <-. cbn. congruence. }
  destruct (m_cmd m) eqn:Em; try (intros E; injection E as _ <-; cbn; auto; congruence); try discriminate.
  - destruct (m_payload m) as [|s [|? ?]]; try (intros E; injection E as _ <-; cbn; congruence).
    destruct (10 <? s)%N; intros E; injection E as _ <-; cbn; auto; congruence.
  - destruct (negb _); [intros E; injection E as _ <-; cbn; congruence|].
    destruct (if bytes_eqb _ _ then _ else _) as [h2 nc].
    intros E. apply pair_equal_spec in E as [_ E]. injection E as <-. cbn. auto.
Qed.

Lemma parse_valid max t h p d h' r : hid_parse max t h p d = (h', Some r) ->
  m_cmd r <> Error -> m_cid r <> CHANNEL_BROADCAST -> is_allocated_channel h (m_cid r) = true.
Proof.
  unfold hid_parse. destruct (if d then _ else _) as [h0 lk] eqn:Eh.
  assert (Ha : h_allocated h0 = h_allocated h).
  { destruct d; [injection Eh as <- _; reflexivity|]. unfold locked_channel in Eh.
    injection Eh as <- _. reflexivity. }
  destruct (asm_parse max t (h_asm h0) p lk) as [a x] eqn:E.
  destruct x as [[m|]|[c e]]; [| discriminate |].
  - intros P He Hb. pose proof (preprocess_cid _ _ _ _ _ P) as Hc.
    destruct (preprocess_valid _ _ _ _ _ P He) as [Hv _].
    unfold has_valid_channel in Hv. rewrite Hc in Hb |- *.
    apply bytes_eqb_false in Hb. rewrite Hb in Hv.
    unfold is_allocated_channel in *. cbn [h_allocated] in Hv. rewrite Ha in Hv. exact Hv.
  - destruct e; try discriminate; destruct (negb _); intros P; injection P as _ <-; cbn; congruence.
Qed.

Lemma processed_handed_out caps max evs h outs t p d h' r :
  hrun max (hid_new caps) evs = (h, outs) -> (h_allocated h < 2 ^ 32)%N -> packet_ok p ->
  hid_parse max t h p d = (h', Some r) -> m_cmd r <> Error -> m_cid r <> CHANNEL_BROADCAST ->
  In (m_cid r) (handed_out outs).
Proof.
  intros H Hn Hp E He Hb. rewrite (handed_out_count _ _ _ _ _ H).
  pose proof (parse_valid _ _ _ _ _ _ _ E He Hb) as Hv.
  pose proof (parse_cid _ _ _ _ _ _ _ E) as Hc. pose proof (psp_chan_ok p Hp) as Hok.
  rewrite <- Hc in Hok. unfold is_allocated_channel in Hv.
  apply andb_true_iff in Hv as [Hv1 Hv2]. apply negb_true_iff, bytes_eqb_false in Hv1.
  apply count_in; auto; lia.
Qed.

(* ---------------------------------------------------------------- locks *)

Lemma hid_eta h : mkHid (h_asm h) (h_allocated h) (h_caps h) (h_locked h) (h_lock_timer h) = h.
Proof. destruct h. reflexivity. Qed.

Lemma lock_live_iff now h c : lock_live now h c <->
  (now < h_lock_timer h)%N /\ h_locked h = Some c.
Proof.
  unfold lock_live, locked_channel, is_elapsed. cbn [snd].
  destruct (N.leb_spec (h_lock_timer h) now); split; try discriminate; intros H0.
  - destruct H0. unfold timer in *. lia.
  - split; [assumption|exact H0].
  - apply H0.
Qed.

Lemma shut_out_parse max t a p x : x <> packet_chan p ->
  asm_parse max t a p (Some x) = (a, Err (packet_chan p, ChannelBusy)).
Proof.
  intros H. unfold asm_parse, packet_chan in *. destruct (process_single_packet p) as [c pp].
  cbn [fst] in *. apply bytes_eqb_false in H. rewrite H. reflexivity.
Qed.

Lemma locked_exclusive max now h p c : lock_live now h c -> packet_chan p <> c ->
  hid_parse max now h p false = (h, Some (busy_response h (packet_chan p))).
Proof.
  intros HL Hc. unfold hid_parse. unfold lock_live in HL.
  destruct (locked_channel now h) as [h0 l] eqn:E. cbn [snd] in HL. subst l.
  assert (h0 = h).
  { unfold locked_channel in E. destruct (is_elapsed now (h_lock_timer h)); [congruence|].
    injection E as <- Hl. apply hid_eta. }
  subst h0. rewrite shut_out_parse by congruence. rewrite hid_eta.
  unfold busy_response. destruct (is_allocated_channel h (packet_chan p)); reflexivity.
Qed.

Lemma disabled_exclusive max now h p : packet_chan p <> CHANNEL_RESERVED ->
  hid_parse max now h p true = (h, Some (busy_response h (packet_chan p))).
Proof.
  intros Hc. unfold hid_parse. rewrite shut_out_parse by congruence. rewrite hid_eta.
  unfold busy_response. destruct (is_allocated_channel h (packet_chan p)); reflexivity.
Qed.

Lemma reserved_inert max now h p d h' o : packet_chan p = CHANNEL_RESERVED ->
  hid_parse max now h p d = (h', o) ->
  (o = None \/ o = Some (error_message CHANNEL_RESERVED InvalidChannel)) /\
  h_allocated h' = h_allocated h /\ h_lock_timer h' = h_lock_timer h /\
  (forall t c, (now <= t)%N -> (lock_live t h' c <-> lock_live t h c)).
Proof.
  intros Hc. unfold hid_parse. destruct (if d then _ else _) as [h0 lk] eqn:Eh.
  assert (Ha : h_allocated h0 = h_allocated h /\ h_lock_timer h0 = h_lock_timer h /\
    (forall t c, (now <= t)%N -> (lock_live t h0 c <-> lock_live t h c))).
  { destruct d; [injection Eh as <- _; repeat split; auto|].
    unfold locked_channel in Eh. injection Eh as <- _. cbn. repeat split; auto.
    - rewrite !lock_live_iff. cbn [h_lock_timer h_locked]. unfold is_elapsed.
      destruct (N.leb_spec (h_lock_timer h) now); intros [A B]; [discriminate|auto].
    - rewrite !lock_live_iff. cbn [h_lock_timer h_locked]. unfold is_elapsed.
      destruct (N.leb_spec (h_lock_timer h) now); intros [A B]; [|auto].
      unfold timer in *; lia. }
  destruct (asm_parse max now (h_asm h0) p lk) as [a x] eqn:E.
  pose proof (asm_cids _ _ _ _ _ _ _ E) as Hm.
  assert (Hl : forall a', forall t c, (now <= t)%N ->
    (lock_live t (mkHid a' (h_allocated h0) (h_caps h0) (h_locked h0) (h_lock_timer h0)) c <-> lock_live t h c)).
  { intros a' t c Ht. rewrite <- (proj2 (proj2 Ha) t c Ht). rewrite !lock_live_iff. reflexivity. }
  destruct x as [[m|]|[c e]].
  - unfold preprocess_message, has_valid_channel, is_allocated_channel.
    rewrite Hm, Hc. cbn [bytes_eqb CHANNEL_RESERVED CHANNEL_BROADCAST negb andb].
    change (bytes_eqb CHANNEL_RESERVED CHANNEL_RESERVED) with true.
    change (bytes_eqb CHANNEL_RESERVED CHANNEL_BROADCAST) with false. cbn [negb andb].
    intros P. injection P as <- <-. cbn. repeat split; try tauto; apply Hl; assumption.
  - intros P. injection P as <- <-. cbn. repeat split; try tauto; apply Hl; assumption.
  - subst c. rewrite Hc. unfold is_allocated_channel.
    change (bytes_eqb CHANNEL_RESERVED CHANNEL_RESERVED) with true. cbn [negb andb].
    intros P. injection P as <- <-. cbn.
    split; [destruct e; tauto|]. repeat split; try tauto; apply Hl; assumption.
Qed.

Lemma cmd_eqb_eq a b : cmd_eqb a b = true -> a = b.
Proof. destruct a, b; cbn; try reflexivity; discriminate. Qed.

Lemma parse_lock max t h p d h' o : hid_parse max t h p d = (h', o) ->
  (lock_reply o = false /\ h_lock_timer h' = h_lock_timer h /\
     (h_locked h' = h_locked h \/ h_locked h' = None)) \/
  (lock_reply o = true /\ exists c s, lock_request max t h p d c s /\
     h_locked h' = (if (s =? 0)%N then None else Some c) /\
     (s <> 0%N -> h_lock_timer h' = (t + 1000 * s)%N)).
Proof.
  unfold hid_parse, lock_request.
  destruct (if d then (h, Some CHANNEL_RESERVED) else locked_channel t h) as [h0 lk] eqn:Eh.
  assert (Ha : h_asm h0 = h_asm h /\ h_allocated h0 = h_allocated h /\ h_lock_timer h0 = h_lock_timer h /\
    (h_locked h0 = h_locked h \/ h_locked h0 = None) /\
    lk = (if d then Some CHANNEL_RESERVED else snd (locked_channel t h))).
  { destruct d; [injection Eh as <- <-; repeat split; auto|]. rewrite Eh. cbn [snd].
    unfold locked_channel in Eh.
    injection Eh as E1 E2. subst h0 lk. cbn. destruct (is_elapsed t (h_lock_timer h)); repeat split; auto. }
  destruct Ha as (A1 & A2 & A3 & A4 & A5). rewrite <- A5, <- A1.
  destruct (asm_parse max t (h_asm h0) p lk) as [a x] eqn:E. cbn [snd].
  destruct x as [[m|]|[c e]].
  - unfold preprocess_message.
    set (h1 := mkHid a (h_allocated h0) (h_caps h0) (h_locked h0) (h_lock_timer h0)).
    destruct (has_valid_channel h1 m) eqn:Hv; cbn [negb].
    2: { intros P. injection P as <- <-. left. cbn. auto. }
    destruct (m_cmd m) eqn:Em.
    3: { destruct (m_payload m) as [|s [|? ?]] eqn:Ep;
           try (intros P; injection P as <- <-; left; cbn; auto; fail).
         destruct (N.ltb_spec 10 s); intros P; injection P as <- <-; [left; cbn; auto|].
         right. split; [reflexivity|]. exists (m_cid m), s.
         assert (Hb : bytes_eqb (m_cid m) CHANNEL_BROADCAST = false).
         { unfold has_valid_channel in Hv. destruct (bytes_eqb _ _); [|reflexivity].
           rewrite Em in Hv. discriminate. }
         split; [split; [|split; [assumption|]]|].
         - destruct m; cbn in *; subst; reflexivity.
         - unfold has_valid_channel in Hv. rewrite Hb in Hv.
           unfold is_allocated_channel in *. cbn [h1 h_allocated] in Hv. rewrite A2 in Hv.
           split; [exact Hv|]. apply bytes_eqb_false. exact Hb.
         - destruct (N.eqb_spec s 0); cbn; split; try reflexivity. contradiction. }
    3: { destruct (negb _); [intros P; injection P as <- <-; left; cbn; auto|].
         destruct (bytes_eqb (m_cid m) CHANNEL_BROADCAST); intros P;
         apply pair_equal_spec in P as [P1 P2]; subst h' o; left; cbn; auto. }
    all: intros P; injection P as <- <-; left; unfold lock_reply; cbn; try rewrite Em; cbn; auto.
  - intros P. injection P as <- <-. left. cbn. auto.
  - intros P. injection P as <- <-. left. cbn [h_locked h_lock_timer]. split; auto.
    destruct e; try reflexivity; destruct (negb _); reflexivity.
Qed.

(** Any lock in force was set by the last successful LOCK. *)
Lemma lock_origin caps max evs h outs c :
  hrun max (hid_new caps) evs = (h, outs) -> h_locked h = Some c ->
  exists e1 t p d e2 h1 o1 h2 o2 s,
    evs = e1 ++ (t, p, d) :: e2 /\ hrun max (hid_new caps) e1 = (h1, o1) /\
    lock_request max t h1 p d c s /\ (1 <= s)%N /\ h_lock_timer h = (t + 1000 * s)%N /\
    hrun max h1 ((t, p, d) :: e2) = (h2, o2) /\
    Forall (fun o => lock_reply o = false) (tl o2).
Proof.
  revert h outs. induction evs as [|e evs IH] using rev_ind; intros h outs.
  - cbn. intros E. injection E as <- <-. discriminate.
  - rewrite hrun_app. destruct (hrun max (hid_new caps) evs) as [h0 o0] eqn:E0.
    specialize (IH _ _ eq_refl). destruct e as [[t p] d]. cbn [hrun].
    destruct (hid_parse max t h0 p d) as [h3 o3] eqn:E3. intros E. injection E as <- <-. intros Hl.
    pose proof (parse_lock _ _ _ _ _ _ _ E3) as [(A & B & C)|(A & c' & s & R & L & T)].
    + assert (Hl0 : h_locked h0 = Some c) by (destruct C; congruence).
      destruct (IH Hl0) as (e1 & t1 & p1 & d1 & e2 & h1 & o1 & h2 & o2 & s & H1 & H2 & H3 & H4 & H5 & H6 & H7).
      exists e1, t1, p1, d1, (e2 ++ [(t, p, d)]), h1, o1, h3, (o2 ++ [o3]), s.
      split; [rewrite H1, <- app_assoc; reflexivity|]. split; [exact H2|]. split; [exact H3|].
      split; [exact H4|]. split; [congruence|].
      split.
      * change (hrun max h1 (((t1, p1, d1) :: e2) ++ [(t, p, d)]) = (h3, o2 ++ [o3])). rewrite hrun_app, H6.
        assert (h2 = h0).
        { rewrite H1, hrun_app, H2 in E0. rewrite H6 in E0. congruence. }
        subst h2. cbn [hrun]. rewrite E3. reflexivity.
      * destruct o2 as [|x o2]; [constructor|]. cbn [app tl] in *.
        apply Forall_app. split; [exact H7|]. constructor; [exact A|constructor].
    + destruct (N.eqb_spec s 0) as [Hs|Hs]; [congruence|].
      assert (c' = c) by congruence. subst c'.
      exists evs, t, p, d, [], h0, o0, h3, [o3], s. cbn [hrun]. rewrite E3.
      split; [reflexivity|]. split; [exact E0|]. split; [exact R|]. split; [lia|].
      split; [auto|]. split; [reflexivity|]. constructor.
Qed.

Lemma lock_lasts max t h p d h' o c s :
  hid_parse max t h p d = (h', o) -> lock_request max t h p d c s -> (1 <= s)%N ->
  forall t', lock_live t' h' c <-> (t' < t + 1000 * s)%N.
Proof.
  intros E (R1 & R2 & R3 & R4) Hs t'. rewrite lock_live_iff.
  pose proof (parse_lock _ _ _ _ _ _ _ E) as [(A & B & C)|(A & c' & s' & (Q1 & Q2 & Q3 & Q4) & L & T)].
  - exfalso. revert E. unfold hid_parse.
    destruct (if d then (h, Some CHANNEL_RESERVED) else locked_channel t h) as [h0 lk] eqn:Eh.
    assert (Ha : h_asm h0 = h_asm h /\ h_allocated h0 = h_allocated h /\
      lk = (if d then Some CHANNEL_RESERVED else snd (locked_channel t h))).
    { destruct d; [injection Eh as <- <-; auto|]. rewrite Eh. unfold locked_channel in Eh.
      injection Eh as <- <-. cbn. auto. }
    destruct Ha as (A1 & A2 & A3). rewrite <- A3, <- A1 in R1.
    destruct (asm_parse max t (h_asm h0) p lk) as [a x]. cbn [snd] in R1. subst x.
    unfold preprocess_message, has_valid_channel. cbn [m_cid m_cmd m_payload].
    apply bytes_eqb_false in R4. rewrite R4.
    unfold is_allocated_channel in *. cbn [h_allocated]. rewrite A2, R3. cbn [negb].
    destruct (N.ltb_spec 10 s); [lia|]. intros P. injection P as _ <-. discriminate.
  - rewrite R1 in Q1. injection Q1 as -> ->. destruct (N.eqb_spec s' 0); [lia|].
    rewrite L, T by lia. tauto.
Qed.
