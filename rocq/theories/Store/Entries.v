(** Entries of the store as words, and how they parse. *)
From Verif Require Import Base Facts.
From Verif.Kv Require Import Model.
From Verif.Store Require Import Format Bits Words Geom Model Wp.
Open Scope nat_scope.
Ltac Zify.zify_post_hook ::= idtac.

(** An entry: with a value, deleted, internal; or a gap at the end of the page being compacted. *)
Inductive ent := Live (k : N) (v : bytes) | Dead (ws : list N) | Intl (i : internal) | Gap (n : nat).
Definition ewords (e : ent) : list N :=
  match e with
  | Live k v => user_words k v
  | Dead ws => ws
  | Intl i => [int_word i]
  | Gap n => repeat ERASED n
  end.
Definition elen (e : ent) : nat := length (ewords e).
Definition flat (es : list ent) : list N := concat (map ewords es).
Definition plen (es : list ent) : nat := length (flat es).
Definition lives1 (e : ent) : kv := match e with Live k v => [(k, v)] | _ => [] end.
Definition lives (es : list ent) : kv := flat_map lives1 es.
Definition live_len (es : list ent) : nat :=
  plen (filter (fun e => match e with Live _ _ => true | _ => false end) es).

Lemma flat_app a b : flat (a ++ b) = flat a ++ flat b.
Proof. unfold flat. rewrite map_app, concat_app. reflexivity. Qed.
Lemma flat_cons e b : flat (e :: b) = ewords e ++ flat b.
Proof. reflexivity. Qed.
Lemma plen_app a b : plen (a ++ b) = plen a + plen b.
Proof. unfold plen. rewrite flat_app, app_length. reflexivity. Qed.
Lemma plen_cons e b : plen (e :: b) = elen e + plen b.
Proof. unfold plen, elen. rewrite flat_cons, app_length. reflexivity. Qed.
Lemma plen_nil : plen [] = 0.
Proof. reflexivity. Qed.
Lemma plen_one e : plen [e] = elen e.
Proof. rewrite plen_cons, plen_nil. lia. Qed.
Lemma lives_app a b : lives (a ++ b) = lives a ++ lives b.
Proof. unfold lives. apply flat_map_app. Qed.
Lemma live_len_app a b : live_len (a ++ b) = live_len a + live_len b.
Proof. unfold live_len. rewrite filter_app. apply plen_app. Qed.
Lemma live_len_le a : live_len a <= plen a.
Proof.
  induction a as [|e a IH]; [cbn; lia|]. unfold live_len in *. cbn [filter].
  destruct e; rewrite ?plen_cons; lia.
Qed.

Lemma nth_repeat_erased i n : nth i (repeat ERASED n) ERASED = ERASED.
Proof. revert i. induction n; intros [|i]; cbn; auto. Qed.
(** The trailing erased words of a list. *)
Lemma trim xs : exists gs n, xs = gs ++ repeat ERASED n /\ (gs = [] \/ last gs 0%N <> ERASED).
Proof.
  induction xs as [|x xs (gs & n & E & H)].
  - exists [], 0. split; [reflexivity|left; reflexivity].
  - destruct gs as [|g gs].
    + destruct (N.eq_dec x ERASED) as [->|Ne].
      * exists [], (S n). split; [cbn; cbn in E; congruence|left; reflexivity].
      * exists [x], n. split; [cbn; cbn in E; congruence|right; exact Ne].
    + exists (x :: g :: gs), n. split; [cbn; cbn in E; congruence|right].
      destruct H as [H|H]; [discriminate|]. exact H.
Qed.

Section ENTRIES.
Variable F : format.
Hypothesis G : wff F.
Notation Q := (virt_page_size F).
Notation MP := (max_prefix F).

Definition eok (e : ent) : Prop :=
  match e with
  | Live k v => (k <= MAX_KEY)%N /\ bytes_ok v = true /\ length v <= max_value F
  | Dead ws =>
      Forall w32 ws /\ exists w r, ws = w :: r /\ length r <= MP /\
        parse_word F w = Ok (Valid (PPadding (length r)))
  | Intl i => int_ok i /\ internal_invalid F i = false
  | Gap n => 0 < n <= Q
  end.

Lemma live_facts k v : eok (Live k v) ->
  build_user k v = Ok (user_words k v) /\ user_words k v = head_word k v :: value_words v /\
  w32 (head_word k v) /\ head_word k v <> ERASED /\
  parse_word F (head_word k v) =
    Ok (Valid (PHeader (mkHeader (flip_of v) (length v) k (footer_zeros v)))) /\
  (forall x, w32 x -> sub (head_word k v) x -> x <> head_word k v ->
     parse_word F x = Ok Erased \/ parse_word F x = Ok Partial \/
     exists h, parse_word F x = Ok (Valid (PHeader h)) /\
       (length v <= h_length h)%nat /\ (footer_zeros v < h_checksum h)%N /\ (h_key h <= 4095)%N).
Proof.
  intros (H1 & H2 & H3). apply user_word_parse; [exact H1|].
  pose proof (g_len F G). unfold Nlen. lia.
Qed.
Lemma intl_facts i : eok (Intl i) ->
  build_internal i = Ok (int_word i) /\ w32 (int_word i) /\ int_word i <> ERASED /\
  parse_word F (int_word i) = Ok (Valid (PInternal i)) /\
  (forall x, w32 x -> sub (int_word i) x -> x <> int_word i ->
     parse_word F x = Ok Erased \/ parse_word F x = Ok Partial).
Proof. intros [H1 H2]. apply int_word_parse; assumption. Qed.
Lemma live_elen k v : eok (Live k v) -> elen (Live k v) = 1 + to_words (length v) /\
  to_words (length v) <= MP.
Proof.
  intros H. pose proof (live_facts k v H) as (_ & E & _). unfold elen. cbn [ewords].
  rewrite E. cbn [length]. rewrite value_words_length. split; [reflexivity|].
  destruct H as (_ & _ & H). apply (g_mono F G), H.
Qed.
Lemma eok_w32 e : eok e -> Forall w32 (ewords e).
Proof.
  destruct e as [k v|ws|i|n]; intros H.
  - pose proof (live_facts k v H) as (_ & E & W & _). cbn [ewords]. rewrite E.
    constructor; [exact W|]. apply value_words_w32. apply H.
  - apply H.
  - pose proof (intl_facts i H) as (_ & W & _). cbn. constructor; [exact W|constructor].
  - cbn. apply Forall_forall. intros x Hx. apply repeat_spec in Hx. subst x. apply w32_erased.
Qed.
Lemma eok_len e : eok e -> 0 < elen e <= Q.
Proof.
  pose proof (g_M F G). destruct e as [k v|ws|i|n]; intros H0.
  - destruct (live_elen k v H0) as [-> ?]. lia.
  - destruct H0 as (_ & w & r & -> & L & _). unfold elen. cbn [ewords length]. lia.
  - unfold elen. cbn [ewords length]. lia.
  - unfold elen. cbn [ewords]. rewrite repeat_length. exact H0.
Qed.
Lemma eok_len' e : eok e -> (forall n, e <> Gap n) -> 0 < elen e <= MP + 1.
Proof.
  pose proof (g_M F G). destruct e as [k v|ws|i|n]; intros H0 Hg.
  - destruct (live_elen k v H0) as [-> ?]. lia.
  - destruct H0 as (_ & w & r & -> & L & _). unfold elen. cbn [ewords length]. lia.
  - unfold elen. cbn [ewords length]. lia.
  - exfalso. apply (Hg n). reflexivity.
Qed.
Lemma plen_ge es : Forall eok es -> length es <= plen es.
Proof.
  induction 1 as [|e es He H IH]; [cbn; lia|]. rewrite plen_cons. cbn [length].
  pose proof (eok_len e He). lia.
Qed.

(* ---------------------------------------------------------------- segments *)

Definition seg (f : flash) (pos : nat) (ws : list N) : Prop :=
  forall i, i < length ws -> read_word F f (pos + i) = nth i ws 0%N.
Definition blank (f : flash) (a b : nat) : Prop :=
  forall p, a <= p < b -> read_word F f p = ERASED.

Lemma seg_app f pos a b : seg f pos (a ++ b) <-> seg f pos a /\ seg f (pos + length a) b.
Proof.
  unfold seg. rewrite app_length. split.
  - intros H. split; intros i Hi.
    + rewrite H by lia. apply app_nth1, Hi.
    + rewrite <- Nat.add_assoc. rewrite H by lia. rewrite app_nth2 by lia. f_equal. lia.
  - intros [H1 H2] i Hi. destruct (Nat.lt_ge_cases i (length a)) as [L|L].
    + rewrite H1 by exact L. symmetry. apply app_nth1, L.
    + rewrite app_nth2 by lia. rewrite <- H2 by lia. f_equal. lia.
Qed.
Lemma seg_nil f pos : seg f pos [].
Proof. intros i Hi. cbn in Hi. lia. Qed.
Lemma seg_one f pos w : seg f pos [w] <-> read_word F f pos = w.
Proof.
  unfold seg. cbn [length]. split.
  - intros H. specialize (H 0 ltac:(lia)). rewrite Nat.add_0_r in H. exact H.
  - intros H i Hi. assert (i = 0) by lia. subst i. rewrite Nat.add_0_r. exact H.
Qed.
Lemma seg_cons f pos w ws : seg f pos (w :: ws) <-> read_word F f pos = w /\ seg f (pos + 1) ws.
Proof. change (w :: ws) with ([w] ++ ws). rewrite seg_app, seg_one. reflexivity. Qed.
Lemma blank_seg f a n : blank f a (a + n) <-> seg f a (repeat ERASED n).
Proof.
  unfold blank, seg. rewrite repeat_length. split.
  - intros H i Hi. rewrite H by lia. rewrite (nth_indep _ 0%N ERASED).
    + symmetry. apply nth_repeat_erased.
    + rewrite repeat_length. exact Hi.
  - intros H p Hp. replace p with (a + (p - a)) by lia. rewrite H by lia.
    rewrite (nth_indep _ 0%N ERASED).
    + apply nth_repeat_erased.
    + rewrite repeat_length. lia.
Qed.
Lemma blank_mono f a b a' b' : blank f a b -> a <= a' -> b' <= b -> blank f a' b'.
Proof. intros H H1 H2 p Hp. apply H. lia. Qed.
Lemma blank_join f a b c : blank f a b -> blank f b c -> blank f a c.
Proof. intros H1 H2 p Hp. destruct (Nat.lt_ge_cases p b); [apply H1|apply H2]; lia. Qed.
Lemma seg_words f pos ws : seg f pos ws -> read_words F f pos (length ws) = ws.
Proof.
  intros H. unfold read_words. apply nth_ext with 0%N 0%N.
  - rewrite map_length, seq_length. reflexivity.
  - rewrite map_length, seq_length. intros i Hi.
    rewrite (nth_indep _ 0%N (read_word F f (pos + 0))) by (rewrite map_length, seq_length; exact Hi).
    rewrite (map_nth (fun i => read_word F f (pos + i)) (seq 0 (length ws)) 0).
    rewrite seq_nth by exact Hi. apply H, Hi.
Qed.

(* ----------------------------------------------------------------- parsing *)

Definition pent (e : ent) : pentry :=
  match e with
  | Live k v => EUser (mkHeader (flip_of v) (length v) k (footer_zeros v))
  | Dead _ => EPadding
  | Intl i => EInternal i
  | Gap _ => ETail
  end.
Lemma nth_last {A} (l : list A) d : nth (length l - 1) l d = last l d.
Proof.
  induction l as [|x l IH]; [reflexivity|]. destruct l as [|y l]; [reflexivity|].
  rewrite last_cons. cbn [length]. replace (S (S (length l)) - 1) with (S (length (y :: l) - 1))
    by (cbn; lia). exact IH.
Qed.
Lemma parse_ent f pos e : eok e -> (forall n, e <> Gap n) -> seg f pos (ewords e) ->
  parse_entry F f pos = Ok (pent e, pos + elen e).
Proof.
  intros H Hg Hs. unfold parse_entry. destruct e as [k v|ws|i|n].
  - destruct (live_elen k v H) as [El Em]. rewrite El.
    pose proof (live_facts k v H) as (_ & E & W & _ & P & _). cbn [ewords] in Hs.
    rewrite E in Hs. pose proof Hs as Hs'. apply seg_cons in Hs as [R0 Rs]. rewrite R0, P. cbn [rbind].
    destruct H as (Hk & Hv & Hl). cbn [h_length h_key].
    replace (max_value F <? length v) with false by (symmetry; apply Nat.ltb_ge; exact Hl).
    replace (MAX_KEY <? k)%N with false by (symmetry; apply N.ltb_ge; exact Hk).
    assert (C : header_check (mkHeader (flip_of v) (length v) k (footer_zeros v))
              (if to_words (length v) =? 0 then None
               else Some (read_word F f (pos + to_words (length v)))) = true).
    { unfold header_check, footer_zeros. cbn [h_checksum].
      pose proof (value_words_length v) as L.
      destruct (to_words (length v) =? 0) eqn:E0.
      - apply Nat.eqb_eq in E0. rewrite E0 in L. apply length_zero_iff_nil in L. rewrite L.
        reflexivity.
      - apply Nat.eqb_neq in E0. specialize (Rs (to_words (length v) - 1)).
        replace (pos + 1 + (to_words (length v) - 1)) with (pos + to_words (length v)) in Rs by lia.
        rewrite Rs by lia. rewrite <- L, nth_last.
        destruct (value_words v) eqn:Ev; [cbn [length] in L; lia|]. apply N.eqb_refl. }
    rewrite C. reflexivity.
  - destruct H as (_ & w & r & -> & Lr & P). cbn [ewords] in Hs. apply seg_cons in Hs as [R0 _].
    rewrite R0, P. reflexivity.
  - pose proof (intl_facts i H) as (_ & W & _ & P & _). cbn [ewords] in Hs.
    apply seg_one in Hs. rewrite Hs, P. reflexivity.
  - exfalso. apply (Hg n). reflexivity.
Qed.

(** Partial entries end with their last non-erased word. *)
Lemma parse_partial_none f pos : blank f pos (pos + MP) ->
  parse_partial F f pos = (ETail, pos).
Proof.
  intros H. unfold parse_partial.
  assert (E : forall l, (forall i, In i l -> i < MP) ->
    fold_left (fun acc i => if (read_word F f (pos + i) =? ERASED)%N then acc else Some i) l None
    = None).
  { induction l as [|i l IH]; intros Hl; [reflexivity|]. cbn [fold_left].
    rewrite H by (specialize (Hl i (or_introl eq_refl)); lia). rewrite N.eqb_refl.
    apply IH. intros j Hj. apply Hl. right. exact Hj. }
  rewrite E; [reflexivity|]. intros i Hi. apply in_seq in Hi. lia.
Qed.
Lemma parse_partial_some f pos gs : gs <> [] -> last gs 0%N <> ERASED -> length gs <= MP ->
  seg f pos gs -> blank f (pos + length gs) (pos + MP) ->
  parse_partial F f pos = (EPartial, pos + length gs).
Proof.
  intros Hne Hl Hm Hs Hb. unfold parse_partial.
  assert (L : length gs <> 0) by (destruct gs; [congruence|discriminate]).
  replace (seq 0 MP) with (seq 0 (length gs - 1) ++ [length gs - 1]
                           ++ seq (length gs) (MP - length gs)).
  2:{ rewrite app_assoc.
      change [length gs - 1] with (seq (0 + (length gs - 1)) 1). rewrite <- seq_app.
      replace (length gs - 1 + 1) with (length gs) by lia.
      change (seq (length gs) (MP - length gs)) with (seq (0 + length gs) (MP - length gs)).
      rewrite <- seq_app. f_equal. lia. }
  rewrite !fold_left_app. cbn [fold_left].
  rewrite (Hs (length gs - 1)) by lia. rewrite nth_last.
  apply N.eqb_neq in Hl. rewrite Hl.
  assert (E : forall l a, (forall i, In i l -> length gs <= i < MP) ->
    fold_left (fun acc i => if (read_word F f (pos + i) =? ERASED)%N then acc else Some i) l a
    = a).
  { induction l as [|i l IH]; intros a Hi; [reflexivity|]. cbn [fold_left].
    rewrite Hb by (specialize (Hi i (or_introl eq_refl)); lia). rewrite N.eqb_refl.
    apply IH. intros j Hj. apply Hi. right. exact Hj. }
  rewrite E.
  - f_equal. lia.
  - intros i Hi. apply in_seq in Hi. lia.
Qed.
Lemma parse_tail f pos : blank f pos (pos + MP) -> parse_entry F f pos = Ok (ETail, pos).
Proof.
  intros H. pose proof (g_M F G). unfold parse_entry. rewrite H by lia.
  rewrite erased_parse. cbn [rbind]. rewrite parse_partial_none by exact H. reflexivity.
Qed.

(** Partially written entries. *)
Definition bad_head (w : N) (n : nat) : Prop :=
  parse_word F w = Ok Erased \/ parse_word F w = Ok Partial \/
  exists h, parse_word F w = Ok (Valid (PHeader h)) /\ (0 < h_checksum h)%N /\
    (max_value F < h_length h \/ to_words (h_length h) = 0 \/ n <= to_words (h_length h)).
Definition jg_ok (gs : list N) : Prop :=
  gs <> [] /\ length gs <= MP /\ Forall w32 gs /\ last gs 0%N <> ERASED /\
  bad_head (hd ERASED gs) (length gs).
Definition ju_ok (gs : list N) : Prop :=
  Forall w32 gs /\ exists w r h, gs = w :: r /\ parse_word F w = Ok (Valid (PHeader h)) /\
    h_length h <= max_value F /\ length r = to_words (h_length h) /\ r <> [] /\
    last r 0%N <> ERASED /\ count_zeros (last r 0%N) <> h_checksum h.

Lemma parse_jg f pos gs : jg_ok gs -> seg f pos gs ->
  blank f (pos + length gs) (pos + MP + 1) ->
  parse_entry F f pos = Ok (EPartial, pos + length gs).
Proof.
  intros (Ne & L & W & La & B) Hs Hb.
  assert (P : parse_partial F f pos = (EPartial, pos + length gs)).
  { apply parse_partial_some; try assumption. eapply blank_mono; [exact Hb|lia|lia]. }
  unfold parse_entry. destruct gs as [|g gs]; [congruence|]. pose proof Hs as Hs0.
  apply seg_cons in Hs0 as [R0 _].
  rewrite R0. cbn [hd] in B. destruct B as [B|[B|(h & B & C & D)]]; rewrite B; cbn [rbind].
  - rewrite P. reflexivity.
  - rewrite P. reflexivity.
  - destruct (max_value F <? h_length h) eqn:E; [rewrite P; reflexivity|].
    apply Nat.ltb_ge in E. destruct D as [D|D]; [lia|].
    pose proof (g_mono F G _ E) as Em. unfold header_check.
    destruct (to_words (h_length h) =? 0) eqn:E0.
    + replace (0 =? h_checksum h)%N with false by (symmetry; apply N.eqb_neq; lia).
      rewrite P. reflexivity.
    + apply Nat.eqb_neq in E0. destruct D as [D|D]; [lia|].
      rewrite (Hb (pos + to_words (h_length h))) by lia. rewrite count_zeros_erased.
      replace (0 =? h_checksum h)%N with false by (symmetry; apply N.eqb_neq; lia).
      rewrite N.eqb_refl, P. reflexivity.
Qed.
Lemma parse_ju f pos gs : ju_ok gs -> seg f pos gs ->
  parse_entry F f pos = Ok (EPartialUser, pos + length gs).
Proof.
  intros (W & w & r & h & -> & P & Hm & L & Ne & La & C) Hs.
  apply seg_cons in Hs as [R0 Rs]. unfold parse_entry. rewrite R0, P. cbn [rbind].
  replace (max_value F <? h_length h) with false by (symmetry; apply Nat.ltb_ge; exact Hm).
  assert (L0 : length r <> 0) by (destruct r; [congruence|discriminate]).
  replace (to_words (h_length h) =? 0) with false by (symmetry; apply Nat.eqb_neq; lia).
  specialize (Rs (length r - 1)). replace (pos + 1 + (length r - 1)) with (pos + length r) in Rs by lia.
  rewrite <- L, Rs by lia. rewrite nth_last. unfold header_check.
  apply N.eqb_neq in C, La. rewrite C, La. reflexivity.
Qed.
Lemma jg_len gs : jg_ok gs -> 0 < length gs <= MP.
Proof. intros (Ne & L & _). destruct gs; [congruence|cbn in *; lia]. Qed.
Lemma ju_len gs : ju_ok gs -> 0 < length gs <= MP + 1.
Proof.
  intros (_ & w & r & h & -> & _ & Hm & L & _). cbn [length].
  pose proof (g_mono F G _ Hm). lia.
Qed.

(* ---------------------------------------------------- interrupted writes *)

Lemma hd_app_repeat (gs : list N) n x : gs <> [] -> hd x (gs ++ repeat ERASED n) = hd x gs.
Proof. destruct gs; [congruence|reflexivity]. Qed.
Lemma last_app_ne {A} (a b : list A) d : b <> [] -> last (a ++ b) d = last b d.
Proof.
  intros H. induction a as [|x a IH]; [reflexivity|].
  change ((x :: a) ++ b) with (x :: (a ++ b)). destruct (a ++ b) eqn:E.
  - apply app_eq_nil in E as [_ E]. congruence.
  - rewrite last_cons. exact IH.
Qed.
Lemma last_repeat_erased n : n <> 0 -> last (repeat ERASED n) 0%N = ERASED.
Proof.
  intros H. destruct n; [congruence|]. clear H. induction n; [reflexivity|].
  change (repeat ERASED (S (S n))) with (ERASED :: ERASED :: repeat ERASED n).
  rewrite last_cons. exact IHn.
Qed.

(** What an interrupted write of an entry with a value leaves: nothing, part of the entry, or all
    of it. The footer is only written once the rest is. *)
Definition left_over (ws xs : list N) : Prop :=
  exists gs n, xs = gs ++ repeat ERASED n /\
    (gs = [] \/ jg_ok gs \/ ju_ok gs \/ (gs = ws /\ n = 0)).
Lemma user_left_over k v xs : eok (Live k v) ->
  Forall w32 xs -> length xs = elen (Live k v) ->
  (forall i, i < length xs -> sub (nth i (user_words k v) 0%N) (nth i xs 0%N)) ->
  last xs 0%N = ERASED \/
    (forall i, i < length xs - 1 -> nth i xs 0%N = nth i (user_words k v) 0%N) ->
  left_over (user_words k v) xs.
Proof.
  intros H W L S D. pose proof (live_facts k v H) as (_ & E & Wh & Nh & P & X).
  destruct (live_elen k v H) as [El Em]. rewrite El in L.
  destruct (trim xs) as (gs & n & Ex & T). exists gs, n. split; [exact Ex|].
  destruct T as [T|T]; [left; exact T|].
  destruct gs as [|g gs]; [left; reflexivity|]. right.
  assert (Wg : Forall w32 (g :: gs)).
  { rewrite Ex in W. apply Forall_app in W. apply W. }
  assert (Lg : length (g :: gs) + n = 1 + to_words (length v)).
  { rewrite <- L, Ex, app_length, repeat_length. reflexivity. }
  assert (Sg : sub (head_word k v) g).
  { specialize (S 0 ltac:(lia)). rewrite E, Ex in S. exact S. }
  assert (Wg' : w32 g) by (inversion Wg; assumption).
  destruct (N.eq_dec g (head_word k v)) as [Eg|Ng].
  - (* the header is complete *)
    destruct (Nat.eq_dec n 0) as [En|En].
    + subst n. cbn [repeat] in Ex. rewrite app_nil_r in Ex. subst xs.
      destruct D as [D|D]; [congruence|].
      destruct (list_eq_dec N.eq_dec (g :: gs) (user_words k v)) as [Eq|Neq];
        [right; right; split; [exact Eq|reflexivity]|].
      right. left. split; [exact Wg|].
      exists g, gs, (mkHeader (flip_of v) (length v) k (footer_zeros v)).
      split; [reflexivity|]. split; [rewrite Eg; exact P|]. cbn [h_length h_checksum].
      split; [apply H|]. split; [cbn [length] in Lg; lia|].
      assert (Nn : gs <> []).
      { intros ->. apply Neq. rewrite E, Eg. cbn [length] in Lg.
        assert (value_words v = []) as ->; [|reflexivity].
        apply length_zero_iff_nil. rewrite value_words_length. lia. }
      split; [exact Nn|].
      assert (La : last (g :: gs) 0%N = last gs 0%N).
      { destruct gs; [congruence|]. apply last_cons. }
      rewrite La in T. split; [exact T|].
      assert (Lv : length (value_words v) = length gs).
      { rewrite value_words_length. cbn [length] in Lg. lia. }
      assert (Fz : footer_zeros v = count_zeros (last (value_words v) 0%N)).
      { unfold footer_zeros. destruct (value_words v) eqn:Ev; [|reflexivity].
        cbn in Lv. destruct gs; [congruence|discriminate]. }
      assert (Sl : sub (last (value_words v) 0%N) (last gs 0%N)).
      { specialize (S (length gs)). rewrite E in S. cbn [length] in L.
        assert (Hi : length gs < length (g :: gs)) by (cbn; lia). specialize (S Hi).
        destruct gs as [|y gs]; [congruence|]. cbn [length] in S. cbn [nth] in S.
        rewrite <- nth_last, Lv. rewrite <- nth_last. cbn [length].
        rewrite Nat.sub_succ, Nat.sub_0_r. exact S. }
      assert (Wl : w32 (last gs 0%N)).
      { apply Forall_last; [|exact Nn]. inversion Wg; assumption. }
      rewrite Fz. intros Ez.
      pose proof (count_zeros_sub _ _ Wl Sl) as [Cz1 Cz2].
      apply Neq. rewrite E, Eg. f_equal.
      apply nth_ext with 0%N 0%N; [lia|]. intros i Hi.
      destruct (Nat.eq_dec i (length gs - 1)) as [Ei|Ei].
      * rewrite Ei, nth_last. rewrite <- Lv at 1. rewrite nth_last.
        symmetry. apply Cz2. lia.
      * specialize (D (Datatypes.S i)). cbn [length nth] in D. rewrite E in D. cbn [nth] in D.
        apply D. lia.
    + left. split; [discriminate|]. cbn [length] in *. split; [lia|]. split; [exact Wg|].
      split; [exact T|]. cbn [hd]. right. right.
      exists (mkHeader (flip_of v) (length v) k (footer_zeros v)).
      split; [rewrite Eg; exact P|]. cbn [h_length h_checksum]. split; [|right; right; lia].
      unfold footer_zeros. destruct (value_words v) as [|y l] eqn:Ev.
      { pose proof (value_words_length v) as Lv. rewrite Ev in Lv. cbn [length] in Lv. lia. }
      rewrite <- Ev. destruct H as (_ & Hv & _).
      pose proof (value_footer v Hv) as Vf. rewrite Ev in Vf. specialize (Vf ltac:(discriminate)).
      rewrite <- Ev in Vf.
      pose proof (count_zeros_pos (last (value_words v) 0%N)) as Cp.
      assert (w32 (last (value_words v) 0%N)).
      { apply Forall_last; [apply value_words_w32, Hv|rewrite Ev; discriminate]. }
      specialize (Cp H Vf). lia.
  - (* the header is not complete *)
    left. split; [discriminate|].
    assert (Lm : length (g :: gs) <= Nat.max 1 (to_words (length v))).
    { destruct (Nat.eq_dec n 0) as [En|En]; [|lia].
      subst n. cbn [repeat] in Ex. rewrite app_nil_r in Ex. subst xs.
      destruct D as [D|D]; [congruence|].
      destruct (Nat.eq_dec (to_words (length v)) 0) as [Z|Z]; [lia|].
      exfalso. apply Ng. specialize (D 0). rewrite E in D. apply D. lia. }
    pose proof (g_M F G) as HM.
    split; [lia|]. split; [exact Wg|]. split; [exact T|]. cbn [hd].
    destruct (X g Wg' Sg Ng) as [B|[B|(h & B & B1 & B2 & B3)]]; [left; exact B|right; left; exact B|].
    right. right. exists h. split; [exact B|]. split; [lia|].
    pose proof (to_words_mono _ _ B1) as Tm.
    destruct (Nat.eq_dec (to_words (h_length h)) 0) as [Z|Z]; [right; left; exact Z|].
    right. right. lia.
Qed.
Lemma intl_left_over i x : eok (Intl i) -> w32 x -> sub (int_word i) x ->
  left_over [int_word i] [x].
Proof.
  intros H W S. pose proof (intl_facts i H) as (_ & Wi & Ni & P & X).
  destruct (N.eq_dec x ERASED) as [->|Ne].
  { exists [], 1. split; [reflexivity|left; reflexivity]. }
  destruct (N.eq_dec x (int_word i)) as [->|Nx].
  { exists [int_word i], 0. split; [reflexivity|right; right; right; auto]. }
  exists [x], 0. split; [reflexivity|]. right. left. pose proof (g_M F G).
  split; [discriminate|]. cbn [length hd last]. split; [lia|].
  split; [constructor; [exact W|constructor]|]. split; [exact Ne|].
  destruct (X x W S Nx) as [B|B]; [left; exact B|right; left; exact B].
Qed.

(* ------------------------------------------------------ padding and deleting *)

Lemma pad_facts w : w32 w -> exists w', pad_word w = Ok w' /\ w32 w' /\ sub w' w /\
  eok (Dead [w']) /\ (forall x, sub w' x -> sub x w -> x = w \/ x = w').
Proof.
  intros W. destruct (pad_word_spec F w W) as (w' & E & W' & S & _ & P).
  exists w'. split; [exact E|]. split; [exact W'|]. split; [exact S|]. split.
  - cbn. split; [constructor; [exact W'|constructor]|]. exists w', []. cbn. auto with arith.
  - assert (B : forall i, (i <> 0)%N -> N.testbit w' i = N.testbit w i).
    { intros i Hi. unfold pad_word, c_set, ID_PADDING, f_set in E. cbn [fst snd] in E.
      destruct (negb (N.land 0 (f_mask (mkField 0 1)) =? 0)%N); [discriminate|].
      match type of E with (if ?b then _ else _) = _ => destruct b; [discriminate|] end.
      injection E as <-. rewrite N.land_spec.
      destruct (N.testbit w i) eqn:Ti; [|reflexivity]. cbn [andb].
      assert (Li : (i < 32)%N).
      { destruct (N.lt_ge_cases i 32) as [L|L]; [exact L|].
        rewrite (proj1 (w32_bit w) W i L) in Ti. discriminate. }
      match goal with |- N.testbit ?c i = true => change c with 4294967294%N end.
      destruct i as [|p]; [congruence|].
      do 5 (destruct p as [p|p|]; try reflexivity; try (exfalso; lia)). }
    intros x Sx Sw. destruct (N.testbit x 0) eqn:T.
    + left. apply sub_antisym; [exact Sw|]. intros i Hi.
      destruct (N.eq_dec i 0) as [->|Hn]; [exact T|]. apply Sx. rewrite B by exact Hn. exact Hi.
    + right. apply sub_antisym; [|exact Sx]. intros i Hi.
      destruct (N.eq_dec i 0) as [->|Hn]; [congruence|]. rewrite B by exact Hn. apply Sw, Hi.
Qed.
Lemma del_facts w : w32 w -> w32 (del_word w) /\ sub (del_word w) w /\
  (forall x, sub (del_word w) x -> sub x w -> x = w \/ x = del_word w).
Proof.
  intros W. destruct (del_word_bits w W) as (W' & S & T2 & B).
  split; [exact W'|]. split; [exact S|]. intros x Sx Sw. destruct (N.testbit x 2) eqn:T.
  - left. apply sub_antisym; [exact Sw|]. intros i Hi.
    destruct (N.eq_dec i 2) as [->|Hn]; [exact T|]. apply Sx. rewrite B by exact Hn. exact Hi.
  - right. apply sub_antisym; [|exact Sx]. intros i Hi.
    destruct (N.eq_dec i 2) as [->|Hn]; [congruence|]. rewrite B by exact Hn. apply Sw, Hi.
Qed.
(** A deleted entry, whatever its value becomes. *)
Lemma del_live_ok k v r : eok (Live k v) -> Forall w32 r -> length r = to_words (length v) ->
  eok (Dead (del_word (head_word k v) :: r)).
Proof.
  intros H W L. pose proof (live_facts k v H) as (_ & E & Wh & Nh & P & _).
  destruct (live_elen k v H) as [_ Em]. split.
  - constructor; [apply (del_word_bits _ Wh)|exact W].
  - exists (del_word (head_word k v)), r. split; [reflexivity|]. split; [lia|].
    rewrite (del_word_parse F _ _ Wh P); [cbn; rewrite L; reflexivity|]. apply H.
Qed.
Lemma del_ju_ok w (r : list N) h r' : parse_word F w = Ok (Valid (PHeader h)) -> w32 w ->
  h_length h <= max_value F -> Forall w32 r' -> length r = to_words (h_length h) ->
  length r' = length r -> eok (Dead (del_word w :: r')).
Proof.
  intros P W Hm Wr L L'. pose proof (g_mono F G _ Hm) as Em. split.
  - constructor; [apply (del_word_bits _ W)|exact Wr].
  - exists (del_word w), r'. split; [reflexivity|]. split; [lia|].
    rewrite (del_word_parse F _ _ W P Hm). rewrite L', L. reflexivity.
Qed.
Lemma zero_ok : eok (Dead [0%N]).
Proof.
  cbn. split; [constructor; [reflexivity|constructor]|]. exists 0%N, []. cbn. auto with arith.
Qed.

End ENTRIES.
