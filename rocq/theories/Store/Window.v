(** How far the entries reach: compaction always has room, and makes room. *)
From Verif Require Import Base Facts.
From Verif.Kv Require Import Model.
From Verif.Store Require Import Format Bits Words Geom Model Wp Entries Layout Ents.
Open Scope nat_scope.
Ltac Zify.zify_post_hook ::= idtac.

(** The entries with a value, which compaction copies. *)
Definition copies (es : list ent) : list ent :=
  filter (fun e => match e with Live _ _ => true | _ => false end) es.
Lemma copies_app a b : copies (a ++ b) = copies a ++ copies b.
Proof. apply filter_app. Qed.
Lemma copies_plen es : plen (copies es) = live_len es.
Proof. reflexivity. Qed.
Lemma copies_lives es : lives (copies es) = lives es.
Proof.
  induction es as [|e es IH]; [reflexivity|]. unfold copies in *. cbn [filter].
  destruct e; rewrite ?lives_cons, IH; reflexivity.
Qed.
Lemma copies_live_len es : live_len (copies es) = live_len es.
Proof.
  induction es as [|e es IH]; [reflexivity|]. unfold copies in *. cbn [filter].
  destruct e; rewrite ?live_len_cons, IH; reflexivity.
Qed.

(** Entries replaced by others of the same lengths, without more values. *)
Definition leq1 (e e' : ent) : Prop :=
  elen e' = elen e /\ (e' = e \/ match e' with Live _ _ => False | _ => True end).
Definition leq : list ent -> list ent -> Prop := Forall2 leq1.
Lemma leq_refl es : leq es es.
Proof. induction es; constructor; [split; auto|exact IHes]. Qed.
Lemma leq_plen es es' : leq es es' -> plen es' = plen es.
Proof. induction 1 as [|e e' es es' [H _] _ IH]; [reflexivity|]. rewrite !plen_cons, IH, H. reflexivity. Qed.
Lemma leq_live es es' : leq es es' -> live_len es' <= live_len es.
Proof.
  induction 1 as [|e e' es es' [H1 H2] _ IH]; [reflexivity|]. rewrite !live_len_cons.
  destruct H2 as [->|H2]; [lia|]. destruct e'; try contradiction; lia.
Qed.
Lemma wiping_leq del es es' : wiping del es es' -> leq es es'.
Proof.
  induction 1 as [|e e' es es' H _ IH]; constructor; [|exact IH].
  destruct H as [->|(k & v & ws & -> & _ & -> & L)].
  - split; auto.
  - split; [exact L|right; exact Logic.I].
Qed.

Section WINDOW.
Variable F : format.
Hypothesis G : wff F.
Notation Q := (virt_page_size F).
Notation NP := (num_pages F).
Notation MP := (max_prefix F).
Notation W := (window_size F).
Notation V := (virt_size F).
Notation C := (capacity_of F).

(** [x] pages have been compacted since the entries fitted in the virtual capacity. The entries
    [ea] were there before; [eb] were copied since, with one more word for each page. *)
Definition Iwx (K x h pre : nat) (es : list ent) : Prop :=
  exists ea eb, es = ea ++ eb /\
    h * Q + pre + plen ea + x * Q + (NP - 1) <= (h + NP - 1) * Q /\
    plen eb + live_len ea <= K + x /\ plen es <= V + x.
Definition Iw (h pre : nat) (es : list ent) : Prop := exists x, Iwx C x h pre es.

Lemma iwx_x K x h pre es : Iwx K x h pre es -> x + 2 <= NP.
Proof.
  intros (ea & eb & _ & H & _). pose proof (g_N F G). pose proof (g_Q F G).
  destruct (Nat.le_gt_cases (x + 2) NP) as [L|L]; [exact L|exfalso].
  assert ((NP - 1) * Q <= x * Q) by (apply Nat.mul_le_mono_r; lia).
  replace (h + NP - 1) with (h + (NP - 1)) in H by lia. rewrite Nat.mul_add_distr_r in H. lia.
Qed.
Lemma iwx_reset K h pre es : plen es <= V -> live_len es <= K -> pre <= MP -> Iwx K 0 h pre es.
Proof.
  intros H1 H2 H3. exists es, []. rewrite app_nil_r, plen_nil.
  pose proof (window_eq F G). pose proof (virt_eq F G). pose proof (g_N F G).
  split; [reflexivity|]. split; [|lia].
  replace (h + NP - 1) with (h + (NP - 1)) by lia. rewrite Nat.mul_add_distr_r, Nat.mul_0_l. lia.
Qed.
Lemma iwx_live K x h pre es : Iwx K x h pre es -> live_len es <= K + x.
Proof.
  intros (ea & eb & -> & _ & H & _). rewrite live_len_app. pose proof (live_len_le eb). lia.
Qed.
Lemma iwx_leq K x h pre es es' : leq es es' -> Iwx K x h pre es -> Iwx K x h pre es'.
Proof.
  intros H (ea & eb & -> & H1 & H2 & H3). apply Forall2_app_inv_l in H as (ea' & eb' & Ha & Hb & ->).
  exists ea', eb'. rewrite plen_app in *. rewrite (leq_plen _ _ Ha), (leq_plen _ _ Hb).
  pose proof (leq_live _ _ Ha). split; [reflexivity|]. lia.
Qed.
Lemma iw_leq h pre es es' : leq es es' -> Iw h pre es -> Iw h pre es'.
Proof. intros H [x Hx]. exists x. eapply iwx_leq; eauto. Qed.
Lemma iw_win h pre es : Iw h pre es -> plen es <= W.
Proof.
  intros [x Hx]. pose proof (iwx_x _ _ _ _ _ Hx). destruct Hx as (ea & eb & _ & _ & _ & H1).
  pose proof (virt_eq F G). lia.
Qed.
(** Positions in the window are far from the end of the pages. *)
Lemma win_pages h pre n : pre <= MP -> n <= W -> h * Q + pre + n + Q <= (h + NP) * Q.
Proof.
  intros H1 H2. pose proof (window_eq F G). pose proof (g_N F G).
  replace (h + NP) with (h + (NP - 1) + 1) by lia. rewrite !Nat.mul_add_distr_r. lia.
Qed.
Lemma win_page h pre n : pre <= MP -> n <= W -> h * Q + pre + n <= (h + NP) * Q.
Proof. intros H1 H2. pose proof (win_pages h pre n H1 H2). lia. Qed.
Lemma page_win : Q <= W.
Proof.
  pose proof (window_eq F G). pose proof (g_N F G). pose proof (g_M F G).
  assert (2 * Q <= (NP - 1) * Q) by (apply Nat.mul_le_mono_r; lia). lia.
Qed.

(** One compaction. *)
Lemma iwx_step K x h pre es gap A B pre' d :
  es ++ gap = A ++ B -> gap = [] \/ B = [] -> live_len gap = 0 -> elen d = 1 ->
  (h + 1) * Q + pre' = h * Q + pre + plen A ->
  Iwx K x h pre es ->
  Iwx K (x + 1) (h + 1) pre' (B ++ copies A ++ [d]) \/ plen (B ++ copies A ++ [d]) <= K + x + 1.
Proof.
  intros E Hg Lg Ld Hp H. pose proof (iwx_live _ _ _ _ _ H) as Hl.
  assert (LA : live_len A <= plen A) by apply live_len_le.
  assert (Pes : plen (B ++ copies A ++ [d]) = plen B + live_len A + 1).
  { rewrite !plen_app, plen_one, copies_plen. lia. }
  destruct Hg as [->| ->].
  - rewrite app_nil_r in E. destruct H as (ea & eb & Ee & H1 & H2 & H3).
    assert (Sp : (exists r, ea = A ++ r /\ B = r ++ eb) \/ (exists r, A = ea ++ r /\ eb = r ++ B)).
    { rewrite Ee in E. clear - E. revert A E. induction ea as [|y ea IH]; intros A E.
      - right. exists A. auto.
      - destruct A as [|z A]; [left; exists (y :: ea); auto|].
        cbn [app] in E. injection E as <- E. destruct (IH A E) as [(r & -> & ->)|(r & -> & ->)].
        + left. exists r. auto.
        + right. exists r. auto. }
    destruct Sp as [(r & Ea & Eb)|(r & Ea & Eb)].
    + left. exists r, (eb ++ copies A ++ [d]).
      rewrite Ea, live_len_app in H2. rewrite Ea, plen_app in H1.
      rewrite E, plen_app in H3. rewrite Pes. rewrite Eb in *. rewrite plen_app in H3 |- *.
      rewrite !plen_app, plen_one, copies_plen.
      split; [rewrite <- !app_assoc; reflexivity|].
      replace (h + 1 + NP - 1) with (h + NP - 1 + 1) by (pose proof (g_N F G); lia).
      rewrite (Nat.mul_add_distr_r (h + NP - 1)). rewrite (Nat.mul_add_distr_r x 1), Nat.mul_1_l. lia.
    + right. rewrite Pes. rewrite Eb, plen_app in H2. rewrite Ea, live_len_app.
      pose proof (live_len_le r). lia.
  - right. rewrite Pes, plen_nil. rewrite app_nil_r in E.
    assert (live_len A = live_len es) by (rewrite <- E, live_len_app; lia). lia.
Qed.
Lemma iw_step h pre es gap A B pre' d :
  es ++ gap = A ++ B -> gap = [] \/ B = [] -> live_len gap = 0 -> elen d = 1 ->
  (h + 1) * Q + pre' = h * Q + pre + plen A -> pre' <= MP -> live_len es <= C ->
  live_len [d] = 0 ->
  Iw h pre es -> Iw (h + 1) pre' (B ++ copies A ++ [d]).
Proof.
  intros E Hg Lg Ld Hp Hm Hl Hd [x Hx]. pose proof (iwx_x _ _ _ _ _ Hx) as X.
  destruct (iwx_step C x h pre es gap A B pre' d E Hg Lg Ld Hp Hx) as [I|I].
  - exists (x + 1). exact I.
  - exists 0. apply iwx_reset; [|rewrite !live_len_app, copies_live_len|exact Hm].
    + pose proof (cap_eq F G) as [? ?]. lia.
    + assert (live_len es = live_len A + live_len B).
      { rewrite <- live_len_app, <- E, live_len_app. lia. }
      lia.
Qed.
(** There is room for the copies, wherever the entries are cut after the page. *)
Lemma copies_fit h pre es gap A B d :
  es ++ gap = A ++ B -> gap = [] \/ B = [] -> live_len gap = 0 -> elen d = 1 -> live_len [d] = 0 ->
  (h + 1) * Q <= h * Q + pre + plen A <= (h + 1) * Q + MP -> live_len es <= C ->
  Iw h pre es ->
  h * Q + pre + plen (es ++ gap) + live_len A + 1 <= (h + NP) * Q.
Proof.
  intros E Hg Lg Ld Hd Hp Hl Hi. set (pre' := h * Q + pre + plen A - (h + 1) * Q).
  assert (I : Iw (h + 1) pre' (B ++ copies A ++ [d])).
  { eapply iw_step; try eassumption; unfold pre'; lia. }
  apply iw_win in I. rewrite !plen_app, plen_one, copies_plen in I.
  rewrite E, plen_app. pose proof (window_eq F G). pose proof (g_N F G).
  replace (h + NP) with (h + 1 + (NP - 1)) by lia. rewrite (Nat.mul_add_distr_r (h + 1)). lia.
Qed.

End WINDOW.
