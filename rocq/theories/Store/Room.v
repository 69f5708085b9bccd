(** Making room for entries. *)
From Coq Require Import Permutation.
From Verif Require Import Base Facts.
From Verif.Kv Require Import Model.
From Verif.Store Require Import Format Bits Words Geom Model Wp Entries Layout Scan Steps Ents Window Shapes Compact.
Open Scope nat_scope.
Ltac Zify.zify_post_hook ::= idtac.

Section ROOM.
Variable F : format.
Hypothesis G : wff F.
Notation Q := (virt_page_size F).
Notation NP := (num_pages F).
Notation MP := (max_prefix F).
Notation W := (window_size F).
Notation V := (virt_size F).
Notation C := (capacity_of F).
Notation EN := (max_page_erases F).

(** The store is running with content [m]. *)
Definition on (s : st) (h pre : nat) (es : list ent) (m : kv) : Prop :=
  rest F (fl s) h pre es m /\ st_head s = Some (h * Q + pre) /\
  exists l, st_ents s = Some l /\ Permutation (map (Nat.add (h * Q + pre)) l) (lpos (h * Q + pre) es).
Definition On (s : st) (m : kv) : Prop := exists h pre es, on s h pre es m.
(** The same, when all pages have been erased as often as they can be. *)
Definition Worn (s : st) (m : kv) : Prop := exists h pre es, on s h pre es m /\ EN * NP <= h.

Lemma on_lay s h pre es m : on s h pre es m -> lay F (fl s) h (h + NP) pre es [] ERASED.
Proof. intros [(L & _) _]. exact L. Qed.
Lemma on_tail s h pre es m : on s h pre es m -> tail F (fl s) = Ok (h * Q + pre + plen es).
Proof.
  intros [(L & _ & (Hi & _) & Hpl & _) _]. eapply lay_tail; [exact G|exact L|apply plain_gap, Hpl|].
  pose proof (win_pages F G h pre _ (b_pre _ _ _ _ _ _ _ _ L) (iw_win F G _ _ _ Hi)).
  pose proof (g_M F G). lia.
Qed.
Lemma wp_immediate {A} (R : flash -> Prop) s h pre es m (k : nat -> M A) P :
  on s h pre es m -> wp F R (k (V - plen es)) s P -> wp F R (bind (immediate F) k) s P.
Proof.
  intros O Hk. unfold immediate. apply wp_bind_assoc. eapply wp_bind_reads; [eapply on_tail, O|].
  apply wp_bind_assoc. eapply wp_the_head; [apply O|]. apply wp_bind_ret.
  replace (h * Q + pre + V - (h * Q + pre + plen es)) with (V - plen es) by lia. exact Hk.
Qed.
Lemma wp_remaining {A} (R : flash -> Prop) s h pre es m (k : nat -> M A) P :
  on s h pre es m -> wp F R (k (C - live_len es)) s P -> wp F R (bind (remaining F) k) s P.
Proof.
  intros ((L & _ & (_ & Hl & _) & _) & Hh & l & He & Hp) Hk. unfold remaining. apply wp_bind_assoc.
  apply wp_bind. eapply wp_used; [exact G|exact L|exact Hh|exact He|exact Hp|].
  replace (C <? live_len es) with false by (symmetry; apply Nat.ltb_ge; exact Hl).
  apply wp_bind_ret. exact Hk.
Qed.

(** One more compaction. *)
Definition compacted (h pre : nat) (es : list ent) (pre' : nat) (es' : list ent) : Prop :=
  exists A B w, es ++ gapof F h pre es = A ++ B /\ (gapof F h pre es = [] \/ B = []) /\
    (h + 1) * Q + pre' = h * Q + pre + plen A /\ es' = B ++ copies A ++ [Dead [w]].
Lemma on_compact (R : flash -> Prop) s h pre es m (P : res store_error unit -> st -> Prop) :
  on s h pre es m ->
  (forall f', Crash F m f' -> R f') ->
  (EN * NP <= h -> P (Err NoLifetime) s) ->
  (forall s' pre' es', compacted h pre es pre' es' -> on s' (h + 1) pre' es' m -> P (Ok tt) s') ->
  wp F R (compact F) s P.
Proof.
  intros ((L & Hb & Hr & Hpl & Hnd & Hpm) & Hh & l & He & Hp) HR Herr HP.
  pose proof (b_pre _ _ _ _ _ _ _ _ L) as Bq. pose proof Hr as (Hi & _).
  destruct (gapof_plen F G h pre es Bq) as (Gp & _).
  eapply wp_compact.
  - exact G.
  - exact L.
  - apply sub_erased. destruct (compact_word_parse F (plen (es ++ gapof F h pre es))) as (_ & X & _).
    + pose proof (page_win F G). pose proof (iw_win F G _ _ _ Hi). lia.
    + pose proof (page_win F G). pose proof (iw_win F G _ _ _ Hi). pose proof (window_small F G). lia.
    + exact X.
  - exact Hb.
  - exact Hr.
  - exact Hpl.
  - exact Hnd.
  - exact Hpm.
  - left. reflexivity.
  - exact Hh.
  - unfold ents_ok. rewrite He. exact Hp.
  - exact HR.
  - exact Herr.
  - intros s' A B pre' w E1 E2 E3 E4 Rs Hh' Hn He'. eapply HP.
    + exists A, B, w. repeat (split; [eassumption|]). reflexivity.
    + split; [exact Rs|]. split; [exact Hh'|]. unfold ents_ok in He'.
      destruct (st_ents s') as [l'|]; [exists l'; auto|].
      exfalso. rewrite He in Hn. destruct Hn as [_ Hn]. discriminate (Hn eq_refl).
Qed.
Lemma compacted_live h pre es pre' es' : pre <= MP -> compacted h pre es pre' es' -> live_len es' = live_len es.
Proof.
  intros Bq (A & B & w & E & _ & _ & ->). destruct (gapof_plen F G h pre es Bq) as (_ & Gl & _).
  assert (X : live_len (es ++ gapof F h pre es) = live_len A + live_len B) by (rewrite E, live_len_app; reflexivity).
  rewrite live_len_app in X. rewrite !live_len_app, copies_live_len.
  change (live_len [Dead [w]]) with 0. lia.
Qed.
Lemma compacted_step K x h pre es pre' es' : pre <= MP -> compacted h pre es pre' es' ->
  Iwx F K x h pre es -> Iwx F K (x + 1) (h + 1) pre' es' \/ plen es' <= K + x + 1.
Proof.
  intros Bq (A & B & w & E & Hg & Hp & ->) Hi. destruct (gapof_plen F G h pre es Bq) as (_ & Gl & _).
  eapply (iwx_step F G K x h pre es _ A B pre' (Dead [w])); eauto.
Qed.

Section MAKE.
Variable R : flash -> Prop.
Variable m : kv.
Variable n0 live : nat.
Variable P : res store_error unit -> st -> Prop.
Hypothesis HR : forall f', Crash F m f' -> R f'.
Hypothesis Hpos : 0 < n0.
Hypothesis Hfit : live + n0 <= C + 1.
Hypothesis Herr : forall s', Worn s' m -> P (Err NoLifetime) s'.
Hypothesis HP : forall s' h' pre' es', on s' h' pre' es' m -> live_len es' = live -> plen es' + n0 <= V ->
  P (Ok tt) s'.

Lemma make_room2 : forall n x s h pre es, on s h pre es m -> live_len es = live ->
  (Iwx F live x h pre es /\ NP <= n + x + 1) \/ plen es + n0 <= V ->
  wp F R (make_room F n n0) s P.
Proof.
  induction n as [|n IH]; intros x s h pre es O El Hc; cbn [make_room].
  - eapply wp_immediate; [exact O|]. destruct (V - plen es <? n0) eqn:E.
    + apply Nat.ltb_lt in E. exfalso. destruct Hc as [[I X]|X]; [|lia].
      pose proof (iwx_x F G _ _ _ _ _ I). lia.
    + apply Nat.ltb_ge in E. apply wp_ret. eapply HP; [exact O|exact El|lia].
  - eapply wp_immediate; [exact O|]. destruct (V - plen es <? n0) eqn:E.
    + apply Nat.ltb_lt in E. destruct Hc as [[I X]|X]; [|lia].
      assert (Bq : pre <= MP) by apply (b_pre _ _ _ _ _ _ _ _ (on_lay _ _ _ _ _ O)).
      apply wp_bind. eapply on_compact; [exact O|exact HR| |].
      * intros Hw. apply Herr. exists h, pre, es. split; [exact O|exact Hw].
      * intros s' pre' es' Hcp O'. apply (IH (x + 1) s' (h + 1) pre' es' O').
        -- rewrite (compacted_live _ _ _ _ _ Bq Hcp). exact El.
        -- destruct (compacted_step live x _ _ _ _ _ Bq Hcp I) as [I'|I'].
           ++ left. split; [exact I'|lia].
           ++ right. pose proof (iwx_x F G _ _ _ _ _ I). pose proof (cap_eq F G). lia.
    + apply Nat.ltb_ge in E. apply wp_ret. eapply HP; [exact O|exact El|lia].
Qed.
Lemma make_room1 : forall n x s h pre es, on s h pre es m -> live_len es = live ->
  Iwx F C x h pre es -> NP + NP <= n + x + 2 -> wp F R (make_room F n n0) s P.
Proof.
  induction n as [|n IH]; intros x s h pre es O El I Hn; cbn [make_room].
  - exfalso. pose proof (iwx_x F G _ _ _ _ _ I). lia.
  - eapply wp_immediate; [exact O|]. destruct (V - plen es <? n0) eqn:E.
    + apply Nat.ltb_lt in E.
      assert (Bq : pre <= MP) by apply (b_pre _ _ _ _ _ _ _ _ (on_lay _ _ _ _ _ O)).
      apply wp_bind. eapply on_compact; [exact O|exact HR| |].
      * intros Hw. apply Herr. exists h, pre, es. split; [exact O|exact Hw].
      * intros s' pre' es' Hcp O'.
        assert (El' : live_len es' = live) by (rewrite (compacted_live _ _ _ _ _ Bq Hcp); exact El).
        assert (Bq' : pre' <= MP) by apply (b_pre _ _ _ _ _ _ _ _ (on_lay _ _ _ _ _ O')).
        destruct (compacted_step C x _ _ _ _ _ Bq Hcp I) as [I'|I'].
        -- apply (IH (x + 1) s' (h + 1) pre' es' O' El' I'). lia.
        -- pose proof (iwx_x F G _ _ _ _ _ I). pose proof (cap_eq F G).
           apply (make_room2 n 0 s' (h + 1) pre' es' O' El'). left. split; [|lia].
           apply (iwx_reset F G); lia.
    + apply Nat.ltb_ge in E. apply wp_ret. eapply HP; [exact O|exact El|lia].
Qed.
Lemma wp_make_room s h pre es : on s h pre es m -> live_len es = live ->
  wp F R (make_room F (2 * NP) n0) s P.
Proof.
  intros O El. pose proof O as ((_ & _ & ((x & I) & _) & _) & _).
  apply (make_room1 _ x s h pre es O El I). lia.
Qed.
End MAKE.

Lemma wp_reserve (R : flash -> Prop) s h pre es m n (P : res store_error unit -> st -> Prop) :
  on s h pre es m -> 0 < n -> (forall f', Crash F m f' -> R f') ->
  (C < live_len es + n -> P (Err NoCapacity) s) ->
  (forall s', live_len es + n <= C -> Worn s' m -> P (Err NoLifetime) s') ->
  (forall s' h' pre' es', live_len es + n <= C -> on s' h' pre' es' m -> live_len es' = live_len es ->
     plen es' + n <= V -> P (Ok tt) s') ->
  wp F R (reserve F n) s P.
Proof.
  intros O Hn HR Hcap Herr HP. unfold reserve. eapply wp_remaining; [exact O|].
  assert (Hl : live_len es <= C) by (destruct O as ((_ & _ & (_ & X & _) & _) & _); exact X).
  destruct (C - live_len es <? n) eqn:E.
  - apply Nat.ltb_lt in E. apply wp_fail, Hcap. lia.
  - apply Nat.ltb_ge in E. eapply (wp_make_room R m n (live_len es)); try eassumption.
    + lia.
    + intros s' O'. apply Herr; [lia|exact O'].
    + intros s' h' pre' es' O' El Hp. eapply HP; try eassumption. lia.
    + reflexivity.
Qed.

End ROOM.
