(** How much can be written before the flash is worn out. *)
From Coq Require Import Permutation ZArith.
From Verif Require Import Base Facts.
From Verif.Kv Require Import Model Proofs.
From Verif.Store Require Import Format Bits Words Geom Model Wp Entries Layout Scan Steps Ents Window Shapes Compact Room Finish Oper.
Open Scope nat_scope.
Ltac Zify.zify_post_hook ::= idtac.

(** How far the values are from the end of the log, summed over their words. *)
Fixpoint spread (es : list ent) : nat :=
  match es with
  | [] => 0
  | e :: r => (match e with Live _ _ => elen e * plen r | _ => 0 end) + spread r
  end.
Lemma spread_app a b : spread (a ++ b) = spread a + live_len a * plen b + spread b.
Proof.
  induction a as [|e a IH]; [reflexivity|]. cbn [app spread]. rewrite IH, live_len_cons, plen_app.
  destruct e; cbn [Nat.add]; try (rewrite Nat.mul_add_distr_l, Nat.mul_add_distr_r); lia.
Qed.
Lemma spread_copies a : spread (copies a) <= spread a.
Proof.
  induction a as [|e a IH]; [reflexivity|]. unfold copies in *. cbn [filter].
  destruct e; cbn [spread]; try lia.
  fold (copies a). rewrite copies_plen.
  pose proof (Nat.mul_le_mono_l _ _ (elen (Live k v)) (live_len_le a)). fold (copies a) in IH. lia.
Qed.
Lemma spread_leq a b : leq a b -> spread b <= spread a.
Proof.
  intros H. induction H as [|e e' es es' [H1 H2] H IH]; [reflexivity|]. cbn [spread].
  rewrite (leq_plen _ _ H). destruct H2 as [->|H2]; [destruct e; lia|].
  destruct e'; try contradiction; lia.
Qed.
Lemma spread_le es : spread es <= live_len es * plen es.
Proof.
  induction es as [|e es IH]; [reflexivity|]. cbn [spread]. rewrite live_len_cons, plen_cons.
  assert (live_len es * plen es <= live_len es * (elen e + plen es)) by (apply Nat.mul_le_mono_l; lia).
  destruct e; cbn [Nat.add]; try lia.
Qed.

(** The arithmetic of one compaction: [c] of the [a] words before the new head are copied, [b] stay. *)
Lemma compact_arith (L X B c a b lb sa sa' sb : Z) :
  (0 <= c -> c <= a -> a <= B -> 0 <= lb -> c + lb <= L -> X <= a + b -> sa' <= sa ->
   0 <= L * (c + 1) - (sb + lb * (c + 1) + (sa' + c)) + (sa + c * b + sb) + B * a - (X + B) * (c + 1) + (X + B))%Z.
Proof.
  intros Hc Ha HB Hlb HL HX Hs.
  assert (0 <= (L - lb - c) * (c + 1))%Z by (apply Z.mul_nonneg_nonneg; lia).
  assert (0 <= c * (a + b - X))%Z by (apply Z.mul_nonneg_nonneg; lia).
  assert (0 <= (a - c) * (B - c))%Z by (apply Z.mul_nonneg_nonneg; lia).
  nia.
Qed.

Section ENDURE.
Variable F : format.
Hypothesis G : wff F.
Notation Q := (virt_page_size F).
Notation NP := (num_pages F).
Notation MP := (max_prefix F).
Notation W := (window_size F).
Notation V := (virt_size F).
Notation C := (capacity_of F).
Notation EN := (max_page_erases F).

(** The content uses at most [lim] words, and every value inserted at most [big]. *)
Variable lim big : nat.
Notation X := (V + 1 - big).
Notation B := (Q + MP).
Hypothesis HQX : Q <= X.
Hypothesis Hbig : big <= V.
Hypothesis HlimX : lim <= X.

Definition mark (h pre : nat) (es : list ent) : Z :=
  (Z.of_nat lim * Z.of_nat (h * Q + pre + plen es) - Z.of_nat (spread es)
   + Z.of_nat B * Z.of_nat (h * Q + pre) - Z.of_nat (X + B) * Z.of_nat (h * Q + pre + plen es))%Z.
(** What is left after [n] words were inserted. *)
Definition good (base : Z) (n h pre : nat) (es : list ent) : Prop :=
  (base <= mark h pre es + Z.of_nat (X + B) * Z.of_nat (n + h))%Z.

Lemma good_compact base n h pre es pre' es' z :
  pre <= MP -> pre' <= MP -> compacted F h pre es pre' es' -> live_len es <= lim -> V - plen es < z -> z <= big ->
  good base n h pre es -> good base n (h + 1) pre' es'.
Proof.
  intros Bq Bq' (A & B' & w & E & _ & Hp & ->) Hl Hz Hzb Hg.
  assert (Hx : X <= plen es) by lia.
  assert (Eg : gapof F h pre es = []).
  { unfold gapof. replace (h * Q + pre + plen es <? (h + 1) * Q) with false; [reflexivity|].
    symmetry. apply Nat.ltb_ge. lia. }
  rewrite Eg, app_nil_r in E. subst es. unfold good, mark in *.
  rewrite live_len_app in Hl. rewrite plen_app in Hx.
  assert (Ep : plen (B' ++ copies A ++ [Dead [w]]) = plen B' + live_len A + 1).
  { rewrite !plen_app, copies_plen, plen_one. unfold elen. cbn [ewords length]. lia. }
  assert (Es : spread (B' ++ copies A ++ [Dead [w]]) =
    spread B' + live_len B' * (live_len A + 1) + (spread (copies A) + live_len A)).
  { rewrite spread_app, spread_app, plen_app, copies_plen, plen_one, copies_live_len. unfold elen. cbn [ewords length spread]. lia. }
  rewrite Ep, Es. rewrite spread_app, plen_app in Hg. rewrite Hp. clear Ep Es.
  pose proof (spread_copies A) as Hs. pose proof (live_len_le A) as Hc.
  assert (Ha : plen A <= B) by lia. clear Hp Eg Bq Bq' Hz.
  pose proof (compact_arith (Z.of_nat lim) (Z.of_nat X) (Z.of_nat B) (Z.of_nat (live_len A)) (Z.of_nat (plen A))
    (Z.of_nat (plen B')) (Z.of_nat (live_len B')) (Z.of_nat (spread A)) (Z.of_nat (spread (copies A))) (Z.of_nat (spread B'))) as K.
  specialize (K ltac:(lia) ltac:(lia) ltac:(lia) ltac:(lia) ltac:(lia) ltac:(lia) ltac:(lia)).
  set (P0 := h * Q + pre) in *. clearbody P0.
  set (x := X) in *. set (bb := B) in *. clearbody x bb. clear Hl Hx Hs Hc Ha Hzb HQX Hbig HlimX.
  rewrite !Nat2Z.inj_add, ?Nat2Z.inj_mul, ?Nat2Z.inj_add in *. change (Z.of_nat 1) with 1%Z in *.
  set (l := Z.of_nat lim) in *. set (c := Z.of_nat (live_len A)) in *. set (a := Z.of_nat (plen A)) in *.
  set (b := Z.of_nat (plen B')) in *. set (lb := Z.of_nat (live_len B')) in *.
  set (p := Z.of_nat P0) in *. set (X' := Z.of_nat x) in *. set (Y := Z.of_nat bb) in *.
  set (nn := Z.of_nat n) in *. set (hh := Z.of_nat h) in *.
  clearbody l c a b lb p X' Y nn hh.
  eapply Z.le_trans; [exact Hg|]. apply Z.le_0_sub. eapply Z.le_trans; [exact K|]. apply Z.eq_le_incl. ring.
Qed.
Lemma good_insert base n h pre es ea' k v :
  leq es ea' -> live_len es <= lim ->
  good base n h pre es -> good base (n + elen (Live k v)) h pre (ea' ++ [Live k v]).
Proof.
  intros Hq Hl Hg. unfold good, mark in *. rewrite plen_app, plen_one, spread_app, (leq_plen _ _ Hq), plen_one.
  pose proof (spread_leq _ _ Hq) as Hs. pose proof (leq_live _ _ Hq) as Hv.
  change (spread [Live k v]) with (elen (Live k v) * 0 + 0). set (z := elen (Live k v)) in *. clearbody z.
  set (P0 := h * Q + pre) in *. clearbody P0. set (x := X) in *. set (bb := B) in *. clearbody x bb.
  assert (K : live_len ea' * z <= lim * z) by (apply Nat.mul_le_mono_r; lia).
  assert (K' : spread ea' + live_len ea' * z + (z * 0 + 0) <= spread es + lim * z) by lia.
  set (S2 := spread ea' + live_len ea' * z + (z * 0 + 0)) in *. clearbody S2. clear K Hs Hv Hl Hq.
  apply Nat2Z.inj_le in K'.
  rewrite !Nat2Z.inj_add, ?Nat2Z.inj_mul, ?Nat2Z.inj_add in *.
  set (l := Z.of_nat lim) in *. set (zz := Z.of_nat z) in *. set (pl := Z.of_nat (plen es)) in *.
  set (s1 := Z.of_nat (spread es)) in *. set (s2 := Z.of_nat S2) in *.
  set (p := Z.of_nat P0) in *. set (X' := Z.of_nat x) in *. set (Y := Z.of_nat bb) in *.
  set (nn := Z.of_nat n) in *. set (hh := Z.of_nat h) in *.
  clearbody l zz pl s1 s2 p X' Y nn hh.
  eapply Z.le_trans; [exact Hg|]. apply Z.le_0_sub. assert (0 <= s1 + l * zz - s2)%Z as K by lia.
  eapply Z.le_trans; [exact K|]. apply Z.eq_le_incl. ring.
Qed.

(** What is left at first, when [u] words of the lifetime are used. *)
Definition base_of (u : nat) : Z :=
  ((Z.of_nat lim - Z.of_nat X) * Z.of_nat u - Z.of_nat (B + lim) * Z.of_nat W)%Z.
Lemma good_start h pre es : plen es <= W -> live_len es <= lim -> good (base_of (h * Q + pre + plen es)) 0 h pre es.
Proof.
  intros Hw Hl. unfold good, mark, base_of. pose proof (spread_le es) as Hs.
  assert (live_len es * plen es <= lim * plen es) by (apply Nat.mul_le_mono_r, Hl).
  assert (lim * plen es <= lim * W) by (apply Nat.mul_le_mono_l, Hw).
  assert (Hs' : spread es <= lim * W) by lia.
  assert (Hb : B * plen es <= B * W) by (apply Nat.mul_le_mono_l, Hw).
  set (P0 := h * Q + pre) in *. clearbody P0. set (x := X) in *. set (bb := B) in *. clearbody x bb.
  pose proof (Nat.le_0_l ((x + bb) * (0 + h))) as H0'. apply Nat2Z.inj_le in Hs', Hb, H0'. clear - Hs' Hb H0'.
  rewrite !Nat2Z.inj_add, ?Nat2Z.inj_mul, ?Nat2Z.inj_add in *. change (Z.of_nat 0) with 0%Z in *.
  set (l := Z.of_nat lim) in *. set (pl := Z.of_nat (plen es)) in *.
  set (s1 := Z.of_nat (spread es)) in *. set (w := Z.of_nat W) in *.
  set (p := Z.of_nat P0) in *. set (X' := Z.of_nat x) in *. set (Y := Z.of_nat bb) in *. set (hh := Z.of_nat h) in *.
  clearbody l pl s1 w p X' Y hh.
  assert (K : (0 <= (l * w - s1) + (Y * w - Y * pl) + (X' + Y) * (0 + hh))%Z) by lia.
  apply Z.le_0_sub. eapply Z.le_trans; [exact K|]. apply Z.eq_le_incl. ring.
Qed.
(** What is left when the flash is worn out. *)
Lemma good_end base n h pre es : EN * NP = h -> good base n h pre es ->
  (base + (Z.of_nat X - Z.of_nat lim) * Z.of_nat (EN * NP * Q) <= Z.of_nat (X + B) * Z.of_nat (n + EN * NP))%Z.
Proof.
  intros Eh Hg. unfold good, mark in Hg. rewrite <- Eh in Hg. set (e := EN * NP) in *. clearbody e.
  pose proof (Nat.le_0_l (spread es)) as K1.
  set (x := X) in *. set (bb := B) in *. clearbody x bb. apply Nat2Z.inj_le in K1, HlimX.
  pose proof (Nat.le_0_l (plen es)) as K2. pose proof (Nat.le_0_l pre) as K3. apply Nat2Z.inj_le in K2, K3.
  pose proof (Nat.le_0_l bb) as K4. apply Nat2Z.inj_le in K4.
  clear - Hg K1 K2 K3 K4 HlimX.
  rewrite !Nat2Z.inj_add, ?Nat2Z.inj_mul, ?Nat2Z.inj_add in *. change (Z.of_nat 0) with 0%Z in *.
  set (l := Z.of_nat lim) in *. set (pl := Z.of_nat (plen es)) in *.
  set (s1 := Z.of_nat (spread es)) in *. set (pp := Z.of_nat pre) in *. set (q := Z.of_nat Q) in *.
  set (X' := Z.of_nat x) in *. set (Y := Z.of_nat bb) in *. set (hh := Z.of_nat e) in *. set (nn := Z.of_nat n) in *.
  clearbody l pl s1 pp q X' Y hh nn.
  assert (0 <= (X' - l) * pp)%Z by (apply Z.mul_nonneg_nonneg; lia).
  assert (0 <= (X' + Y - l) * pl)%Z by (apply Z.mul_nonneg_nonneg; lia).
  assert (K : (0 <= s1 + (X' - l) * pp + (X' + Y - l) * pl)%Z) by lia.
  apply Z.le_0_sub. apply Z.le_0_sub in Hg. eapply Z.le_trans; [apply (Z.add_nonneg_nonneg _ _ Hg K)|].
  apply Z.eq_le_incl. ring.
Qed.

(* --------------------------------------------------------------- the calls *)

Notation here := (fun _ : flash => True).
Lemma wp_and {A} (m : M A) s (P P' : res store_error A -> st -> Prop) :
  wp F here m s P -> wp F here m s P' -> wp F here m s (fun r s' => P r s' /\ P' r s').
Proof. unfold wp. destruct (m s) as [[r s'] l]. tauto. Qed.

Lemma track_room base n m z : 0 < z -> z <= big -> forall fuel s h pre es,
  on F s h pre es m -> live_len es <= lim -> good base n h pre es ->
  wp F here (make_room F fuel z) s (fun r s' =>
    match r with
    | Ok _ => exists h' pre' es', on F s' h' pre' es' m /\ live_len es' = live_len es /\ plen es' + z <= V /\
        good base n h' pre' es'
    | Err NoLifetime => exists h' pre' es', EN * NP = h' /\ good base n h' pre' es'
    | Err _ => True
    end).
Proof.
  intros Hz Hzb. induction fuel as [|fuel IH]; intros s h pre es O Hl Hg; cbn [make_room].
  - eapply (wp_immediate F G); [exact O|]. destruct (V - plen es <? z) eqn:E.
    + apply wp_fail. exact Logic.I.
    + apply Nat.ltb_ge in E. apply wp_ret. exists h, pre, es. split; [exact O|]. split; [reflexivity|]. split; [lia|exact Hg].
  - eapply (wp_immediate F G); [exact O|]. destruct (V - plen es <? z) eqn:E.
    + apply Nat.ltb_lt in E. pose proof (on_lay F _ _ _ _ _ O) as La.
      apply wp_bind. eapply (on_compact F G); [exact O|auto| |].
      * intros Hw. exists h, pre, es. split; [|exact Hg]. pose proof (b_life _ _ _ _ _ _ _ _ La). lia.
      * intros s' pre' es' Hcp O'. pose proof (on_lay F _ _ _ _ _ O') as La'.
        pose proof (b_pre _ _ _ _ _ _ _ _ La) as Bq. pose proof (b_pre _ _ _ _ _ _ _ _ La') as Bq'.
        pose proof (compacted_live F G _ _ _ _ _ Bq Hcp) as El. rewrite <- El in Hl |- *.
        apply (IH s' (h + 1) pre' es' O' Hl). rewrite El in Hl. eapply (good_compact base n h pre es pre' es' z); assumption.
    + apply Nat.ltb_ge in E. apply wp_ret. exists h, pre, es. split; [exact O|]. split; [reflexivity|]. split; [lia|exact Hg].
Qed.
Lemma track_reserve base n s h pre es m z (P : res store_error unit -> st -> Prop) :
  on F s h pre es m -> 0 < z -> z <= big -> live_len es + z <= C -> live_len es <= lim -> good base n h pre es ->
  (forall h' pre' es', EN * NP = h' -> good base n h' pre' es' -> forall s', P (Err NoLifetime) s') ->
  (forall s' h' pre' es', on F s' h' pre' es' m -> live_len es' = live_len es -> plen es' + z <= V ->
     good base n h' pre' es' -> P (Ok tt) s') ->
  wp F here (reserve F z) s P.
Proof.
  intros O Hz Hzb Hc Hl Hg Herr HP. unfold reserve. eapply (wp_remaining F G); [exact O|].
  replace (C - live_len es <? z) with false by (symmetry; apply Nat.ltb_ge; lia).
  eapply wp_post; [apply wp_and; [exact (track_room base n m z Hz Hzb (2 * NP) s h pre es O Hl Hg)|]|].
  - apply (wp_make_room F G here m z (live_len es) (fun r _ => r = Ok tt \/ r = Err NoLifetime)) with (h := h) (pre := pre) (es := es);
      [auto|exact Hz|lia|intros; right; reflexivity|intros; left; reflexivity|exact O|reflexivity].
  - intros r s' [H1 [->| ->]]; cbv beta iota in H1.
    + destruct H1 as (h' & pre' & es' & O' & E1 & E2 & E3). eapply HP; eassumption.
    + destruct H1 as (h' & pre' & es' & E1 & E2). eapply Herr; eassumption.
Qed.

(** The end of an insertion, with the entries it leaves (as [Finish.wp_insert_init]). *)
Lemma track_init s h pre es k v xs m' (P : res store_error unit -> st -> Prop) :
  lay F (fl s) h (h + NP) pre es (user_words k v) ERASED -> plen es + elen (Live k v) <= V ->
  Forall plain es -> NoDup (keys es) -> eok F (Live k v) -> live_len es + elen (Live k v) <= C ->
  st_head s = Some (h * Q + pre) -> st_ents s = Some (xs ++ [plen es]) ->
  Permutation (map (Nat.add (h * Q + pre)) xs) (lpos (h * Q + pre) es) ->
  Permutation (kv_insert (lives es) k v) m' ->
  (forall s' ea', leq es ea' -> on F s' h pre (ea' ++ [Live k v]) m' -> P (Ok tt) s') ->
  wp F here (insert_init F (h * Q + pre + plen es) (elen (Live k v) - 1) k) s P.
Proof.
  intros L Hfit Hpl Hnd Ox Hl Hh He Hp Hm HP.
  assert (Bq : pre <= MP) by apply (b_pre _ _ _ _ _ _ _ _ L).
  assert (Oes : Forall (eok F) es) by apply (b_ents _ _ _ _ _ _ _ _ L).
  assert (Hll : live_len (es ++ [Live k v]) <= C).
  { rewrite live_len_app, live_len_cons. change (live_len []) with 0. lia. }
  assert (HI : Iw F h pre (es ++ [Live k v])).
  { apply (iw_reset F G); [|exact Hll|exact Bq]. rewrite plen_app, plen_one. exact Hfit. }
  unfold insert_init. apply wp_bind. eapply (wp_settle F G here s h (h + NP) pre es (Live k v) ERASED).
  - left. split; [exact L|auto].
  - exact Ox.
  - intros f' L'. unfold delete_keys.
    eapply (wp_delete_if F G here _ h (h + NP) pre es [Live k v] [] ERASED _ (xs ++ [plen es])
              [h * Q + pre + plen es]).
    + exact L'.
    + intros p [<-|[]]. lia.
    + exact Hh.
    + exact He.
    + rewrite map_app. apply Permutation_app; [exact Hp|apply Permutation_refl].
    + right. right. exists xs, (plen es). split; [reflexivity|]. split; [eapply offs_lt; eassumption|].
      eapply nodup_single; [|exact Hnd]. intros k' E. rewrite existsb_one in E. apply N.eqb_eq, E.
    + auto.
    + intros f2 ea' l' Hw Hn L2 Hp2. apply (HP _ ea'); [eapply wiping_leq, Hw|].
      assert (Hq : leq (es ++ [Live k v]) (ea' ++ [Live k v])) by (apply leq_app; [eapply wiping_leq, Hw|apply leq_refl]).
      split.
      { split; [exact L2|]. split; [right; intros E; destruct ea'; discriminate|].
        split; [eapply (room_leq F _ _ _ _ _ Hq); split; [exact HI|]; split; [exact Hll|left; reflexivity]|].
        split; [apply Forall_app; split; [eapply wiping_plain; eassumption|constructor; [exact Logic.I|constructor]]|].
        split.
        - rewrite keys_live_snoc. apply NoDup_snoc; [eapply wiping_nodup; eassumption|].
          intros Y. apply (proj1 (nomatch_keys _ _) Hn) in Y. rewrite existsb_one, N.eqb_refl in Y. discriminate.
        - rewrite lives_live_snoc, (wiping_lives _ _ _ Hw Hn), <- remove_filter. exact Hm. }
      split; [exact Hh|]. exists l'. split; [reflexivity|].
      rewrite lpos_app, (wiping_plen _ _ _ Hw). exact Hp2.
Qed.

(** One insertion: it is done, or the flash is worn out. *)
Lemma track_insert base n s h pre es m k v (P : res store_error unit -> st -> Prop) :
  on F s h pre es m -> good base n h pre es -> live_len es <= lim -> lim + big <= C ->
  bytes_ok v = true -> (k <= MAX_KEY)%N -> length v <= max_value F -> 1 + to_words (length v) <= big ->
  (forall h' pre' es', EN * NP = h' -> good base n h' pre' es' -> forall s', P (Err NoLifetime) s') ->
  (forall s' h' pre' es', on F s' h' pre' es' (kv_insert m k v) ->
     good base (n + (1 + to_words (length v))) h' pre' es' -> P (Ok tt) s') ->
  wp F here (insert F k v) s P.
Proof.
  intros O Hg Hl Hcap Hv E1 E2 Hb Herr HP. unfold insert.
  replace ((MAX_KEY <? k)%N || (max_value F <? length v)) with false.
  2: { symmetry. apply orb_false_iff. split; [apply N.ltb_ge, E1|apply Nat.ltb_ge, E2]. }
  assert (Ox : eok F (Live k v)) by (split; [exact E1|split; [exact Hv|exact E2]]).
  destruct (live_elen F G k v Ox) as [El Elm]. rewrite <- El in Hb, HP.
  eapply wp_bind_lift; [apply (live_facts F G k v Ox)|].
  apply wp_bind. fold (ewords (Live k v)). fold (elen (Live k v)).
  eapply (track_reserve base n s h pre es m (elen (Live k v))).
  - exact O.
  - lia.
  - exact Hb.
  - lia.
  - exact Hl.
  - exact Hg.
  - exact Herr.
  - intros s2 h2 pre2 es2 O2 El2 Hfit Hg2. assert (Hl2 : live_len es2 <= lim) by lia. clear El2 O Hg Hl. clear s h pre es.
    rename s2 into s, h2 into h, pre2 into pre, es2 into es, O2 into O, Hg2 into Hg, Hl2 into Hl.
    eapply wp_bind_reads; [eapply (on_tail F G), O|]. pose proof (on_fit F G _ _ _ _ _ _ O Hfit) as Hpg.
    pose proof O as ((L & Hbs & Hr & Hpl & Hnd & Hpm) & Hh & l & He & Hp).
    assert (Hm : Permutation (kv_insert (lives es) k v) (kv_insert m k v)) by (apply insert_perm, Hpm).
    apply wp_bind. eapply (wp_write_entry F G here s h (h + NP) pre es ERASED k v).
    + exact L.
    + exact Ox.
    + exact Hpg.
    + auto.
    + intros f' L'. apply wp_bind. eapply (wp_push F G); [exact Hh| |].
      { split; [lia|]. pose proof (virt_eq F G). pose proof (window_eq F G).
        assert ((NP - 1) * Q <= NP * Q) by (apply Nat.mul_le_mono_r; lia). lia. }
      cbn [set_fl st_ents]. rewrite He. cbn [option_map].
      replace (h * Q + pre + plen es - (h * Q + pre)) with (plen es) by lia.
      eapply (track_init _ h pre es k v l (kv_insert m k v)).
      * exact L'.
      * exact Hfit.
      * exact Hpl.
      * exact Hnd.
      * exact Ox.
      * lia.
      * exact Hh.
      * reflexivity.
      * exact Hp.
      * exact Hm.
      * intros s' ea' Hq Os. eapply HP; [exact Os|]. apply (good_insert _ _ _ _ es); assumption.
Qed.
End ENDURE.
