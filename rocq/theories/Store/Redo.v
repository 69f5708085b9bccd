(** Recovery of an interrupted operation: it is finished, or undone. *)
From Coq Require Import Permutation.
From Verif Require Import Base Facts.
From Verif.Kv Require Import Model.
From Verif.Store Require Import Format Bits Words Geom Model Wp Entries Layout Scan Steps Ents Window Shapes Compact Room Finish Oper.
Open Scope nat_scope.
Ltac Zify.zify_post_hook ::= idtac.

(** The offsets of the entries with a value, in order. *)
Definition offs (hp : nat) (es : list ent) : list nat := map (fun p => p - hp) (lpos hp es).
Lemma offs_perm hp es : map (Nat.add hp) (offs hp es) = lpos hp es.
Proof.
  unfold offs. rewrite map_map. rewrite <- (map_id (lpos hp es)) at 2. apply map_ext_in. intros p Hp.
  apply lpos_ge in Hp. lia.
Qed.
Lemma offs_live hp es k v : offs hp (es ++ [Live k v]) = offs hp es ++ [plen es].
Proof.
  unfold offs. rewrite lpos_app, map_app. cbn [lpos map]. f_equal. f_equal. lia.
Qed.
Lemma offs_none hp es ds : copies ds = [] -> offs hp (es ++ ds) = offs hp es.
Proof.
  intros H. unfold offs. rewrite lpos_app, map_app, (copies_none_lpos ds H). apply app_nil_r.
Qed.

Section REDO.
Variable F : format.
Hypothesis G : wff F.
Notation Q := (virt_page_size F).
Notation NP := (num_pages F).
Notation MP := (max_prefix F).
Notation W := (window_size F).
Notation V := (virt_size F).
Notation C := (capacity_of F).
Notation EN := (max_page_erases F).

Lemma win_le_pages : W <= NP * Q.
Proof.
  pose proof (window_eq F G). assert ((NP - 1) * Q <= NP * Q) by (apply Nat.mul_le_mono_r; lia). lia.
Qed.

(** The position of the last entry. *)
Definition at_last (hp : nat) (A : list ent) (prev : nat) : Prop :=
  (A = [] /\ prev = hp) \/ exists A' x, A = A' ++ [x] /\ prev = hp + plen A'.

(** The entries before the interrupted operation. *)
Lemma wp_walk (R : flash -> Prop) h pre T J : forall S A fuel s prev (P : res store_error unit -> st -> Prop),
  lay F (fl s) h (h + NP) pre (A ++ S ++ T) J ERASED -> Forall soft S ->
  plen (A ++ S) <= W -> W <= plen A + fuel ->
  st_head s = Some (h * Q + pre) -> st_ents s = Some (offs (h * Q + pre) A) -> at_last (h * Q + pre) A prev ->
  (forall f' S', leq S S' -> lives S' = lives S -> Forall soft S' ->
     lay F f' h (h + NP) pre (A ++ S' ++ T) J ERASED -> R f') ->
  (forall f' S' fuel' prev', leq S S' -> lives S' = lives S -> Forall plain S' ->
     lay F f' h (h + NP) pre (A ++ S' ++ T) J ERASED ->
     W <= plen (A ++ S') + fuel' -> at_last (h * Q + pre) (A ++ S') prev' ->
     wp F R (operation_loop F fuel' (h * Q + pre + plen (A ++ S')) (h * Q + pre + W) prev')
       (set_ents (set_fl s f') (Some (offs (h * Q + pre) (A ++ S')))) P) ->
  wp F R (operation_loop F fuel (h * Q + pre + plen A) (h * Q + pre + W) prev) s P.
Proof.
  pose proof win_le_pages as WP.
  induction S as [|x S IH]; intros A fuel s prev P L Hs Hw Hf Hh He Hl HR HP.
  - rewrite <- (set_fl_same s), <- (set_ents_same (set_fl s (fl s))). cbn [set_fl st_ents]. rewrite He.
    rewrite <- (app_nil_r A) at 1 2. apply (HP (fl s) []).
    + constructor.
    + reflexivity.
    + constructor.
    + exact L.
    + rewrite app_nil_r. exact Hf.
    + rewrite app_nil_r. exact Hl.
  - inversion_clear Hs as [|? ? Hs1 Hs2]. rewrite plen_app, plen_cons in Hw. cbn [app] in L.
    pose proof (lay_ok_at F _ _ _ _ _ _ _ _ _ L) as Ox. pose proof (eok_len F G x Ox) as Lx.
    destruct fuel as [|fuel]; [lia|]. cbn [operation_loop].
    replace (h * Q + pre + W <=? h * Q + pre + plen A) with false by (symmetry; apply Nat.leb_gt; lia).
    assert (Gx : no_gap x) by (destruct x; try exact Logic.I; destruct Hs1).
    eapply wp_bind_reads; [eapply (lay_parse F G); [exact L|exact Gx]|].
    assert (STEP : forall s2 x', leq1 x x' -> lives1 x' = lives1 x -> plain x' ->
      lay F (fl s2) h (h + NP) pre (A ++ x' :: S ++ T) J ERASED ->
      st_head s2 = Some (h * Q + pre) -> st_ents s2 = Some (offs (h * Q + pre) (A ++ [x'])) ->
      (forall f' l, set_ents (set_fl s2 f') l = set_ents (set_fl s f') l) ->
      wp F R (operation_loop F fuel (h * Q + pre + plen A + elen x) (h * Q + pre + W) (h * Q + pre + plen A)) s2 P).
    { intros s2 x' Q0 Q1 Q2 L2 Hh2 He2 Es. destruct Q0 as [Q01 Q02].
      replace (h * Q + pre + plen A + elen x) with (h * Q + pre + plen (A ++ [x']))
        by (rewrite plen_app, plen_one; lia).
      eapply (IH (A ++ [x']) fuel s2).
      - rewrite <- app_assoc. exact L2.
      - exact Hs2.
      - rewrite <- app_assoc. cbn [app]. rewrite plen_app, plen_cons. lia.
      - rewrite plen_app, plen_one. lia.
      - exact Hh2.
      - exact He2.
      - right. exists A, x'. split; reflexivity.
      - intros f' S' P1 P2 P3 L3. rewrite <- app_assoc in L3. apply (HR f' (x' :: S')).
        + constructor; [split; assumption|exact P1].
        + rewrite !lives_cons, Q1, P2. reflexivity.
        + constructor; [destruct x'; try exact Logic.I; destruct Q2|exact P3].
        + exact L3.
      - intros f' S' fuel' prev' P1 P2 P3 L3 Hf' Hl'. rewrite <- app_assoc in L3, Hf', Hl'. rewrite <- app_assoc.
        rewrite Es. apply (HP f' (x' :: S')); try assumption.
        + constructor; [split; assumption|exact P1].
        + rewrite !lives_cons, Q1, P2. reflexivity.
        + constructor; [exact Q2|exact P3]. }
    assert (SAME : forall f', lay F f' h (h + NP) pre (A ++ x :: S ++ T) J ERASED -> R f').
    { intros f' L'. apply (HR f' (x :: S)); [apply leq_refl|reflexivity| |exact L'].
      constructor; [exact Hs1|exact Hs2]. }
    destruct x as [k v|ws|i|n]; try (destruct Hs1; fail); cbn [pent].
    + apply wp_bind. eapply (wp_push F G); [exact Hh|lia|]. rewrite He. cbn [option_map].
      replace (h * Q + pre + plen A - (h * Q + pre)) with (plen A) by lia.
      eapply (STEP _ (Live k v)); try assumption; try reflexivity.
      * split; [reflexivity|left; reflexivity].
      * cbn [set_ents st_ents]. rewrite offs_live. reflexivity.
    + destruct Ox as (Ow & w & r & -> & Or & _).
      apply wp_bind. replace (h * Q + pre + plen A + elen (Dead (w :: r)) - (h * Q + pre + plen A) - 1) with (length r)
        by (unfold elen; cbn [ewords length]; lia).
      eapply (wp_wipe_dead F G R s h (h + NP) pre A w r (S ++ T) J ERASED).
      * exact L.
      * intros f' r' Or' Hr' L'. apply (HR f' (Dead (w :: r') :: S)); [|reflexivity| |exact L'].
        -- constructor; [|apply leq_refl]. split; [unfold elen; cbn [ewords length]; lia|right; exact Logic.I].
        -- constructor; [exact Logic.I|exact Hs2].
      * intros f' r' Or' Hr' L'. eapply (STEP _ (Dead (w :: r'))); try assumption; try reflexivity.
        -- split; [unfold elen; cbn [ewords length]; lia|right; exact Logic.I].
        -- cbn [set_fl st_ents]. rewrite offs_none by reflexivity. exact He.
    + destruct i as [| | |kr]; try (destruct Hs1; fail). apply wp_bind.
      eapply (wp_set_padding F G R _ h (h + NP) pre A (Intl (IRemove kr)) (S ++ T) J ERASED).
      * exact L.
      * reflexivity.
      * intros [].
      * exact SAME.
      * intros f' w Ow L'. apply (HR f' (Dead [w] :: S)); [|reflexivity| |exact L'].
        -- constructor; [split; [reflexivity|right; exact Logic.I]|apply leq_refl].
        -- constructor; [exact Logic.I|exact Hs2].
      * intros f' w Ow L'. eapply (STEP _ (Dead [w])); try assumption; try reflexivity.
        -- split; [reflexivity|right; exact Logic.I].
        -- cbn [set_fl st_ents]. rewrite offs_none by reflexivity. exact He.
Qed.

(* ------------------------------------------------------------- the last entry *)

(** The last entry is the end of an insertion, or not. *)
Definition ends (es : list ent) (m : kv) : Prop :=
  (NoDup (keys es) /\ Permutation (lives es) m) \/
  (exists es0 k v, es = es0 ++ [Live k v] /\ NoDup (keys es0) /\ Permutation (kv_insert (lives es0) k v) m).
Lemma remove_none m k : ~ In k (map fst m) -> kv_remove m k = m.
Proof.
  intros H. unfold kv_remove. rewrite <- (filter_true m) at 2. apply filter_filter_ext. intros p Hp.
  destruct (N.eqb_spec (fst p) k) as [<-|]; [|reflexivity]. exfalso. apply H, in_map, Hp.
Qed.
Lemma ends_live es0 k v m : ends (es0 ++ [Live k v]) m ->
  NoDup (keys es0) /\ Permutation (kv_insert (lives es0) k v) m.
Proof.
  intros [[H1 H2]|(e0 & k' & v' & E & H1 & H2)].
  - rewrite keys_live_snoc in H1. rewrite lives_live_snoc in H2.
    pose proof (NoDup_remove_1 _ _ _ H1) as X1. pose proof (NoDup_remove_2 _ _ _ H1) as X2.
    rewrite app_nil_r in X1, X2. split; [exact X1|]. unfold kv_insert. rewrite remove_none by exact X2. exact H2.
  - apply app_inj_tail in E as [-> E]. injection E as -> ->. split; assumption.
Qed.
Lemma ends_other es m : (forall es0 k v, es <> es0 ++ [Live k v]) -> ends es m ->
  NoDup (keys es) /\ Permutation (lives es) m.
Proof. intros H [X|(e0 & k' & v' & E & _)]; [exact X|]. destruct (H _ _ _ E). Qed.

Lemma wp_recover_last (R : flash -> Prop) s h pre es prev m (P : res store_error unit -> st -> Prop) :
  lay F (fl s) h (h + NP) pre es [] ERASED -> based h pre es -> room F h pre es [] -> Forall plain es ->
  st_head s = Some (h * Q + pre) -> st_ents s = Some (offs (h * Q + pre) es) -> at_last (h * Q + pre) es prev ->
  ends es m -> (forall f', Crash F m f' -> R f') -> (forall s', On F s' m -> P (Ok tt) s') ->
  wp F R (recover_last F prev) s P.
Proof.
  intros L Hb Hr Hpl Hh He Hl Hend HR HP. unfold recover_last.
  assert (FIN : NoDup (keys es) /\ Permutation (lives es) m -> P (Ok tt) s).
  { intros [H1 H2]. apply HP. exists h, pre, es. split; [split; [exact L|]; repeat (split; [eassumption|]); eassumption|].
    split; [exact Hh|]. eexists. split; [exact He|]. rewrite offs_perm. apply Permutation_refl. }
  destruct Hl as [[-> ->]|(A' & x & -> & ->)].
  - eapply wp_bind_reads.
    + rewrite <- (Nat.add_0_r (h * Q + pre)). change 0 with (plen []). eapply (lay_parse_end F G); [exact L|].
      pose proof (win_pages F G h pre 0 (b_pre _ _ _ _ _ _ _ _ L) ltac:(lia)). pose proof (g_M F G).
      change (plen []) with 0. lia.
    + apply wp_ret, FIN. apply ends_other; [|exact Hend]. intros [|] k v; discriminate.
  - apply Forall_app in Hpl as [Hpl Hx]. inversion_clear Hx as [|? ? Hx1 _].
    assert (Gx : no_gap x) by (destruct x; try exact Logic.I; destruct Hx1).
    eapply wp_bind_reads; [eapply (lay_parse F G); [exact L|exact Gx]|].
    destruct x as [k v|ws|i|n]; try (destruct Hx1; fail); cbn [pent].
    + destruct (ends_live _ _ _ _ Hend) as [N1 P1].
      replace (h * Q + pre + plen A' + elen (Live k v) - (h * Q + pre + plen A') - 1) with (elen (Live k v) - 1) by lia.
      cbn [h_key]. pose proof (lay_ok_at F _ _ _ _ _ _ _ _ _ L) as Ox. destruct Hr as (R1 & R2 & _).
      eapply (wp_insert_init F G R s h pre A' k v (offs (h * Q + pre) A') m); try eassumption.
      * right. split; assumption.
      * rewrite live_len_app, live_len_cons in R2. change (live_len []) with 0 in R2. lia.
      * rewrite <- offs_live with (k := k) (v := v). exact He.
      * rewrite offs_perm. apply Permutation_refl.
    + apply wp_ret, FIN. apply ends_other; [|exact Hend]. intros es0 k v E. apply app_inj_tail in E as [_ E]. discriminate.
Qed.
(* ------------------------------------------------------- partially written entries *)

Lemma seg_J f h e pre es J c : lay F f h e pre es J c -> seg F f (h * Q + pre + plen es) J.
Proof. intros L. pose proof (b_seg _ _ _ _ _ _ _ _ L) as X. apply seg_app in X as [_ X]. exact X. Qed.

Lemma inited_same f f' h e pre es (J J' : list N) : inited F f h e pre es J -> hdr_same f f' ->
  length J' = length J -> inited F f' h e pre es J'.
Proof.
  intros H Hs E j Hj Ht. rewrite E in Ht |- *. rewrite <- (H j Hj Ht). unfold vini. apply (Hs (j mod NP)).
Qed.

Lemma flat_zeros n : flat (repeat (Dead [0%N]) n) = repeat 0%N n.
Proof. induction n as [|n IH]; [reflexivity|]. cbn [repeat]. rewrite flat_cons, IH. reflexivity. Qed.

Lemma bad_head_pad g n : bad_head F g n -> is_pad F g = false.
Proof. unfold is_pad. intros [B|[B|(h & B & _)]]; rewrite B; reflexivity. Qed.
Lemma dead_head w r : eok F (Dead (w :: r)) -> is_pad F w = true.
Proof. intros (_ & w' & r' & E & _ & P). injection E as <- <-. unfold is_pad. rewrite P. reflexivity. Qed.

(** What is left of an entry whose write was interrupted is wiped. *)
Lemma wp_wipe_partial (R : flash -> Prop) s h e pre es J (P : res store_error unit -> st -> Prop) :
  lay F (fl s) h e pre es J ERASED -> jg_ok F J ->
  (forall f' J', lay F f' h e pre es J' ERASED -> jg_ok F J' -> length J' = length J -> R f') ->
  (forall f' ds, lay F f' h e pre (es ++ ds) [] ERASED -> Forall is_dead ds -> plen ds = length J -> R f') ->
  (forall f' ds, lay F f' h e pre (es ++ ds) [] ERASED -> Forall is_dead ds -> plen ds = length J ->
     P (Ok tt) (set_fl s f')) ->
  wp F R (recover_wipe_partial F (h * Q + pre + plen es) (length J - 1)) s P.
Proof.
  intros L (Jn & Jl & Jw & Je & Jb) HR1 HR2 HP. destruct J as [|g r]; [destruct (Jn eq_refl)|]. clear Jn.
  cbn [hd] in Jb. inversion Jw as [|? ? Wg Wr E1]. subst.
  replace (length (g :: r) - 1) with (length r) by (cbn [length]; lia).
  assert (JG : forall ys, length ys = length r -> Forall w32 ys ->
    (forall i, i < length r -> sub (nth i ys 0%N) (nth i r 0%N)) -> jg_ok F (g :: ys)).
  { intros ys Ly Wy Sy. split; [discriminate|]. split; [cbn [length] in *; lia|].
    split; [constructor; assumption|]. split.
    - rewrite <- nth_last in Je |- *. destruct r as [|r0 r].
      + destruct ys; [exact Je|discriminate].
      + destruct ys as [|y0 ys]; [discriminate|]. intros E. apply Je.
        specialize (Sy (length r) ltac:(cbn [length]; lia)). cbn [length] in Ly. injection Ly as Ly.
        change (length (g :: y0 :: ys) - 1) with (Datatypes.S (length ys)) in E. rewrite Ly in E.
        cbn [nth] in E. change (length (g :: r0 :: r) - 1) with (Datatypes.S (length r)). cbn [nth].
        change (nth (length r) (y0 :: ys) 0%N = ERASED) in E. rewrite E in Sy.
        apply sub_antisym; [|exact Sy]. apply sub_erased.
        apply (Forall_nth_w32 (r0 :: r)). exact Wr.
    - cbn [hd length]. rewrite Ly. exact Jb. }
  unfold recover_wipe_partial, wipe_span. apply wp_bind.
  apply (wp_write_J F G R s h e pre es (g :: r) ERASED 1).
  - exact L.
  - apply repeat_w32. reflexivity.
  - rewrite repeat_length. cbn [length]. lia.
  - intros i Hi. rewrite nth_repeat_0. apply sub_0.
  - intros i Hi Z. discriminate Z.
  - intros i Hi. right. right. left. apply nth_repeat_0.
  - intros f' ys Ly Wy By _ _ L'. rewrite repeat_length in Ly, By. rewrite upd_tail in L' by exact Ly.
    apply (HR1 f' (g :: ys)); [exact L'| |cbn [length]; lia]. apply JG; try assumption.
    intros i Hi. apply (By i Hi).
  - intros f1 _ _ L1. rewrite upd_tail in L1 by apply repeat_length.
    set (zs := repeat 0%N (length r)) in *.
    assert (Lz : length zs = length r) by apply repeat_length.
    assert (JZ : jg_ok F (g :: zs)).
    { apply JG; [exact Lz|apply repeat_w32; reflexivity|]. intros i Hi. unfold zs. rewrite nth_repeat_0. apply sub_0. }
    apply wp_bind. replace (h * Q + pre + plen es + length r) with (h * Q + pre + plen es + (length (g :: zs) - 1))
      by (cbn [length]; lia).
    apply (wp_init_page F G R (set_fl s f1) h e pre es (g :: zs) ERASED).
    + exact L1.
    + discriminate.
    + intros f' L'. apply (HR1 f' (g :: zs)); [exact L'|exact JZ|cbn [length]; lia].
    + intros f2 L2 I2. unfold set_padding.
      pose proof (seg_J _ _ _ _ _ _ _ L2) as Sg. apply seg_cons in Sg as [Sg _].
      destruct (pad_facts F g Wg) as (w' & E & W' & S' & Ok' & At).
      eapply wp_bind_reads; [cbn [set_fl fl]; rewrite Sg; exact E|].
      assert (FIN : forall f3, hdr_same f2 f3 -> lay F f3 h e pre es (w' :: zs) ERASED ->
        exists ds, lay F f3 h e pre (es ++ ds) [] ERASED /\ Forall is_dead ds /\ plen ds = length (g :: r)).
      { intros f3 H3 L3. exists (Dead [w'] :: repeat (Dead [0%N]) (length r)).
        assert (Ef : flat (Dead [w'] :: repeat (Dead [0%N]) (length r)) = w' :: zs)
          by (rewrite flat_cons, flat_zeros; reflexivity).
        split; [|split].
        - apply lay_settle; try assumption.
          + rewrite Ef. exact L3.
          + rewrite Ef. eapply inited_same; [exact I2|exact H3|reflexivity].
          + constructor; [exact Ok'|]. apply Forall_forall. intros x Hx. apply repeat_spec in Hx. subst. apply (zero_ok F).
          + intros [|d1 D1] d D2 Ed Dn; [destruct (Dn eq_refl)|]. injection Ed as _ Ed.
            assert (Hd : In d (repeat (Dead [0%N]) (length r))) by (rewrite Ed; apply in_elt).
            apply repeat_spec in Hd. exact Hd.
        - constructor; [exact Logic.I|]. apply Forall_forall. intros x Hx. apply repeat_spec in Hx. subst. exact Logic.I.
        - unfold plen. rewrite Ef. cbn [length]. lia. }
      rewrite <- (Nat.add_0_r (h * Q + pre + plen es)).
      apply (wp_write_J F G R (set_fl s f2) h e pre es (g :: zs) ERASED 0 [w']).
      * exact L2.
      * constructor; [exact W'|constructor].
      * cbn [length]. lia.
      * cbn [length]. intros i Hi. assert (i = 0) by lia. subst i. exact S'.
      * intros i Hi _ X. exfalso. cbn [nth] in X. rewrite (bad_head_pad _ _ Jb) in X. discriminate X.
      * cbn [length]. intros i Hi. right. right. right. right. assert (i = 0) by lia. subst i.
        split; [reflexivity|]. apply (dead_head _ _ Ok').
      * cbn [length]. intros f3 ys Ly Wy By H3 _ L3. destruct ys as [|y [|? ?]]; try discriminate.
        rewrite upd_head in L3 by (cbn [length]; lia). cbn [tl] in L3.
        destruct (By 0 ltac:(lia)) as [By1 By2]. cbn [nth Nat.add] in By1, By2.
        destruct (At y By1 By2) as [->| ->].
        -- apply (HR1 f3 (g :: zs)); [exact L3|exact JZ|cbn [length]; lia].
        -- destruct (FIN f3 H3 L3) as (ds & X1 & X2 & X3). apply (HR2 f3 ds); assumption.
      * intros f3 H3 _ L3. rewrite upd_head in L3 by (cbn [length]; lia). cbn [tl] in L3.
        destruct (FIN f3 H3 L3) as (ds & X1 & X2 & X3). apply (HP f3 ds); assumption.
Qed.

(** An entry whose footer is wrong is deleted. *)
Lemma wp_delete_user (R : flash -> Prop) s h e pre es J (P : res store_error unit -> st -> Prop) :
  lay F (fl s) h e pre es J ERASED -> ju_ok F J ->
  (forall f' J', lay F f' h e pre es J' ERASED -> ju_ok F J' -> length J' = length J -> R f') ->
  (forall f' ds, lay F f' h e pre (es ++ ds) [] ERASED -> Forall is_dead ds -> plen ds = length J -> R f') ->
  (forall f' ds, lay F f' h e pre (es ++ ds) [] ERASED -> Forall is_dead ds -> plen ds = length J ->
     P (Ok tt) (set_fl s f')) ->
  wp F R (recover_delete_user F (h * Q + pre + plen es) (length J - 1)) s P.
Proof.
  intros L Ju HR1 HR2 HP. pose proof Ju as (Jw & w & r & hh & -> & Jp & Jl & Jn & Jr & _).
  inversion Jw as [|? ? Ww Wr E1]. subst.
  unfold recover_delete_user. apply wp_bind.
  apply (wp_init_page F G R s h e pre es (w :: r) ERASED); [exact L|discriminate| |].
  - intros f' L'. apply (HR1 f' (w :: r)); [exact L'|exact Ju|reflexivity].
  - intros f2 L2 I2. pose proof (seg_J _ _ _ _ _ _ _ L2) as Sg. apply seg_cons in Sg as [Sg _].
    destruct (del_facts w Ww) as (Wd & Sd & At).
    assert (OkD : eok F (Dead (del_word w :: r))) by (eapply (del_ju_ok F); eauto).
    assert (FIN : forall f3, hdr_same f2 f3 -> lay F f3 h e pre es (del_word w :: r) ERASED ->
        lay F f3 h e pre (es ++ [Dead (del_word w :: r)]) [] ERASED).
    { intros f3 H3 L3. apply settle_one; try assumption.
      eapply inited_same; [exact I2|exact H3|reflexivity]. }
    unfold delete_pos, set_deleted. apply wp_bind_assoc. eapply wp_bind_reads; [reflexivity|].
    cbn [set_fl fl]. rewrite Sg. apply wp_bind. rewrite <- (Nat.add_0_r (h * Q + pre + plen es)) at 1.
    apply (wp_write_J F G R (set_fl s f2) h e pre es (w :: r) ERASED 0 [del_word w]).
    + exact L2.
    + constructor; [exact Wd|constructor].
    + cbn [length]. lia.
    + cbn [length]. intros i Hi. assert (i = 0) by lia. subst i. exact Sd.
    + intros i Hi _ X. exfalso. cbn [nth] in X. unfold is_pad in X. rewrite Jp in X. discriminate X.
    + cbn [length]. intros i Hi. right. right. right. right. assert (i = 0) by lia. subst i.
      split; [reflexivity|]. apply (dead_head _ _ OkD).
    + cbn [length]. intros f3 ys Ly Wy By H3 _ L3. destruct ys as [|y [|? ?]]; try discriminate.
      rewrite upd_head in L3 by (cbn [length]; lia). cbn [tl] in L3.
      destruct (By 0 ltac:(lia)) as [By1 By2]. cbn [nth Nat.add] in By1, By2.
      destruct (At y By1 By2) as [->| ->].
      * apply (HR1 f3 (w :: r)); [exact L3|exact Ju|reflexivity].
      * apply (HR2 f3 [Dead (del_word w :: r)]); [apply FIN; assumption|repeat constructor|].
        rewrite plen_one. reflexivity.
    + intros f3 H3 _ L3. rewrite upd_head in L3 by (cbn [length]; lia). cbn [tl] in L3.
      pose proof (FIN f3 H3 L3) as L4.
      replace (length (w :: r) - 1) with (length r) by (cbn [length]; lia).
      apply (wp_wipe_dead F G R (set_fl s f3) h e pre es (del_word w) r [] [] ERASED).
      * exact L4.
      * intros f' r' _ Lr L5. apply (HR2 f' [Dead (del_word w :: r')]); [exact L5|repeat constructor|].
        rewrite plen_one. unfold elen. cbn [ewords length]. lia.
      * intros f' r' _ Lr L5. apply (HP f' [Dead (del_word w :: r')]); [exact L5|repeat constructor|].
        rewrite plen_one. unfold elen. cbn [ewords length]. lia.
Qed.

(* ---------------------------------------------------------------- simple operations *)

Lemma dead_copies ds : Forall is_dead ds -> copies ds = [] /\ lives ds = [] /\ live_len ds = 0 /\ Forall plain ds.
Proof.
  induction 1 as [|d ds Hd _ (I1 & I2 & I3 & I4)]; [repeat split; constructor|].
  destruct d; try (destruct Hd; fail). repeat split.
  - exact I1.
  - rewrite lives_cons, I2. reflexivity.
  - rewrite live_len_cons, I3. reflexivity.
  - constructor; [exact Logic.I|exact I4].
Qed.

Lemma rest_end f h pre A ds m :
  lay F f h (h + NP) pre (A ++ ds) [] ERASED -> Forall is_dead ds -> Forall plain A ->
  based h pre (A ++ ds) -> plen (A ++ ds) <= V -> live_len A <= C ->
  NoDup (keys A) -> Permutation (lives A) m -> rest F f h pre (A ++ ds) m.
Proof.
  intros L Hd Hp Hb Hv Hc Hn Hm. destruct (dead_copies ds Hd) as (D1 & D2 & D3 & D4).
  assert (Hl : live_len (A ++ ds) <= C) by (rewrite live_len_app, D3; lia).
  split; [exact L|]. split; [exact Hb|]. split.
  - split; [|split; [exact Hl|left; reflexivity]].
    apply (iw_reset F G); [exact Hv|exact Hl|apply (b_pre _ _ _ _ _ _ _ _ L)].
  - split; [apply Forall_app; split; assumption|]. rewrite keys_app. unfold keys at 2. rewrite D2. cbn [map].
    rewrite app_nil_r. split; [exact Hn|]. rewrite lives_app, D2, app_nil_r. exact Hm.
Qed.
Lemma on_end s h pre A ds m :
  rest F (fl s) h pre (A ++ ds) m -> Forall is_dead ds ->
  st_head s = Some (h * Q + pre) -> st_ents s = Some (offs (h * Q + pre) A) -> On F s m.
Proof.
  intros Hr Hd Hh He. destruct (dead_copies ds Hd) as (D1 & _).
  exists h, pre, (A ++ ds). split; [exact Hr|]. split; [exact Hh|]. eexists. split; [exact He|].
  rewrite <- (offs_none _ A ds D1), offs_perm. apply Permutation_refl.
Qed.

(** Nothing more: only the last entry remains to be looked at. *)
Lemma wp_loop_end (R : flash -> Prop) s hp n fuel prev (P : res store_error unit -> st -> Prop) :
  blank F (fl s) (hp + n) (hp + n + MP) -> W <= n + fuel ->
  wp F R (recover_last F prev) s P ->
  wp F R (operation_loop F fuel (hp + n) (hp + W) prev) s P.
Proof.
  intros Hb Hf H. destruct fuel as [|fuel]; cbn [operation_loop].
  - replace (hp + W <=? hp + n) with true by (symmetry; apply Nat.leb_le; lia). exact H.
  - destruct (hp + W <=? hp + n); [exact H|]. eapply wp_bind_reads; [apply parse_tail; assumption|]. exact H.
Qed.
Lemma lay_blank f h pre es J c n : lay F f h (h + NP) pre es J c -> n <= MP + 1 -> plen es + length J <= W ->
  blank F f (h * Q + pre + plen es + length J) (h * Q + pre + plen es + length J + n).
Proof.
  intros L Hn Hw. eapply blank_mono; [apply (b_blank _ _ _ _ _ _ _ _ L)|lia|].
  pose proof (win_pages F G h pre (plen es + length J) (b_pre _ _ _ _ _ _ _ _ L) Hw). pose proof (g_M F G). lia.
Qed.

Section RUN.
Variable R : flash -> Prop.
Variable m : kv.
Variable P : res store_error unit -> st -> Prop.
Hypothesis HR : forall f', Crash F m f' -> R f'.
Hypothesis HP : forall s', On F s' m -> P (Ok tt) s'.

Lemma leq_keys S S' : lives S' = lives S -> keys S' = keys S.
Proof. intros H. unfold keys. rewrite H. reflexivity. Qed.

Lemma virt_win : V + 2 <= W.
Proof. pose proof (virt_eq F G). pose proof (g_N F G). lia. Qed.

(** One step of the loop at an entry which is complete, settled or not. *)
Lemma wp_loop_at s hp n fuel prev x : eok F x -> no_gap x -> seg F (fl s) (hp + n) (ewords x) ->
  n < W -> W <= n + fuel ->
  (forall fuel', W <= n + 1 + fuel' -> wp F R (
     match pent x with
     | ETail => recover_last F prev
     | EUser _ => _ <~ push_entry (hp + n) ;; operation_loop F fuel' (hp + n + elen x) (hp + W) (hp + n)
     | EPadding => _ <~ wipe_span F (hp + n + 1) (hp + n + elen x - (hp + n) - 1) ;; operation_loop F fuel' (hp + n + elen x) (hp + W) (hp + n)
     | EInternal (IErase _) => fail InvalidStorage
     | EInternal (IClear _) => clear_delete F (hp + n)
     | EInternal (IMarker _) => recover_transaction F (hp + n) (hp + W)
     | EInternal (IRemove _) => _ <~ set_padding F (hp + n) ;; operation_loop F fuel' (hp + n + elen x) (hp + W) (hp + n)
     | EPartial => recover_wipe_partial F (hp + n) (hp + n + elen x - (hp + n) - 1)
     | EPartialUser => recover_delete_user F (hp + n) (hp + n + elen x - (hp + n) - 1)
     end) s P) ->
  wp F R (operation_loop F fuel (hp + n) (hp + W) prev) s P.
Proof.
  intros Ox Gx Sx Hn Hf H. destruct fuel as [|fuel]; [lia|]. cbn [operation_loop].
  replace (hp + W <=? hp + n) with false by (symmetry; apply Nat.leb_gt; lia).
  eapply wp_bind_reads; [apply parse_ent; [exact G|exact Ox|apply no_gap_ne, Gx|exact Sx]|].
  specialize (H fuel ltac:(lia)). destruct (pent x) as [| | |[]| |]; exact H.
Qed.

Lemma wp_op_none s h pre es J :
  lay F (fl s) h (h + NP) pre es J ERASED -> based h pre es -> room F h pre es J -> op_none F es J m ->
  st_head s = Some (h * Q + pre) -> st_ents s = Some [] ->
  wp F R (operation_loop F W (h * Q + pre) (h * Q + pre + W) (h * Q + pre)) s P.
Proof.
  intros L Hb Hr (Hs & Hn & HJ & Hm) Hh He. pose proof virt_win as VW.
  pose proof (iw_win F G _ _ _ (proj1 Hr)) as Hw.
  assert (CR : forall f' S' J', leq es S' -> lives S' = lives es -> Forall soft S' -> length J' <= length J ->
    J' = [] \/ jg_ok F J' \/ ju_ok F J' -> lay F f' h (h + NP) pre S' J' ERASED -> Crash F m f').
  { intros f' S' J' H1 H2 H3 H4 H5 L'. right. left. exists h, pre, S', J'. split; [exact L'|].
    split; [eapply based_leq; eassumption|]. split.
    - destruct (room_leq F _ _ _ _ _ H1 Hr) as (R1 & R2 & R3). split; [exact R1|]. split; [exact R2|].
      destruct R3 as [R3|R3].
      + left. rewrite R3 in H4. destruct J'; [reflexivity|cbn [length] in H4; lia].
      + right. lia.
    - left. split; [exact H3|]. rewrite (leq_keys _ _ H2), H2. split; [exact Hn|]. split; [exact H5|exact Hm]. }
  rewrite <- (Nat.add_0_r (h * Q + pre)) at 1. change 0 with (plen []).
  eapply (wp_walk R h pre [] J es []); rewrite ?app_nil_r; try assumption.
  - lia.
  - left. split; reflexivity.
  - cbn [app]. intros f' S' H1 H2 H3 L'. rewrite app_nil_r in L'. apply HR. eapply CR; try eassumption; lia.
  - cbn [app]. intros f' A fuel prev H1 H2 H3 L' Hf Hl. rewrite app_nil_r in L'.
    set (s1 := set_ents (set_fl s f') (Some (offs (h * Q + pre) A))).
    assert (Hb' := based_leq _ _ _ _ H1 Hb). assert (Hr' := room_leq F _ _ _ _ _ H1 Hr).
    assert (Hn' : NoDup (keys A)) by (rewrite (leq_keys _ _ H2); exact Hn).
    assert (Hm' : Permutation (lives A) m) by (rewrite H2; exact Hm).
    pose proof (leq_plen _ _ H1) as Hp'. destruct Hr' as (Hr1 & Hr2 & Hr3).
    assert (FIN : forall f2 ds, J <> [] -> lay F f2 h (h + NP) pre (A ++ ds) [] ERASED -> Forall is_dead ds ->
      plen ds = length J -> rest F f2 h pre (A ++ ds) m).
    { intros f2 ds Jn L2 Hd Hpl. destruct Hr3 as [Hr3|Hr3]; [destruct (Jn Hr3)|].
      apply rest_end; try assumption.
      - right. destruct ds; [|intros E; apply app_eq_nil in E as [_ E]; discriminate].
        change (plen []) with 0 in Hpl. destruct J; [destruct (Jn eq_refl)|discriminate].
      - rewrite plen_app, Hpl. exact Hr3. }
    destruct HJ as [HJ|[HJ|HJ]].
    + subst J. apply wp_loop_end; [|exact Hf|].
      * pose proof (lay_blank f' h pre A [] ERASED MP L' ltac:(lia) ltac:(cbn [length]; lia)) as X.
        cbn [length] in X. rewrite !Nat.add_0_r in X. exact X.
      * eapply wp_recover_last; try eassumption; try reflexivity.
        -- split; [exact Hr1|]. split; [exact Hr2|left; reflexivity].
        -- left. split; assumption.
    + pose proof (jg_len F _ HJ) as Lj. assert (Jn : J <> []) by apply HJ.
      destruct Hr3 as [Hr3|Hr3]; [destruct (Jn Hr3)|].
      destruct fuel as [|fuel]; [lia|]. cbn [operation_loop].
      replace (h * Q + pre + W <=? h * Q + pre + plen A) with false by (symmetry; apply Nat.leb_gt; lia).
      eapply wp_bind_reads.
      { apply (parse_jg F G); [exact HJ|eapply seg_J; exact L'|].
        eapply blank_mono; [eapply (lay_blank f' h pre A J ERASED (MP + 1)); [exact L'|lia|lia]|lia|lia]. }
      cbn beta iota. replace (h * Q + pre + plen A + length J - (h * Q + pre + plen A) - 1) with (length J - 1) by lia.
      eapply wp_wipe_partial; [exact L'|exact HJ| | |].
      * intros f2 J' L2 J2 E2. apply HR. eapply (CR f2 A J'); try eassumption; [apply plain_soft; exact H3|lia|auto].
      * intros f2 ds L2 Hd Hpl. apply HR. eapply rest_crash. apply FIN; eassumption.
      * intros f2 ds L2 Hd Hpl. apply HP. eapply on_end; [apply FIN; eassumption|exact Hd|exact Hh|reflexivity].
    + pose proof (ju_len F G _ HJ) as Lj. assert (Jn : J <> []) by (intros ->; cbn [length] in Lj; lia).
      destruct Hr3 as [Hr3|Hr3]; [destruct (Jn Hr3)|].
      destruct fuel as [|fuel]; [lia|]. cbn [operation_loop].
      replace (h * Q + pre + W <=? h * Q + pre + plen A) with false by (symmetry; apply Nat.leb_gt; lia).
      eapply wp_bind_reads; [apply (parse_ju F); [exact HJ|eapply seg_J; exact L']|].
      cbn beta iota. replace (h * Q + pre + plen A + length J - (h * Q + pre + plen A) - 1) with (length J - 1) by lia.
      eapply wp_delete_user; [exact L'|exact HJ| | |].
      * intros f2 J' L2 J2 E2. apply HR. eapply (CR f2 A J'); try eassumption; [apply plain_soft; exact H3|lia|auto].
      * intros f2 ds L2 Hd Hpl. apply HR. eapply rest_crash. apply FIN; eassumption.
      * intros f2 ds L2 Hd Hpl. apply HP. eapply on_end; [apply FIN; eassumption|exact Hd|exact Hh|reflexivity].
Qed.

(** The complete entry at the end, settled or not. *)
Lemma pending_at f h pre es J es0 x c : lay F f h (h + NP) pre es J c -> pending F es J es0 x -> no_gap x ->
  plen es + length J <= W ->
  es ++ [] = es0 ++ (if length J =? 0 then [x] else []) /\
  plen es0 + elen x = plen es + length J /\
  forall es0' f', leq es0 es0' -> lay F f' h (h + NP) pre (es0' ++ (if length J =? 0 then [x] else [])) J c ->
    seg F f' (h * Q + pre + plen es0') (ewords x) /\
    blank F f' (h * Q + pre + (plen es0' + elen x)) (h * Q + pre + (plen es0' + elen x) + MP) /\
    ((lay F f' h (h + NP) pre es0' (ewords x) c /\ J = ewords x) \/
     (lay F f' h (h + NP) pre (es0' ++ [x]) [] c /\ J = [])).
Proof.
  intros L [Ox [[-> ->]|[-> ->]]] Gx Hw; pose proof (eok_len F G x Ox) as Lx; fold (elen x) in *.
  - replace (elen x =? 0) with false by (symmetry; apply Nat.eqb_neq; lia).
    split; [reflexivity|]. split; [reflexivity|]. intros es0' f' Hq L'. rewrite app_nil_r in L'.
    pose proof (leq_plen _ _ Hq) as Hp.
    split; [eapply seg_J; exact L'|]. split; [|left; split; [exact L'|reflexivity]].
    eapply blank_mono; [eapply (lay_blank f' h pre es0' (ewords x) c MP); [exact L'|lia|fold (elen x); lia]|fold (elen x); lia|fold (elen x); lia].
  - cbn [length Nat.eqb]. split; [apply app_nil_r|]. split; [rewrite plen_app, plen_one; lia|].
    rewrite plen_app, plen_one in Hw. cbn [length] in Hw.
    intros es0' f' Hq L'. pose proof (leq_plen _ _ Hq) as Hp. split; [eapply lay_seg_at; exact L'|].
    split; [|right; split; [exact L'|reflexivity]].
    pose proof (lay_blank f' h pre (es0' ++ [x]) [] c MP L' ltac:(lia)) as X.
    rewrite plen_app, plen_one in X. cbn [length] in X. rewrite Nat.add_0_r in X. specialize (X ltac:(lia)).
    eapply blank_mono; [exact X|lia|lia].
Qed.

Lemma pending_leq es J es0 es0' x : pending F es J es0 x ->
  pending F (es0' ++ (if length J =? 0 then [x] else [])) J es0' x.
Proof.
  intros [Ox [[-> ->]|[-> ->]]]; split; try exact Ox.
  - left. pose proof (eok_len F G x Ox) as Lx. fold (elen x).
    replace (elen x =? 0) with false by (symmetry; apply Nat.eqb_neq; lia). rewrite app_nil_r. auto.
  - right. auto.
Qed.

Lemma room_plen h pre es J : room F h pre es J -> plen es + length J <= W.
Proof.
  intros (H1 & _ & [->|H3]); pose proof (iw_win F G _ _ _ H1) as X; [cbn [length]; lia|].
  pose proof virt_win. lia.
Qed.

Lemma wp_op_insert s h pre es J :
  lay F (fl s) h (h + NP) pre es J ERASED -> based h pre es -> room F h pre es J -> op_insert F es J m ->
  st_head s = Some (h * Q + pre) -> st_ents s = Some [] ->
  wp F R (operation_loop F W (h * Q + pre) (h * Q + pre + W) (h * Q + pre)) s P.
Proof.
  intros L Hb Hr (es0 & k & v & Hpe & Hs & Hn & Hc & Hm) Hh He. pose proof virt_win as VW.
  pose proof (room_plen _ _ _ _ Hr) as Hw. pose proof (proj1 Hpe) as Ox. pose proof (eok_len F G _ Ox) as Lx.
  destruct (pending_at (fl s) h pre es J es0 (Live k v) ERASED L Hpe Logic.I Hw) as (Ees & Hpl & At).
  rewrite app_nil_r in Ees. set (T := if length J =? 0 then [Live k v] else []) in *.
  rewrite <- (Nat.add_0_r (h * Q + pre)) at 1. change 0 with (plen []).
  apply (wp_walk R h pre T J es0 []); try assumption.
  - cbn [app]. rewrite <- Ees. exact L.
  - cbn [app]. lia.
  - cbn [plen]. lia.
  - left. split; reflexivity.
  - cbn [app]. intros f' S' H1 H2 H3 L'. apply HR. right. left. exists h, pre, (S' ++ T), J.
    assert (Hq : leq es (S' ++ T)) by (rewrite Ees; apply leq_app; [exact H1|apply leq_refl]).
    split; [exact L'|]. split; [eapply based_leq; eassumption|]. split; [eapply room_leq; eassumption|].
    right. left. exists S', k, v. split; [eapply pending_leq; exact Hpe|]. split; [exact H3|].
    rewrite (leq_keys _ _ H2), H2. split; [exact Hn|]. split; [pose proof (leq_live _ _ H1); lia|exact Hm].
  - cbn [app]. intros f' A fuel prev H1 H2 H3 L' Hf Hl. pose proof (leq_plen _ _ H1) as Hp.
    destruct (At A f' H1 L') as (Sx & Bx & Lx').
    assert (Hq : leq es (A ++ T)) by (rewrite Ees; apply leq_app; [exact H1|apply leq_refl]).
    eapply (wp_loop_at _ _ _ _ _ (Live k v)); [exact Ox|exact Logic.I|exact Sx|lia|exact Hf|].
    intros fuel' Hf'. cbn [pent]. apply wp_bind. eapply (wp_push F G); [exact Hh|pose proof win_le_pages; lia|].
    cbn [set_ents st_ents option_map].
    replace (h * Q + pre + plen A - (h * Q + pre)) with (plen A) by lia.
    rewrite <- Nat.add_assoc. apply wp_loop_end; [exact Bx|lia|].
    unfold recover_last. eapply wp_bind_reads; [apply parse_ent; [exact G|exact Ox|discriminate|exact Sx]|].
    cbn [pent h_key]. cbn beta iota.
    replace (h * Q + pre + plen A + elen (Live k v) - (h * Q + pre + plen A) - 1) with (elen (Live k v) - 1) by lia.
    eapply (wp_insert_init F G R _ h pre A k v (offs (h * Q + pre) A) m).
    + destruct Lx' as [[X1 X2]|[X1 X2]].
      * left. split; [exact X1|]. assert (T = []) as ET.
        { unfold T. rewrite X2. fold (elen (Live k v)). destruct (Nat.eqb_spec (elen (Live k v)) 0); [lia|reflexivity]. }
        rewrite ET, app_nil_r in Hq.
        destruct (room_leq F _ _ _ _ _ Hq Hr) as (R1 & R2 & R3). split; [|split; [exact R1|eapply based_leq; eassumption]].
        destruct R3 as [R3|R3]; [rewrite R3 in X2; unfold elen in Lx; rewrite <- X2 in Lx; cbn [length] in Lx; lia|].
        rewrite X2 in R3. exact R3.
      * right. split; [exact X1|]. assert (T = [Live k v]) as ET by (unfold T; rewrite X2; reflexivity).
        rewrite ET in Hq. apply (room_leq F _ _ _ _ _ Hq Hr).
    + exact H3.
    + rewrite (leq_keys _ _ H2). exact Hn.
    + exact Ox.
    + pose proof (leq_live _ _ H1). lia.
    + exact Hh.
    + reflexivity.
    + rewrite offs_perm. apply Permutation_refl.
    + rewrite H2. exact Hm.
    + exact HR.
    + exact HP.
Qed.

Lemma wp_op_clear s h pre es J :
  lay F (fl s) h (h + NP) pre es J ERASED -> based h pre es -> room F h pre es J -> op_clear F es J m ->
  st_head s = Some (h * Q + pre) -> st_ents s = Some [] ->
  wp F R (operation_loop F W (h * Q + pre) (h * Q + pre + W) (h * Q + pre)) s P.
Proof.
  intros L Hb Hr (es0 & k & Hpe & Hs & Hn & Hm) Hh He. pose proof virt_win as VW. set (x := Intl (IClear k)) in *.
  pose proof (room_plen _ _ _ _ Hr) as Hw. pose proof (proj1 Hpe) as Ox. pose proof (eok_len F G _ Ox) as Lx.
  destruct (pending_at (fl s) h pre es J es0 x ERASED L Hpe Logic.I Hw) as (Ees & Hpl & At).
  rewrite app_nil_r in Ees. set (T := if length J =? 0 then [x] else []) in *.
  rewrite <- (Nat.add_0_r (h * Q + pre)) at 1. change 0 with (plen []).
  apply (wp_walk R h pre T J es0 []); try assumption.
  - cbn [app]. rewrite <- Ees. exact L.
  - cbn [app]. lia.
  - cbn [plen]. lia.
  - left. split; reflexivity.
  - cbn [app]. intros f' S' H1 H2 H3 L'. apply HR. right. left. exists h, pre, (S' ++ T), J.
    assert (Hq : leq es (S' ++ T)) by (rewrite Ees; apply leq_app; [exact H1|apply leq_refl]).
    split; [exact L'|]. split; [eapply based_leq; eassumption|]. split; [eapply room_leq; eassumption|].
    right. right. left. exists S', k. split; [eapply pending_leq; exact Hpe|]. split; [exact H3|].
    rewrite (leq_keys _ _ H2), H2. split; [exact Hn|exact Hm].
  - cbn [app]. intros f' A fuel prev H1 H2 H3 L' Hf Hl. pose proof (leq_plen _ _ H1) as Hp.
    destruct (At A f' H1 L') as (Sx & Bx & Lx').
    assert (Hq : leq es (A ++ T)) by (rewrite Ees; apply leq_app; [exact H1|apply leq_refl]).
    eapply (wp_loop_at _ _ _ _ _ x); [exact Ox|exact Logic.I|exact Sx|lia|exact Hf|].
    intros fuel' Hf'. cbn [pent x].
    destruct (room_leq F _ _ _ _ _ Hq Hr) as (R1 & R2 & R3).
    eapply (wp_clear_delete F G R _ h pre A k (offs (h * Q + pre) A) m).
    + destruct Lx' as [[X1 X2]|[X1 X2]].
      * left. split; [exact X1|]. assert (T = []) as ET by (unfold T; rewrite X2; reflexivity).
        rewrite ET, app_nil_r in Hq, R1, R3. split; [|split; [exact R1|eapply based_leq; eassumption]].
        destruct R3 as [R3|R3]; [rewrite R3 in X2; discriminate|]. rewrite X2 in R3. exact R3.
      * right. split; [exact X1|]. assert (T = [x]) as ET by (unfold T; rewrite X2; reflexivity).
        rewrite ET in R1. exact R1.
    + exact H3.
    + rewrite (leq_keys _ _ H2). exact Hn.
    + exact Ox.
    + rewrite live_len_app in R2. lia.
    + exact Hh.
    + reflexivity.
    + rewrite offs_perm. apply Permutation_refl.
    + rewrite H2. exact Hm.
    + exact HR.
    + exact HP.
Qed.

End RUN.

End REDO.
