(** Compaction: what it does to the entries, and what its interruption leaves. *)
From Coq Require Import Permutation.
From Verif Require Import Base Facts.
From Verif.Kv Require Import Model.
From Verif.Store Require Import Format Bits Words Geom Model Wp Entries Layout Scan Steps Ents Window Shapes.
Open Scope nat_scope.
Ltac Zify.zify_post_hook ::= idtac.

Section COMPACT.
Variable F : format.
Hypothesis G : wff F.
Notation Q := (virt_page_size F).
Notation NP := (num_pages F).
Notation MP := (max_prefix F).
Notation W := (window_size F).
Notation V := (virt_size F).
Notation C := (capacity_of F).
Notation EN := (max_page_erases F).

Lemma shift_all_spec d l : (forall o, In o l -> d <= o) -> shift_all d l = Some (map (fun o => o - d) l).
Proof.
  induction l as [|o l IH]; intros H; [reflexivity|]. cbn [shift_all map].
  replace (o <? d) with false by (symmetry; apply Nat.ltb_ge, H; left; reflexivity).
  rewrite IH; [reflexivity|]. intros x Hx. apply H. right. exact Hx.
Qed.
Lemma erase_ok h : eok F (Intl (IErase (h mod NP))).
Proof.
  pose proof (g_N F G). pose proof (Nat.mod_upper_bound h NP ltac:(lia)) as U. split.
  - cbn [int_ok]. lia.
  - cbn [internal_invalid]. apply Nat.ltb_ge. lia.
Qed.

Lemma oldi_erasing f f' h : oldi F f h -> page_erased F f (h mod NP) = false ->
  erase_writing F (h mod NP) f f' -> oldi F f' h.
Proof.
  intros [(b & Hb & S) O] Ne (_ & _ & _ & _ & E1 & E2). rewrite Ne in O. split.
  - exists b. split; [exact Hb|]. unfold vini in *. eapply sub_trans; [exact S|apply E1].
  - destruct (page_erased F f' (h mod NP)).
    + destruct E2 as [E2 E3]. split; [rewrite E3, O; reflexivity|intros x _; apply E2].
    + rewrite E2. exact O.
Qed.
Lemma oldi_erased f h : h <= EN * NP -> vini F f h = ERASED ->
  page_erased F f (h mod NP) = true -> erases f (h mod NP) = S (h / NP) ->
  (forall x, x < Q + 2 -> writes f (h mod NP) x = 0) -> oldi F f h.
Proof.
  intros Hl E Pe Er Hw. split.
  - exists (h * Q). split; [lia|]. rewrite E. apply sub_erased.
    destruct (iword_facts F G h h (h * Q)) as (_ & W & _); [exact Hl|pose proof (g_N F G); lia|lia|exact W].
  - rewrite Pe. auto.
Qed.
Lemma exempt_lt es hpos p : Forall (eok F) es -> exempt F es [] hpos p -> hpos <= p < hpos + plen es.
Proof.
  intros O [(A & ws & B & -> & ->)|(_ & w & r & X & _)]; [|discriminate X].
  apply Forall_app in O as [_ O]. inversion O as [|? ? Od _]. pose proof (eok_len F G _ Od).
  rewrite plen_app, plen_cons. lia.
Qed.
(** The page after the last page in use is erased. *)
Lemma lay_oldi f h pre es : lay F f (h + 1) (h + 1 + NP) pre es [] ERASED ->
  (h + 1) * Q + pre + plen es <= (h + NP) * Q -> oldi F f h.
Proof.
  intros L Hf. pose proof (g_N F G) as HN. pose proof (g_Q F G) as HQ.
  destruct L as [B1 B2 B3 B4 B5 B6 B7 B8 B9 B10 B11 B12 B13 B14 B15 B16 C1 C2 C3 C4 C5].
  cbn [length] in *. rewrite Nat.add_0_r in *.
  assert (Em : (h + NP) mod NP = h mod NP).
  { rewrite <- (Nat.mul_1_l NP) at 1. apply Nat.mod_add. lia. }
  assert (Ed : (h + NP) / NP = h / NP + 1).
  { rewrite <- (Nat.mul_1_l NP) at 1. apply Nat.div_add. lia. }
  assert (Ex : forall x, x < Q + 2 -> f (h mod NP) x = ERASED /\ writes f (h mod NP) x = 0).
  { intros x Hx. rewrite <- Em. destruct x as [|[|x]].
    - split; [apply (B14 (h + NP)); lia|]. destruct (C2 (h + NP)) as [X|[X _]]; [lia|lia|exact X|lia].
    - split; [apply (B16 (h + NP)); lia|apply (C4 (h + NP)); lia].
    - set (p := (h + NP) * Q + x).
      assert (Hin : (h + NP) * Q <= p < (h + NP) * Q + Q) by (unfold p; lia).
      assert (Hp : (h + 1) * Q + pre + plen es <= p < (h + 1 + NP) * Q).
      { replace (h + 1 + NP) with (h + NP + 1) by lia. rewrite (Nat.mul_add_distr_r (h + NP)). lia. }
      assert (Er : read_word F f p = ERASED) by (apply B10; exact Hp).
      destruct (C1 p) as [X|[_ X]]; [lia| |apply exempt_lt in X; [lia|exact B5]].
      rewrite Er, budget_erased in X. unfold read_word in Er. unfold read_wear in X.
      rewrite (pos_page_in F _ _ Hin) in Er, X. unfold pos_word in Er, X.
      destruct (pos_in F _ _ Hin) as [_ Ew]. rewrite Ew in Er, X.
      replace (CONTENT_WORD + (p - (h + NP) * Q)) with (S (S x)) in Er, X
        by (unfold CONTENT_WORD, p; lia). split; [exact Er|lia]. }
  apply oldi_erased.
  - lia.
  - apply Ex. unfold INIT_WORD. lia.
  - apply page_erased_spec. intros x Hx. apply Ex, Hx.
  - rewrite <- Em, (C5 (h + NP)), Ed by lia. lia.
  - intros x Hx. apply Ex, Hx.
Qed.

(** The end of a compaction: the page is erased, the prefix of the next page is wiped and the erase
    entry becomes padding. *)
Lemma wp_compact_erase (R : flash -> Prop) s h pre es (P : res store_error unit -> st -> Prop) :
  let er := Intl (IErase (h mod NP)) in
  lay F (fl s) (h + 1) (h + NP) pre (es ++ [er]) [] ERASED -> oldi F (fl s) h ->
  plen (es ++ [er]) <= W ->
  (st_ents s = None \/ exists l hold, st_ents s = Some l /\ st_head s = Some hold /\
     hold <= (h + 1) * Q + pre <= hold + NP * Q /\
     Permutation (map (Nat.add hold) l) (lpos ((h + 1) * Q + pre) es)) ->
  (forall f', lay F f' (h + 1) (h + NP) pre (es ++ [er]) [] ERASED -> oldi F f' h -> R f') ->
  (forall f' w, eok F (Dead [w]) -> lay F f' (h + 1) (h + 1 + NP) pre (es ++ [Dead [w]]) [] ERASED -> R f') ->
  (forall s' w, eok F (Dead [w]) -> lay F (fl s') (h + 1) (h + 1 + NP) pre (es ++ [Dead [w]]) [] ERASED ->
     st_head s' = Some ((h + 1) * Q + pre) -> (st_ents s = None <-> st_ents s' = None) ->
     ents_ok s' ((h + 1) * Q + pre) (lpos ((h + 1) * Q + pre) es) -> P (Ok tt) s') ->
  wp F R (compact_erase F ((h + 1) * Q + pre + plen es)) s P.
Proof.
  intros er L O Hw He HR1 HR2 HP. unfold compact_erase.
  pose proof (g_N F G) as HN. pose proof (g_M F G) as HM.
  pose proof (b_page _ _ _ _ _ _ _ _ L) as Bp. pose proof (b_life _ _ _ _ _ _ _ _ L) as Bl.
  pose proof (b_pre _ _ _ _ _ _ _ _ L) as Bq.
  pose proof (Nat.mod_upper_bound h NP ltac:(lia)) as Um.
  eapply wp_bind_reads.
  { rewrite (lay_parse F G _ _ _ _ es er [] _ _ L Logic.I). reflexivity. }
  cbn [fst pent er]. apply wp_bind. apply wp_erase.
  - apply (b_ok _ _ _ _ _ _ _ _ L).
  - exact Um.
  - intros Pe. destruct O as [_ O]. rewrite Pe in O. rewrite O.
    destruct (Nat.lt_ge_cases (h / NP) EN) as [X|X]; [exact X|]. apply (cycle_ge F G) in X. lia.
  - intros f' Pe E. apply HR1.
    + eapply (lay_other F G (fl s) f'); [exact L|apply E| |apply E|apply E|apply E].
      intros j Hj X. assert (j = h) by (apply (mod_inj F G); [lia|lia|exact X]). lia.
    + eapply oldi_erasing; [exact O|exact Pe|exact E].
  - intros f1 (Hf1 & Hr1 & Hw1 & Hne1 & He1 & Hc1).
    assert (L1 : lay F f1 (h + 1) (h + NP) pre (es ++ [er]) [] ERASED).
    { eapply (lay_other F G (fl s) f1); [exact L|exact Hf1| |exact Hr1|exact Hw1|exact Hne1].
      intros j Hj X. assert (j = h) by (apply (mod_inj F G); [lia|lia|exact X]). lia. }
    assert (Hk1 : (forall x, x < Q + 2 -> writes f1 (h mod NP) x = 0) /\ erases f1 (h mod NP) = S (h / NP)).
    { destruct O as [_ O]. destruct (page_erased F (fl s) (h mod NP)).
      - subst f1. split; apply O.
      - destruct Hc1 as [X1 X2]. split; [intros x _; apply X1|]. rewrite X2, O. reflexivity. }
    destruct Hk1 as [Hk1 Hk2].
    assert (Em : (h + NP) mod NP = h mod NP).
    { rewrite <- (Nat.mul_1_l NP) at 1. apply Nat.mod_add. lia. }
    assert (L2 : lay F f1 (h + 1) (h + 1 + NP) pre (es ++ [er]) [] ERASED).
    { replace (h + 1 + NP) with (h + NP + 1) by lia. apply lay_extend; [exact L1|lia| | | | |].
      - intros p Hp. unfold read_word. rewrite (pos_page_in F (h + NP)) by (cbn [Nat.mul] in *; lia).
        rewrite Em. apply He1. unfold pos_word. pose proof (g_Q F G).
        pose proof (Nat.mod_upper_bound p Q ltac:(lia)). unfold CONTENT_WORD. lia.
      - unfold vini. rewrite Em. apply He1. unfold INIT_WORD. lia.
      - unfold vcmp. rewrite Em. apply He1. unfold COMPACT_WORD. lia.
      - rewrite Em. exact Hk1.
      - rewrite Em, Hk2. rewrite <- (Nat.mul_1_l NP) at 2. rewrite Nat.div_add by lia. lia. }
    rewrite (mod_succ F G).
    eapply wp_bind_reads; [apply (lay_valid0 F G _ _ _ _ _ _ _ L2)|]. cbn iota beta.
    rewrite (position_of F G). set (hp := (h + 1) * Q + pre) in *.
    assert (Hpb : page_begin F hp = (h + 1) * Q) by (apply page_begin_in; unfold hp; lia).
    rewrite Hpb. replace (hp - (h + 1) * Q) with pre by (unfold hp; lia).
    assert (RS : forall f', lay F f' (h + 1) (h + 1 + NP) pre (es ++ [er]) [] ERASED -> R f').
    { intros f' L'. pose proof (win_pages F G (h + 1) pre _ Bq Hw) as X.
      replace (h + 1 + NP) with (h + NP + 1) in X by lia.
      rewrite (Nat.mul_add_distr_r (h + NP)) in X.
      apply HR1; [apply lay_restrict|eapply lay_oldi; [exact L'|lia]].
      - replace (h + NP + 1) with (h + 1 + NP) by lia. exact L'.
      - lia.
      - lia. }
    assert (EQ1 : (h + 1) * Q + Q <= (h + 1 + NP) * Q).
    { replace ((h + 1) * Q + Q) with ((h + 1 + 1) * Q) by (rewrite (Nat.mul_add_distr_r (h + 1)); lia).
      apply Nat.mul_le_mono_r. lia. }
    assert (NrA : forall p, (h + 1) * Q <= p < (h + 1 + NP) * Q -> near F ((h + 1) * Q) pre p).
    { intros p Hp. eapply (lay_win F _ _ _ _ _ _ _ L2); [lia|lia|exact Hp]. }
    (* the words of the prefix *)
    assert (PW : forall i, i < pre -> read_wear F f1 ((h + 1) * Q + i) <=
                 budget (read_word F f1 ((h + 1) * Q + i))).
    { intros i Hi. eapply lay_budget; [exact L2| |].
      - lia.
      - intros X. apply exempt_lt in X; [lia|]. apply (b_ents _ _ _ _ _ _ _ _ L2). }
    assert (L3 : forall f2, fok f2 -> hdr_same f1 f2 ->
      worn F ((h + 1) * Q) (repeat 0%N pre) f1 f2 ->
      (forall p, near F ((h + 1) * Q) (length (repeat 0%N pre)) p ->
         if in_range ((h + 1) * Q) (length (repeat 0%N pre)) p
         then sub (read_word F f2 p) (read_word F f1 p)
         else read_word F f2 p = read_word F f1 p) ->
      lay F f2 (h + 1) (h + 1 + NP) pre (es ++ [er]) [] ERASED).
    { intros f2 Hf2 Hh2 Wn Hr2. rewrite repeat_length in Hr2.
      apply (lay_prefix F f1); [exact L2|exact Hf2|exact Hh2| |].
      - intros p Hp. assert (Nr : near F ((h + 1) * Q) pre p) by (apply NrA; lia).
        assert (Ir : in_range ((h + 1) * Q) pre p = false) by (apply in_range_false; lia).
        specialize (Hr2 p Nr). rewrite Ir in Hr2. split; [exact Hr2|].
        apply (worn_out F _ _ _ _ _ Wn); rewrite repeat_length; assumption.
      - intros p Hp. set (i := p - (h + 1) * Q). assert (Ep : p = (h + 1) * Q + i) by (unfold i; lia).
        assert (Hi : i < pre) by (unfold i; lia). clearbody i. subst p.
        assert (Nr : near F ((h + 1) * Q) pre ((h + 1) * Q + i)) by (apply NrA; lia).
        pose proof (worn_at F _ _ _ _ i Wn) as Wi. rewrite repeat_length in Wi. specialize (Wi Hi Nr).
        rewrite nth_repeat_0 in Wi. specialize (Hr2 _ Nr).
        replace (in_range ((h + 1) * Q) pre ((h + 1) * Q + i)) with true in Hr2
          by (symmetry; apply in_range_spec; lia).
        refine (proj2 (budget_write _ 0%N _ _ _ _ (sub_0 _) Hr2 (PW i Hi) Wi) _); [apply Hf1|auto]. }
    (* from here on, whatever the entries are *)
    assert (Fin : forall s1, fl s1 = f1 -> st_head s1 = Some hp -> (st_ents s = None <-> st_ents s1 = None) ->
      ents_ok s1 hp (lpos hp es) ->
      wp F R (_ <~ wipe_span F ((h + 1) * Q) pre ;; set_padding F (hp + plen es)) s1 P).
    { intros s1 E1 Hh1 Hn1 Ho1. apply wp_bind. unfold wipe_span. apply wp_write.
      - exact G.
      - rewrite E1. exact Hf1.
      - apply repeat_w32. reflexivity.
      - rewrite repeat_length. lia.
      - intros i Hi. rewrite nth_repeat_0. apply sub_0.
      - intros i Hi Hne. rewrite repeat_length in Hi. rewrite nth_repeat_0 in Hne. rewrite E1 in *.
        pose proof (budget_1 _ Hne). pose proof (PW _ Hi). lia.
      - intros f2 (Hf2 & Hh2 & Hwn & Hr2). rewrite E1 in *. apply RS. apply L3; [exact Hf2|exact Hh2|exact Hwn|].
        intros p Np. specialize (Hr2 p Np). destruct (in_range _ _ p) eqn:Er; [|exact Hr2]. apply Hr2.
      - intros f2 (Hf2 & Hh2 & Hwn & Hr2). rewrite E1 in *.
        assert (L4 : lay F f2 (h + 1) (h + 1 + NP) pre (es ++ [er]) [] ERASED).
        { apply L3; [exact Hf2|exact Hh2|exact Hwn|].
          intros p Np. specialize (Hr2 p Np). destruct (in_range _ _ p) eqn:Er; [|exact Hr2].
          rewrite Hr2, nth_repeat_0. apply sub_0. }
        apply (wp_set_padding F G R (set_fl s1 f2) (h + 1) (h + 1 + NP) pre es er [] [] ERASED).
        + exact L4.
        + reflexivity.
        + intros [].
        + exact RS.
        + exact HR2.
        + intros f3 w Ow L5. apply (HP (set_fl (set_fl s1 f2) f3) w Ow L5); assumption. }
    apply wp_the_ents. cbn [st_ents set_fl].
    destruct He as [He|(l & hold & He & Hh & Hb & Hp)].
    + rewrite He. apply wp_bind_ret. apply wp_put_head. apply Fin.
      * reflexivity.
      * reflexivity.
      * cbn [st_ents set_head set_fl]. reflexivity.
      * unfold ents_ok. cbn [st_ents set_head set_fl]. rewrite He. exact Logic.I.
    + rewrite He. apply wp_bind_assoc. eapply wp_the_head; [exact Hh|].
      apply wp_bind_assoc. apply wp_offset_of; [exact G|exact Hb|].
      assert (Hge : forall o, In o l -> hp - hold <= o).
      { intros o Ho. assert (X : In (hold + o) (lpos hp es)).
        { eapply Permutation_in; [exact Hp|]. apply in_map_iff. exists o. auto. }
        apply lpos_ge in X. lia. }
      rewrite (shift_all_spec _ _ Hge). cbn [or_invalid]. apply wp_bind_assoc. apply wp_bind_ret.
      apply wp_put_ents. apply wp_put_head. apply Fin.
      * reflexivity.
      * reflexivity.
      * cbn [st_ents set_head set_fl set_ents]. rewrite He. split; discriminate.
      * unfold ents_ok. cbn [st_ents set_head set_fl set_ents]. rewrite map_map.
        rewrite (map_ext_in _ (Nat.add hold)); [exact Hp|].
        intros o Ho. specialize (Hge o Ho). lia.
Qed.


(* ------------------------------------------------------------------ the copies *)

(** The copies [T] of which [D] are done. *)
Definition copied (f : flash) (h e pre : nat) (base T : list ent) (c : N) (D todo : list ent)
  (J : list N) : Prop :=
  lay F f h e pre (base ++ D) J c /\ D ++ todo = T /\ part F f (h * Q + pre + plen (base ++ D)) todo J.
Definition put (f : flash) (h e pre : nat) (base T : list ent) (c : N) (D1 : list ent) (x : ent) : Prop :=
  (exists D2 todo J, copied f h e pre base T c (D1 ++ x :: D2) todo J) \/
  lay F f h e pre (base ++ D1) (ewords x) c.

(** The header of a copy is not padding, complete or not. *)
Lemma copy_head x w : eok F x -> no_gap x -> ~ is_dead x -> w32 w -> sub (nth 0 (ewords x) 0%N) w ->
  is_pad F w = false.
Proof.
  intros Ox Gx Nx Ww S. unfold is_pad. destruct x as [k v|ws|i|n].
  - destruct (live_facts F G k v Ox) as (_ & U & _ & _ & P1 & P2). cbn [ewords] in S.
    rewrite U in S. cbn [nth] in S. destruct (N.eq_dec w (head_word k v)) as [->|E]; [rewrite P1; reflexivity|].
    destruct (P2 w Ww S E) as [->|[->|(h & -> & _)]]; reflexivity.
  - exfalso. apply Nx. exact Logic.I.
  - destruct (intl_facts F i Ox) as (_ & _ & _ & P1 & P2). cbn [ewords nth] in S.
    destruct (N.eq_dec w (int_word i)) as [->|E]; [rewrite P1; reflexivity|].
    destruct (P2 w Ww S E) as [->| ->]; reflexivity.
  - contradiction.
Qed.
(** Writing what is already there. *)
Lemma wp_write_same (R : flash -> Prop) s h e pre A x B J c (P : res store_error unit -> st -> Prop) :
  lay F (fl s) h e pre (A ++ x :: B) J c ->
  let same (f' : flash) := lay F f' h e pre (A ++ x :: B) J c /\
    (forall p, h * Q <= p < e * Q -> read_wear F f' p = read_wear F (fl s) p) in
  (forall f', same f' -> R f') -> (forall f', same f' -> P (Ok tt) (set_fl s f')) ->
  wp F R (write_slice F (h * Q + pre + plen A) (ewords x)) s P.
Proof.
  intros L same HR HP.
  pose proof (lay_seg_at F _ _ _ _ _ _ _ _ _ L) as Sx.
  pose proof (lay_ok_at F _ _ _ _ _ _ _ _ _ L) as Ox. pose proof (eok_len F G x Ox) as Lx.
  pose proof (b_fit _ _ _ _ _ _ _ _ L) as Bf. rewrite plen_app, plen_cons in Bf.
  assert (Win : forall p, h * Q <= p < e * Q -> near F (h * Q + pre + plen A) (length (ewords x)) p).
  { intros p Hp. apply (lay_win F _ _ _ _ _ _ _ L); [lia|fold (elen x); lia|exact Hp]. }
  assert (Same : forall f', writing F (h * Q + pre + plen A) (ewords x) (fl s) f' -> same f').
  { intros f' (Hf & Hh & Wn & Hr).
    assert (X : forall p, h * Q <= p < e * Q ->
      read_word F f' p = read_word F (fl s) p /\ read_wear F f' p = read_wear F (fl s) p).
    { intros p Hp. specialize (Hr p (Win p Hp)). pose proof (Wn p (Win p Hp)) as Wp.
      destruct (in_range _ _ p) eqn:E; [|split; [exact Hr|rewrite Wp; reflexivity]].
      apply in_range_spec in E. specialize (Sx (p - (h * Q + pre + plen A)) ltac:(lia)).
      replace (h * Q + pre + plen A + (p - (h * Q + pre + plen A))) with p in Sx by lia.
      rewrite <- Sx in Hr, Wp. rewrite (N.eqb_refl (read_word F (fl s) p)), andb_false_r in Wp.
      split; [|exact Wp]. destruct Hr as [H1 H2]. apply sub_antisym; assumption. }
    split; [|intros p Hp; apply X, Hp]. apply (lay_same F G (fl s) f'); assumption. }
  apply wp_write.
  - exact G.
  - apply (b_ok _ _ _ _ _ _ _ _ L).
  - apply (eok_w32 F G x Ox).
  - fold (elen x). lia.
  - intros i Hi. rewrite (Sx i Hi). apply sub_refl.
  - intros i Hi Hn. exfalso. apply Hn, (Sx i Hi).
  - intros f' H. apply HR, Same, H.
  - intros f' (Hf & Hh & Wn & Hr). apply HP, Same. split; [exact Hf|]. split; [exact Hh|].
    split; [exact Wn|]. intros p Np. specialize (Hr p Np). destruct (in_range _ _ p) eqn:E; [|exact Hr].
    apply in_range_spec in E. specialize (Sx (p - (h * Q + pre + plen A)) ltac:(lia)).
    replace (h * Q + pre + plen A + (p - (h * Q + pre + plen A))) with p in Sx by lia.
    rewrite Hr, <- Sx. split; apply sub_refl.
Qed.
Lemma part_same f f' h e pre es J c todo : lay F f h e pre es J c ->
  (forall p, h * Q <= p < e * Q -> read_wear F f' p = read_wear F f p) ->
  part F f (h * Q + pre + plen es) todo J -> part F f' (h * Q + pre + plen es) todo J.
Proof.
  intros L H [->|(x & r & E & LJ & SJ & YJ)]; [left; reflexivity|right]. exists x, r.
  split; [exact E|]. split; [exact LJ|]. split; [exact SJ|]. intros i Hi Hn.
  pose proof (b_fit _ _ _ _ _ _ _ _ L) as Bf. rewrite H by lia. apply YJ; assumption.
Qed.
Lemma wp_put_write (R : flash -> Prop) s h e pre base T c D1 x r D2 todo J
    (P : res store_error unit -> st -> Prop) :
  copied (fl s) h e pre base T c (D1 ++ D2) todo J -> T = D1 ++ x :: r -> eok F x -> no_gap x ->
  ~ is_dead x ->
  h * Q + pre + plen (base ++ D1) + elen x <= e * Q ->
  (forall f' D todo J, copied f' h e pre base T c D todo J -> R f') ->
  (forall f', put f' h e pre base T c D1 x -> P (Ok tt) (set_fl s f')) ->
  wp F R (write_slice F (h * Q + pre + plen (base ++ D1)) (ewords x)) s P.
Proof.
  intros (L & ET & Pt) E Ox Gx Nx Hfit HR HP. rewrite E in ET. rewrite <- app_assoc in ET.
  apply app_inv_head in ET. pose proof (eok_w32 F G x Ox) as Wx. pose proof (eok_len F G x Ox) as Lx.
  destruct D2 as [|y D2].
  - rewrite app_nil_r in L, Pt. cbn [app] in ET. subst todo. set (t := h * Q + pre + plen (base ++ D1)) in *.
    assert (PJ : exists J0, lay F (fl s) h e pre (base ++ D1) J0 c /\ length J0 = elen x /\
      (forall i, i < length J0 -> sub (nth i (ewords x) 0%N) (nth i J0 0%N)) /\
      (forall i, i < length J0 -> nth i J0 0%N <> nth i (ewords x) 0%N ->
         read_wear F (fl s) (t + i) = 0)).
    { destruct Pt as [->|(x' & r' & Ex & LJ & SJ & YJ)].
      - assert (L0 : lay F (fl s) h e pre (base ++ D1) (repeat ERASED (elen x)) c).
        { apply (lay_open F G); [exact L| |exact Hfit].
          pose proof (eok_len' F G x Ox (no_gap_ne _ Gx)). lia. }
        exists (repeat ERASED (elen x)). rewrite repeat_length. split; [exact L0|]. split; [reflexivity|]. split.
        + intros i Hi. apply nth_erased_w32; [apply Forall_nth_w32, Wx|exact Hi].
        + intros i Hi _. unfold t in *.
          assert (Er : read_word F (fl s) (h * Q + pre + plen (base ++ D1) + i) = ERASED).
          { apply (b_blank _ _ _ _ _ _ _ _ L). cbn [length]. lia. }
          assert (Bu : read_wear F (fl s) (h * Q + pre + plen (base ++ D1) + i) <=
                       budget (read_word F (fl s) (h * Q + pre + plen (base ++ D1) + i))).
          { eapply lay_budget; [exact L|lia|]. intros X. apply (exempt_J F G) in X.
            - destruct X as (_ & w & q & X & _). discriminate X.
            - apply (b_ents _ _ _ _ _ _ _ _ L). }
          rewrite Er, budget_erased in Bu. lia.
      - injection Ex as <- <-. exists J. auto. }
    destruct PJ as (J0 & L0 & LJ & SJ & YJ).
    assert (Sx : forall f' ys, lay F f' h e pre (base ++ D1) ys c -> forall i, i < length ys ->
      read_word F f' (t + i) = nth i ys 0%N).
    { intros f' ys L' i Hi. pose proof (b_seg _ _ _ _ _ _ _ _ L') as Sg.
      apply seg_app in Sg as [_ Sg]. fold (plen (base ++ D1)) in Sg. apply Sg, Hi. }
    rewrite <- (Nat.add_0_r t). unfold t.
    apply (wp_write_J F G R s h e pre (base ++ D1) J0 c 0 (ewords x)).
    + exact L0.
    + exact Wx.
    + fold (elen x). lia.
    + intros i Hi. fold (elen x) in Hi. cbn [Nat.add]. apply SJ. lia.
    + intros i Hi Hi0 X. exfalso. rewrite (copy_head x) in X; try assumption; [discriminate X| |].
      * apply Forall_nth_w32, (b_w32 _ _ _ _ _ _ _ _ L0).
      * apply SJ. lia.
    + intros i Hi. fold (elen x) in Hi. fold t. rewrite Nat.add_0_r. cbn [Nat.add].
      destruct (N.eq_dec (nth i J0 0%N) (nth i (ewords x) 0%N)) as [Ee|Ee].
      * right. right. right. left. symmetry. exact Ee.
      * right. left. apply YJ; [lia|exact Ee].
    + fold t. intros f' ys Ly Wy By _ Wn L'. rewrite upd_all in L' by (rewrite Ly; fold (elen x); lia).
      apply (HR f' D1 (x :: r) ys). split; [exact L'|]. split; [symmetry; exact E|].
      right. exists x, r. split; [reflexivity|]. split; [exact Ly|]. fold t.
      split; [intros i Hi; apply By; lia|]. intros i Hi Hn.
      rewrite Nat.add_0_r in Wn. rewrite (worn_at F _ _ _ _ i Wn).
      * rewrite (Sx f' ys L' i Hi). apply N.eqb_neq in Hn. rewrite Hn. cbn [andb].
        apply N.eqb_neq in Hn. apply YJ; [fold (elen x) in *; lia|].
        intros Ee. apply Hn. destruct (By i ltac:(lia)) as [Y1 Y2]. cbn [Nat.add] in Y2.
        rewrite Ee in Y2. apply sub_antisym; assumption.
      * lia.
      * apply (lay_win F _ _ _ _ _ _ _ L); unfold t; fold (elen x) in *; lia.
    + intros f' _ _ L'. rewrite upd_all in L' by (fold (elen x); lia). apply HP. right. exact L'.
  - cbn [app] in ET. injection ET as -> <-.
    assert (ES : forall f', lay F f' h e pre ((base ++ D1) ++ x :: D2) J c /\
      (forall p, h * Q <= p < e * Q -> read_wear F f' p = read_wear F (fl s) p) ->
      copied f' h e pre base T c (D1 ++ x :: D2) todo J).
    { intros f' [L' H']. rewrite <- app_assoc in L'. split; [exact L'|].
      split; [rewrite E, <- app_assoc; reflexivity|]. eapply part_same; [exact L|exact H'|exact Pt]. }
    apply (wp_write_same R s h e pre (base ++ D1) x D2 J c).
    + rewrite <- app_assoc. exact L.
    + intros f' H. eapply HR. apply ES, H.
    + intros f' H. apply HP. left. exists D2, todo, J. apply ES, H.
Qed.
Lemma wp_put_init (R : flash -> Prop) s h e pre base T c D1 x r
    (P : res store_error unit -> st -> Prop) :
  put (fl s) h e pre base T c D1 x -> T = D1 ++ x :: r -> eok F x -> no_gap x ->
  (forall f' D todo J, copied f' h e pre base T c D todo J -> R f') ->
  (forall f' D2 todo J, copied f' h e pre base T c (D1 ++ x :: D2) todo J -> P (Ok tt) (set_fl s f')) ->
  wp F R (init_page F (h * Q + pre + plen (base ++ D1)) (h * Q + pre + plen (base ++ D1) + (elen x - 1))) s P.
Proof.
  intros Hput E Ox Gx HR HP. pose proof (eok_len F G x Ox) as Lx. destruct Hput as [(D2 & todo & J & H)|L].
  - apply (wp_init_settled F G R s h e pre (base ++ D1) x D2 J c).
    + destruct H as (L & _). rewrite <- app_assoc. exact L.
    + rewrite <- (set_fl_same s). apply (HP (fl s) D2 todo J H).
  - unfold elen. apply (wp_init_page F G R s h e pre (base ++ D1) (ewords x) c).
    + exact L.
    + intros X. unfold elen in Lx. rewrite X in Lx. cbn [length] in Lx. lia.
    + intros f' L'. apply (HR f' D1 (x :: r) (ewords x)). split; [exact L'|].
      split; [symmetry; exact E|]. right. exists x, r. split; [reflexivity|]. split; [reflexivity|].
      split; [intros i Hi; apply sub_refl|]. intros i Hi Hn. exfalso. apply Hn. reflexivity.
    + intros f' L' I. apply (HP f' [] r []). split; [|split].
      * rewrite app_assoc. apply (lay_settle F G).
        -- rewrite flat_cons, app_nil_r. exact L'.
        -- rewrite flat_cons, app_nil_r. exact I.
        -- constructor; [exact Ox|constructor].
        -- intros A1 d A2 Ed Hn. destruct A1 as [|a [|b A1]]; [congruence|discriminate|discriminate].
      * rewrite E, <- app_assoc. reflexivity.
      * left. reflexivity.
Qed.

Lemma parse_partial_cases f pos : parse_partial F f pos = (ETail, pos) \/
  exists i, parse_partial F f pos = (EPartial, pos + i + 1) /\ read_word F f (pos + i) <> ERASED.
Proof.
  unfold parse_partial.
  set (g := fun acc i => if (read_word F f (pos + i) =? ERASED)%N then acc else Some i).
  assert (X : forall l a, fold_left g l a = a \/
    exists i, fold_left g l a = Some i /\ read_word F f (pos + i) <> ERASED).
  { induction l as [|i l IH]; intros a; [left; reflexivity|]. cbn [fold_left].
    destruct (IH (g a i)) as [H|H]; [|right; exact H]. rewrite H. unfold g.
    destruct (read_word F f (pos + i) =? ERASED)%N eqn:E; [left; reflexivity|].
    right. exists i. split; [reflexivity|]. apply N.eqb_neq, E. }
  destruct (X (seq 0 MP) None) as [->|(i & -> & Hi)]; [left; reflexivity|].
  right. exists i. split; [f_equal; lia|exact Hi].
Qed.
Lemma parse_blank f pos : read_word F f pos = ERASED ->
  parse_entry F f pos = Ok (parse_partial F f pos).
Proof. intros H. unfold parse_entry. rewrite H, erased_parse. reflexivity. Qed.


(* ------------------------------------------------------------------- copy_loop *)

(** The page being compacted ends in, or right after, the entries [A]. *)
Lemma cut_split h pre A1 A2 : cut F h pre A1 A2 -> Forall (eok F) (A1 ++ A2) -> Forall no_gap (A1 ++ A2) ->
  pre <= MP -> exists A B, (A1 ++ A2) ++ gapof F h pre (A1 ++ A2) = A ++ B /\
    (gapof F h pre (A1 ++ A2) = [] \/ B = []) /\ live_len A = live_len A1 /\
    (h + 1) * Q <= h * Q + pre + plen A <= (h + 1) * Q + MP /\
    (exists g, A = A1 ++ g /\ (g = [] \/ g = gapof F h pre (A1 ++ A2) /\ A2 = [])).
Proof.
  intros [H1 H2] Ho Hg Hp. pose proof (g_M F G) as HM. destruct (gapof_nil F h pre (A1 ++ A2)) as [E|[Lt (n & E)]].
  - exists A1, A2. rewrite E, app_nil_r. split; [reflexivity|]. split; [auto|]. split; [reflexivity|].
    split; [|exists []; rewrite app_nil_r; auto].
    assert (Ge : (h + 1) * Q <= h * Q + pre + plen (A1 ++ A2)).
    { pose proof (gapof_plen F G h pre (A1 ++ A2) Hp) as (X & _). rewrite E, app_nil_r in X. lia. }
    split.
    { destruct H2 as [->|H2]; [rewrite app_nil_r in Ge; exact Ge|exact H2]. }
    destruct A1 as [|a A1 _] using rev_ind; [rewrite plen_nil; lia|].
    specialize (H1 A1 a [] eq_refl). rewrite plen_app, plen_one.
    apply Forall_app in Ho as [Ho _]. apply Forall_app in Ho as [_ Ho]. inversion_clear Ho.
    apply Forall_app in Hg as [Hg _]. apply Forall_app in Hg as [_ Hg]. inversion_clear Hg.
    pose proof (eok_len' F G a H (no_gap_ne _ H3)). lia.
  - assert (A2 = []) as ->.
    { destruct H2 as [H2|H2]; [exact H2|]. rewrite plen_app in Lt. lia. }
    exists ((A1 ++ []) ++ gapof F h pre (A1 ++ [])), []. split; [symmetry; apply app_nil_r|].
    split; [auto|]. pose proof (gapof_plen F G h pre (A1 ++ []) Hp) as (X & X2 & _).
    split; [rewrite !live_len_app, X2; cbn; lia|]. split; [lia|].
    exists (gapof F h pre A1). rewrite !app_nil_r. split; [reflexivity|]. right. auto.
Qed.
Lemma cut_fit h pre A1 A2 : cut F h pre A1 A2 -> Forall (eok F) (A1 ++ A2) -> Forall no_gap (A1 ++ A2) ->
  pre <= MP -> Iw F h pre (A1 ++ A2) -> live_len (A1 ++ A2) <= C ->
  h * Q + pre + plen ((A1 ++ A2) ++ gapof F h pre (A1 ++ A2)) + live_len A1 + 1 <= (h + NP) * Q.
Proof.
  intros Hc Ho Hg Hp Hi Hl. destruct (cut_split h pre A1 A2 Hc Ho Hg Hp) as (A & B & E & Hgb & El & Hb & _).
  rewrite <- El. eapply (copies_fit F G h pre (A1 ++ A2) _ A B (Intl (IErase (h mod NP)))); eauto.
  apply (gapof_plen F G); exact Hp.
Qed.

Lemma wp_copy_loop (R : flash -> Prop) h pre A1 A2 c (P : res store_error nat -> st -> Prop) :
  let base := (A1 ++ A2) ++ gapof F h pre (A1 ++ A2) in
  let T := targets F h A1 in
  cut F h pre A1 A2 -> Forall plain (A1 ++ A2) -> Iw F h pre (A1 ++ A2) -> live_len (A1 ++ A2) <= C ->
  (forall f' D todo J, copied f' h (h + NP) pre base T c D todo J -> R f') ->
  forall Sr Pr fuel s D2 todo J,
  A1 = Pr ++ Sr -> copied (fl s) h (h + NP) pre base T c (copies Pr ++ D2) todo J ->
  (h + 1) * Q <= h * Q + pre + plen Pr + fuel ->
  st_head s = Some (h * Q + pre) ->
  ents_ok s (h * Q + pre)
    (lpos (h * Q + pre + plen Pr) (Sr ++ A2) ++ lpos (h * Q + pre + plen base) (copies Pr)) ->
  (forall s' D2 todo J, copied (fl s') h (h + NP) pre base T c (copies A1 ++ D2) todo J ->
     st_head s' = Some (h * Q + pre) -> (st_ents s = None <-> st_ents s' = None) ->
     ents_ok s' (h * Q + pre)
       (lpos (h * Q + pre + plen A1) A2 ++ lpos (h * Q + pre + plen base) (copies A1)) ->
     P (Ok (h * Q + pre + plen (base ++ copies A1))) s') ->
  wp F R (copy_loop F fuel (h * Q + pre + plen Pr) ((h + 1) * Q)
            (h * Q + pre + plen (base ++ copies Pr))) s P.
Proof.
  intros base T Hc Hpl Hi Hl HR. pose proof (g_N F G) as HN. pose proof (g_M F G) as HM.
  induction Sr as [|x Sr IH]; intros Pr fuel s D2 todo J EA Cp Hf Hh He HP.
  - rewrite app_nil_r in EA. subst Pr.
    assert (Done : P (Ok (h * Q + pre + plen (base ++ copies A1))) s).
    { apply (HP s D2 todo J Cp Hh); [reflexivity|exact He]. }
    destruct ((h + 1) * Q <=? h * Q + pre + plen A1) eqn:E.
    { destruct fuel as [|fuel]; cbn [copy_loop]; rewrite E; apply wp_ret; exact Done. }
    pose proof E as E0. apply Nat.leb_gt in E. destruct fuel as [|fuel]; [lia|].
    cbn [copy_loop]. rewrite E0. destruct Hc as [_ [H2|H2]]; [|lia].
    destruct (gapof_nil F h pre (A1 ++ A2)) as [Eg|[Lt (n & Eg)]].
    { exfalso. destruct Cp as (L & _). pose proof (b_pre _ _ _ _ _ _ _ _ L) as Bq.
      pose proof (gapof_plen F G h pre (A1 ++ A2) Bq) as (X & _). rewrite Eg, H2, !app_nil_r in X. lia. }
    destruct Cp as (L & ET & Pt). pose proof (b_pre _ _ _ _ _ _ _ _ L) as Bq.
    pose proof (gapof_plen F G h pre (A1 ++ A2) Bq) as (X & _ & Og).
    unfold base in L. rewrite Eg in L, X, Og. rewrite H2, app_nil_r in L, X. rewrite <- !app_assoc in L.
    pose proof (lay_seg_at F _ _ _ _ A1 (Gap n) _ _ _ L) as Sg. cbn [ewords] in Sg.
    apply blank_seg in Sg. rewrite plen_app, plen_one in X. unfold elen in X. cbn [ewords] in X.
    rewrite repeat_length in X. inversion_clear Og as [|? ? On _]. cbn [eok] in On.
    eapply wp_bind_reads; [apply parse_blank; apply Sg; lia|].
    destruct (parse_partial_cases (fl s) (h * Q + pre + plen A1)) as [Ep|(i & Ep & Hi')]; rewrite Ep.
    + apply wp_ret; exact Done.
    + destruct (Nat.lt_ge_cases i n) as [Hin|Hin]; [exfalso; apply Hi', Sg; lia|].
      replace ((h + 1) * Q <? h * Q + pre + plen A1 + i + 1) with true by (symmetry; apply Nat.ltb_lt; lia).
      apply wp_ret; exact Done.
  - assert (EA' : A1 = (Pr ++ [x]) ++ Sr) by (rewrite <- app_assoc; exact EA).
    pose proof Cp as (L & ET & Pt). pose proof (b_pre _ _ _ _ _ _ _ _ L) as Bq.
    assert (Lx : lay F (fl s) h (h + NP) pre (Pr ++ x :: (Sr ++ A2 ++ gapof F h pre (A1 ++ A2) ++ copies Pr ++ D2)) J c).
    { unfold base in L. rewrite EA in L at 1. rewrite <- !app_assoc in L. cbn [app] in L.
      exact L. }
    assert (Px : plain x).
    { rewrite EA in Hpl. apply Forall_app in Hpl as [Hpl _]. apply Forall_app in Hpl as [_ Hpl].
      inversion Hpl; assumption. }
    assert (Gx : no_gap x) by (destruct x; [exact Logic.I|exact Logic.I|contradiction|contradiction]).
    pose proof (lay_ok_at F _ _ _ _ _ _ _ _ _ Lx) as Ox. pose proof (eok_len F G x Ox) as Nx.
    pose proof (proj1 Hc Pr x Sr EA) as Hlt.
    destruct fuel as [|fuel]; [lia|]. cbn [copy_loop].
    replace ((h + 1) * Q <=? h * Q + pre + plen Pr) with false by (symmetry; apply Nat.leb_gt; lia).
    eapply wp_bind_reads; [exact (lay_parse F G _ _ _ _ _ _ _ _ _ Lx Gx)|].
    assert (Nxt : h * Q + pre + plen Pr + elen x = h * Q + pre + plen (Pr ++ [x]))
      by (rewrite plen_app, plen_one; lia).
    destruct x as [k v|ws|i|n]; cbn [pent]; try contradiction.
    + (* an entry to copy *)
      cbn iota beta.
      replace (h * Q + pre + plen Pr + elen (Live k v) - (h * Q + pre + plen Pr)) with (elen (Live k v)) by lia.
      eapply wp_bind_reads; [reflexivity|].
      unfold elen at 1. rewrite (seg_words F _ _ _ (lay_seg_at F _ _ _ _ _ _ _ _ _ Lx)).
      assert (Be : Forall (eok F) (A1 ++ A2)).
      { pose proof (b_ents _ _ _ _ _ _ _ _ L) as B. apply Forall_app in B as [B _].
        apply Forall_app in B as [B _]. exact B. }
      pose proof (cut_fit h pre A1 A2 Hc Be (plain_gap _ Hpl) Bq Hi Hl) as Fit. fold base in Fit.
      assert (LA : live_len A1 = live_len Pr + elen (Live k v) + live_len Sr).
      { rewrite EA, live_len_app, live_len_cons. lia. }
      assert (Np : (h + NP) * Q = h * Q + NP * Q) by apply Nat.mul_add_distr_r.
      assert (Pb : plen (base ++ copies Pr) = plen base + live_len Pr) by (rewrite plen_app, copies_plen; reflexivity).
      assert (Pl1 : plen Pr <= plen base).
      { unfold base. rewrite EA. rewrite !plen_app. lia. }
      assert (ETT : T = copies Pr ++ Live k v :: (copies Sr ++ [Intl (IErase (h mod NP))])).
      { unfold T, targets. rewrite EA, copies_app. rewrite <- app_assoc. reflexivity. }
      apply wp_bind. eapply wp_remove_entry.
      * exact G.
      * exact Hh.
      * lia.
      * cbn [lpos app] in He. exact He.
      * intros l' Hn' He'. apply wp_bind.
        eapply (wp_put_write R (set_ents s l') h (h + NP) pre base T c (copies Pr) (Live k v)).
        -- exact Cp.
        -- exact ETT.
        -- exact Ox.
        -- exact Gx.
        -- intros [].
        -- lia.
        -- exact HR.
        -- intros f1 Hput. apply wp_bind. eapply wp_push.
           ++ exact G.
           ++ exact Hh.
           ++ lia.
           ++ apply wp_bind.
              eapply (wp_put_init R _ h (h + NP) pre base T c (copies Pr) (Live k v)).
              ** exact Hput.
              ** exact ETT.
              ** exact Ox.
              ** exact Gx.
              ** exact HR.
              ** intros f2 D2' todo' J' Cp'.
                 replace (h * Q + pre + plen (base ++ copies Pr) + elen (Live k v))
                   with (h * Q + pre + plen (base ++ copies (Pr ++ [Live k v])))
                   by (rewrite copies_app, !plen_app; cbn [copies filter]; rewrite plen_one; lia).
                 rewrite Nxt. eapply IH.
                 --- exact EA'.
                 --- rewrite copies_app. cbn [copies filter]. rewrite <- app_assoc. exact Cp'.
                 --- lia.
                 --- exact Hh.
                 --- match goal with |- ents_ok ?s1 ?a ?b => 
                       pose proof (ents_push (set_ents s l') (h * Q + pre)
                         (h * Q + pre + plen (base ++ copies Pr)) _ ltac:(lia) He') as X end.
                     unfold ents_ok in *. cbn [st_ents set_fl set_ents] in X |- *.
                     destruct l' as [l'|]; [|exact Logic.I]. cbn [option_map] in *.
                     rewrite copies_app, (lpos_app _ (copies Pr)). cbn [copies filter lpos].
                     rewrite app_assoc. rewrite <- Nxt.
                     replace (h * Q + pre + plen base + plen (copies Pr)) with (h * Q + pre + plen (base ++ copies Pr))
                       by (rewrite plen_app; lia).
                     exact X.
                 --- intros s' D3 todo3 J3 C3 Hh3 Hn3 He3. apply (HP s' D3 todo3 J3); try assumption.
                     rewrite <- Hn3. cbn [st_ents set_fl set_ents]. rewrite Hn'.
                     destruct l'; cbn [option_map]; split; congruence.
    + (* a deleted entry *)
      rewrite Nxt.
      replace (copies Pr) with (copies (Pr ++ [Dead ws])) in *
        by (rewrite copies_app; cbn [copies filter]; apply app_nil_r).
      eapply IH.
      * exact EA'.
      * exact Cp.
      * lia.
      * exact Hh.
      * cbn [lpos app] in He. rewrite plen_app, plen_one, Nat.add_assoc. exact He.
      * exact HP.
Qed.


(* ---------------------------------------------------------------- compact_copy *)

Lemma copies_none_lives r : copies r = [] -> lives r = [].
Proof. intros H. rewrite <- copies_lives, H. reflexivity. Qed.
Lemma copies_none_lpos r : copies r = [] -> forall p, lpos p r = [].
Proof.
  induction r as [|x r IH]; intros H p; [reflexivity|]. unfold copies in H. cbn [filter] in H.
  destruct x; [discriminate|apply IH, H|apply IH, H|apply IH, H].
Qed.
Lemma dead_copies r : Forall is_dead r -> copies r = [].
Proof.
  induction 1 as [|x r Hx _ IH]; [reflexivity|]. destruct x; try contradiction. exact IH.
Qed.
Lemma copies_plain es : Forall plain (copies es).
Proof.
  apply Forall_forall. intros x Hx. apply filter_In in Hx as [_ Hx]. destruct x; try discriminate.
  exact Logic.I.
Qed.
Lemma prefixes {X} (a b c d : list X) : a ++ b = c ++ d ->
  (exists r, c = a ++ r /\ b = r ++ d) \/ (exists x r, a = c ++ x :: r /\ d = x :: r ++ b).
Proof.
  revert c. induction a as [|y a IH]; intros c E.
  - left. exists c. auto.
  - destruct c as [|z c].
    + right. exists y, a. cbn [app] in *. auto.
    + cbn [app] in E. injection E as <- E. destruct (IH c E) as [(r & -> & ->)|(x & r & -> & ->)].
      * left. exists r. auto.
      * right. exists x, r. auto.
Qed.

(** Where the entries will start after the compaction. *)
Lemma compact_split f h pre A1 A2 c :
  let gap := gapof F h pre (A1 ++ A2) in
  lay F f h (h + NP) pre (((A1 ++ A2) ++ gap) ++ targets F h A1) [] c ->
  cut F h pre A1 A2 -> Forall plain (A1 ++ A2) -> Iw F h pre (A1 ++ A2) ->
  live_len (A1 ++ A2) <= C -> h < EN * NP ->
  exists A B pre', (A1 ++ A2) ++ gap = A ++ B /\ (gap = [] \/ B = []) /\
    (h + 1) * Q + pre' = h * Q + pre + plen A /\ pre' <= MP /\ copies A = copies A1 /\
    (exists r, A = A1 ++ r /\ A2 ++ gap = r ++ B /\ copies r = []) /\
    lay F f (h + 1) (h + NP) pre' ((B ++ copies A) ++ [Intl (IErase (h mod NP))]) [] ERASED /\
    oldi F f h /\ Forall plain (B ++ copies A) /\
    room F (h + 1) pre' ((B ++ copies A) ++ [Intl (IErase (h mod NP))]) [] /\
    Permutation (lives (B ++ copies A)) (lives (A1 ++ A2)).
Proof.
  intros gap L Hc Hpl Hi Hl Hlife. set (T := targets F h A1) in *. set (base := (A1 ++ A2) ++ gap) in *.
  pose proof (g_N F G) as HN. pose proof (g_M F G) as HM.
  pose proof (b_pre _ _ _ _ _ _ _ _ L) as Bq.
  destruct (gapof_plen F G h pre (A1 ++ A2) Bq) as (Gp & Gl & Go). fold gap in Gp, Gl, Go. fold base in Gp.
  assert (Bgap : gap = [] \/ exists n, gap = [Gap n] /\ A2 = [] /\ h * Q + pre + plen A1 < (h + 1) * Q).
  { destruct (gapof_nil F h pre (A1 ++ A2)) as [E|[Lt (n & E)]]; [left; exact E|right].
    exists n. split; [exact E|]. destruct Hc as [_ [H2|H2]]; [|rewrite plen_app in Lt; lia].
    split; [exact H2|]. rewrite H2, app_nil_r in Lt. exact Lt. }
  assert (Ht : exists t0 tr, T = t0 :: tr /\ ~ is_dead t0).
  { unfold T, targets. destruct (copies A1) as [|t0 tr] eqn:E.
    - eexists _, []. split; [reflexivity|]. intros [].
    - exists t0, (tr ++ [Intl (IErase (h mod NP))]). split; [reflexivity|].
      assert (X : In t0 (copies A1)) by (rewrite E; left; reflexivity).
      apply filter_In in X as [_ X]. destruct t0; try discriminate. intros []. }
  destruct Ht as (t0 & tr & ET & Nd).
  assert (PT : 0 < plen T).
  { unfold T, targets. rewrite plen_app, plen_one. unfold elen. cbn [ewords length]. lia. }
  destruct (b_inits1 _ _ _ _ _ _ _ _ L (h + 1)) as (b & (X & Y & EXY & Eb & Hb & Hdead) & Vb).
  { lia. }
  { rewrite plen_app. lia. }
  (* X is part of base *)
  assert (XB : exists B, base = X ++ B /\ Y = B ++ T).
  { destruct (prefixes X Y base T (eq_sym EXY)) as [(r & E1 & E2)|(x & r & E1 & E2)]; [eauto|].
    exfalso. rewrite ET in E2. injection E2 as <- _. apply Nd. rewrite (Hdead base t0 r E1); [exact Logic.I|lia]. }
  destruct XB as (B & EB & EY).
  (* A1 is part of X *)
  assert (XA : exists r, X = A1 ++ r /\ A2 ++ gap = r ++ B).
  { assert (E : A1 ++ (A2 ++ gap) = X ++ B) by (rewrite <- EB; unfold base; rewrite app_assoc; reflexivity).
    destruct (prefixes _ _ _ _ E) as [(r & E1 & E2)|(x & r & E1 & E2)]; [eauto|].
    exfalso. pose proof (proj1 Hc X x r E1). lia. }
  destruct XA as (r & EX & Er).
  assert (Cr : copies r = []).
  { destruct (Nat.le_gt_cases ((h + 1) * Q) (h * Q + pre + plen A1)) as [Le|Gt].
    - apply dead_copies. apply Forall_forall. intros x Hx. apply in_split in Hx as (r1 & r2 & E).
      rewrite (Hdead (A1 ++ r1) x r2); [exact Logic.I| |].
      + rewrite EX, E, app_assoc. reflexivity.
      + rewrite plen_app. lia.
    - destruct Bgap as [E|(n & E & E2 & _)].
      + exfalso. destruct Hc as [_ [H2|H2]]; [|lia].
        unfold base in Gp. rewrite H2, E, !app_nil_r in Gp. lia.
      + rewrite E, E2 in Er. cbn [app] in Er. destruct r as [|y r]; [reflexivity|].
        cbn [app] in Er. injection Er as <- Er. destruct r; [reflexivity|discriminate]. }
  assert (CX : copies X = copies A1) by (rewrite EX, copies_app, Cr; apply app_nil_r).
  assert (GB : gap = [] \/ B = []).
  { destruct Bgap as [E|(n & E & E2 & Lt)]; [left; exact E|right].
    rewrite E, E2 in Er. cbn [app] in Er. destruct r as [|y r].
    - exfalso. rewrite EX, app_nil_r in Eb. lia.
    - cbn [app] in Er. injection Er as _ Er. destruct r; [destruct B; [reflexivity|discriminate]|discriminate]. }
  exists X, B, (b - (h + 1) * Q). split; [exact EB|]. split; [exact GB|].
  split; [lia|]. split; [lia|]. split; [exact CX|]. split; [exists r; auto|].
  assert (ETX : T = copies X ++ [Intl (IErase (h mod NP))]) by (rewrite CX; reflexivity).
  assert (Lb : live_len B + live_len X = live_len (A1 ++ A2)).
  { assert (E : live_len base = live_len X + live_len B) by (rewrite EB, live_len_app; reflexivity).
    unfold base in E. rewrite live_len_app in E. lia. }
  split; [|split; [|split; [|split]]].
  - rewrite <- app_assoc, <- ETX. apply (lay_drop F G f h pre X (B ++ T) c).
    + rewrite app_assoc, <- EB. exact L.
    + exact Hlife.
    + lia.
    + lia.
    + rewrite Vb. f_equal. lia.
  - split.
    + exists (h * Q + pre). split; [lia|]. rewrite (b_init0 _ _ _ _ _ _ _ _ L). apply sub_refl.
    + destruct (page_erased F f (h mod NP)) eqn:Pe; [exfalso|apply (b_er _ _ _ _ _ _ _ _ L); lia].
      apply page_erased_spec with (x := INIT_WORD) in Pe; [|unfold INIT_WORD; lia].
      fold (vini F f h) in Pe. rewrite (b_init0 _ _ _ _ _ _ _ _ L) in Pe.
      destruct (iword_facts F G h h (h * Q + pre)) as (_ & _ & Ne & _); [lia|lia|lia|].
      exact (Ne Pe).
  - apply Forall_app. split; [|apply copies_plain].
    destruct GB as [E| ->]; [|constructor]. unfold base in EB. rewrite E, app_nil_r in EB.
    rewrite EB in Hpl. apply Forall_app in Hpl. apply Hpl.
  - rewrite <- app_assoc. split; [|split].
    + eapply (iw_step F G h pre (A1 ++ A2) gap X B).
      * exact EB.
      * exact GB.
      * exact Gl.
      * reflexivity.
      * lia.
      * lia.
      * exact Hl.
      * reflexivity.
      * exact Hi.
    + rewrite !live_len_app, copies_live_len. change (live_len [Intl (IErase (h mod NP))]) with 0. lia.
    + left. reflexivity.
  - rewrite !lives_app, copies_lives.
    assert (E : lives X ++ lives B = lives (A1 ++ A2)).
    { rewrite <- lives_app, <- EB. unfold base. rewrite lives_app.
      assert (lives gap = []) as ->; [|apply app_nil_r].
      destruct Bgap as [->|(n & -> & _)]; reflexivity. }
    rewrite lives_app in E. rewrite <- E. apply Permutation_app_comm.
Qed.

Lemma wp_compact_copy (R : flash -> Prop) s h pre A1 A2 D todo J m (P : res store_error unit -> st -> Prop) :
  let base := (A1 ++ A2) ++ gapof F h pre (A1 ++ A2) in
  copied (fl s) h (h + NP) pre base (targets F h A1) (compact_word (plen base)) D todo J ->
  cut F h pre A1 A2 -> Forall plain (A1 ++ A2) -> room F h pre (A1 ++ A2) [] ->
  NoDup (keys (A1 ++ A2)) -> Permutation (lives (A1 ++ A2)) m -> h < EN * NP ->
  st_head s = Some (h * Q + pre) -> ents_ok s (h * Q + pre) (lpos (h * Q + pre) (A1 ++ A2)) ->
  (forall f', Crash F m f' -> R f') ->
  (forall s' A B pre' w, base = A ++ B -> gapof F h pre (A1 ++ A2) = [] \/ B = [] ->
     (h + 1) * Q + pre' = h * Q + pre + plen A -> pre' <= MP ->
     rest F (fl s') (h + 1) pre' (B ++ copies A ++ [Dead [w]]) m ->
     st_head s' = Some ((h + 1) * Q + pre') -> (st_ents s = None <-> st_ents s' = None) ->
     ents_ok s' ((h + 1) * Q + pre') (lpos ((h + 1) * Q + pre') (B ++ copies A ++ [Dead [w]])) ->
     P (Ok tt) s') ->
  wp F R (compact_copy F) s P.
Proof.
  intros base Cp Hc Hpl Hroom Hnd Hpm Hlife Hh He HR HP.
  pose proof Hroom as (Hi & Hl & _). pose proof Cp as (L & _).
  pose proof (g_N F G) as HN. pose proof (g_M F G) as HM.
  pose proof (b_pre _ _ _ _ _ _ _ _ L) as Bq.
  destruct (gapof_plen F G h pre (A1 ++ A2) Bq) as (Gp & Gl & Go). fold base in Gp.
  assert (HRc : forall f' D todo J, copied f' h (h + NP) pre base (targets F h A1) (compact_word (plen base)) D todo J -> R f').
  { intros f' D' todo' J' (L' & E' & P'). apply HR. right. right. right. left.
    exists h, pre, A1, A2, D', todo', J'. cbn zeta. fold base. repeat (split; [assumption|]). assumption. }
  assert (Be : Forall (eok F) (A1 ++ A2)).
  { pose proof (b_ents _ _ _ _ _ _ _ _ L) as B. apply Forall_app in B as [B _].
    apply Forall_app in B as [B _]. exact B. }
  pose proof (cut_fit h pre A1 A2 Hc Be (plain_gap _ Hpl) Bq Hi Hl) as Fit. fold base in Fit.
  assert (Hin : h * Q <= h * Q + pre < h * Q + Q) by lia.
  unfold compact_copy. eapply wp_the_head; [exact Hh|].
  rewrite (pos_page_in F h _ Hin), (next_page_in F h _ Hin).
  assert (Hbw : plen base <= W).
  { pose proof (page_win F G). pose proof (iw_win F G _ _ _ Hi). lia. }
  destruct (compact_word_parse F (plen base) Hbw) as (_ & _ & _ & Pc & _).
  { pose proof (window_small F G). lia. }
  eapply wp_bind_reads.
  { unfold parse_compact. fold (vcmp F (fl s) h). rewrite (b_cmp0 _ _ _ _ _ _ _ _ L). exact Pc. }
  cbn iota beta. replace (h * Q + pre + plen base <? (h + 1) * Q) with false by (symmetry; apply Nat.ltb_ge; lia).
  apply wp_bind.
  replace (h * Q + pre) with (h * Q + pre + plen []) at 1 by (rewrite plen_nil; lia).
  replace (h * Q + pre + plen base) with (h * Q + pre + plen (base ++ copies [])) by (rewrite app_nil_r; reflexivity).
  eapply (wp_copy_loop R h pre A1 A2 (compact_word (plen base)) _ Hc Hpl Hi Hl HRc A1 [] Q s D todo J).
  - reflexivity.
  - exact Cp.
  - rewrite plen_nil. lia.
  - exact Hh.
  - cbn [copies filter lpos]. rewrite app_nil_r, plen_nil, Nat.add_0_r. exact He.
  - intros s1 D2 todo1 J1 Cp1 Hh1 Hn1 He1.
    pose proof (erase_ok h) as Oe.
    assert (ET : targets F h A1 = copies A1 ++ Intl (IErase (h mod NP)) :: []) by reflexivity.
    destruct (intl_facts F _ Oe) as (Bi & _). eapply wp_bind_lift; [exact Bi|].
    apply wp_bind. change [int_word (IErase (h mod NP))] with (ewords (Intl (IErase (h mod NP)))).
    eapply (wp_put_write R s1 h (h + NP) pre base (targets F h A1) _ (copies A1)).
    + exact Cp1.
    + exact ET.
    + exact Oe.
    + exact Logic.I.
    + intros [].
    + rewrite plen_app, copies_plen. unfold elen. cbn [ewords length]. lia.
    + exact HRc.
    + intros f2 Hput. apply wp_bind. fold base.
      replace (h * Q + pre + plen (base ++ copies A1)) with
        (h * Q + pre + plen (base ++ copies A1) + (elen (Intl (IErase (h mod NP))) - 1)) at 2
        by (unfold elen; cbn [ewords length]; lia).
      eapply (wp_put_init R _ h (h + NP) pre base (targets F h A1) _ (copies A1)).
      * exact Hput.
      * exact ET.
      * exact Oe.
      * exact Logic.I.
      * exact HRc.
      * intros f3 D3 todo3 J3 (L3 & E3 & P3).
        rewrite ET, <- app_assoc in E3. apply app_inv_head in E3. cbn [app] in E3. injection E3 as E3.
        apply app_eq_nil in E3 as [-> ->].
        assert (J3 = []) as -> by (destruct P3 as [E|(x & r & E & _)]; [exact E|discriminate]).
        rewrite <- ET in L3.
        destruct (compact_split f3 h pre A1 A2 _ L3 Hc Hpl Hi Hl Hlife) as
          (A & B & pre' & EB & GB & Ep & Hp' & CA & (r & EA & Er & Cr) & L4 & O4 & Pl4 & Rm4 & Pm4).
        fold base in EB.
        assert (Et : h * Q + pre + plen (base ++ copies A1) = (h + 1) * Q + pre' + plen (B ++ copies A)).
        { rewrite EB, CA, !plen_app. lia. }
        rewrite Et.
        assert (Nd4 : NoDup (keys (B ++ copies A))).
        { unfold keys in *. eapply Permutation_NoDup; [|exact Hnd].
          apply Permutation_sym, Permutation_map, Pm4. }
        assert (Pm5 : Permutation (lives (B ++ copies A)) m) by (eapply perm_trans; [exact Pm4|exact Hpm]).
        assert (Rw : forall f' w, eok F (Dead [w]) ->
          lay F f' (h + 1) (h + 1 + NP) pre' ((B ++ copies A) ++ [Dead [w]]) [] ERASED ->
          rest F f' (h + 1) pre' ((B ++ copies A) ++ [Dead [w]]) m).
        { intros f' w Ow L'. split; [exact L'|]. split; [right; intros X; destruct (B ++ copies A); discriminate|].
          split; [|split; [|split]].
          - destruct Rm4 as (R1 & R2 & _). split; [|split; [|left; reflexivity]].
            + eapply iw_leq; [|exact R1]. apply Forall2_app; [apply leq_refl|].
              constructor; [|constructor]. split; [reflexivity|right; exact Logic.I].
            + rewrite live_len_app in R2 |- *. cbn in R2 |- *. lia.
          - apply Forall_app. split; [exact Pl4|]. constructor; [exact Logic.I|constructor].
          - unfold keys. rewrite lives_app. cbn [lives flat_map lives1]. rewrite app_nil_r. exact Nd4.
          - rewrite lives_app. cbn [lives flat_map lives1]. rewrite app_nil_r. exact Pm5. }
        apply (wp_compact_erase R _ h pre' (B ++ copies A)).
        -- exact L4.
        -- exact O4.
        -- apply (iw_win F G (h + 1) pre'). apply Rm4.
        -- cbn [st_ents set_fl]. unfold ents_ok in He1. destruct (st_ents s1) as [l|] eqn:El; [right|left; reflexivity].
           exists l, (h * Q + pre). split; [reflexivity|]. split; [exact Hh1|].
           split.
           { assert ((h + 1) * Q + pre' <= h * Q + NP * Q); [|lia].
             assert (3 * Q <= NP * Q) by (apply Nat.mul_le_mono_r; lia). lia. }
           eapply perm_trans; [exact He1|]. fold base.
           rewrite lpos_app.
           assert (E1 : lpos (h * Q + pre + plen A1) A2 = lpos ((h + 1) * Q + pre') B).
           { rewrite Ep, EA, plen_app, Nat.add_assoc.
             transitivity (lpos (h * Q + pre + plen A1) (A2 ++ gapof F h pre (A1 ++ A2))).
             - rewrite lpos_app. destruct (gapof_nil F h pre (A1 ++ A2)) as [E|[_ (n & E)]]; rewrite E;
                 cbn [lpos]; rewrite app_nil_r; reflexivity.
             - rewrite Er, lpos_app, (copies_none_lpos r Cr). reflexivity. }
           rewrite E1. rewrite CA. replace (h * Q + pre + plen base) with ((h + 1) * Q + pre' + plen B)
             by (rewrite EB, plen_app; lia).
           apply Permutation_refl.
        -- intros f' L' O'. apply HR. right. right. right. right.
           exists h, pre', (B ++ copies A). repeat (split; [assumption|]). assumption.
        -- intros f' w Ow L'. apply HR. eapply rest_crash. apply Rw; eassumption.
        -- intros s' w Ow L' Hh' Hn' He'. apply (HP s' A B pre' w).
           ++ exact EB.
           ++ exact GB.
           ++ exact Ep.
           ++ exact Hp'.
           ++ rewrite app_assoc. apply Rw; assumption.
           ++ exact Hh'.
           ++ rewrite Hn1. exact Hn'.
           ++ rewrite app_assoc, lpos_app. cbn [lpos]. rewrite app_nil_r. exact He'.
Qed.

(* --------------------------------------------------------------------- compact *)

Lemma cut_ex es : forall p lim, exists A1 A2, es = A1 ++ A2 /\
  (forall P x S, A1 = P ++ x :: S -> p + plen P < lim) /\ (A2 = [] \/ lim <= p + plen A1).
Proof.
  induction es as [|e es IH]; intros p lim.
  - exists [], []. split; [reflexivity|]. split; [|left; reflexivity]. intros [|? ?]; discriminate.
  - destruct (Nat.le_gt_cases lim p) as [Le|Gt].
    + exists [], (e :: es). split; [reflexivity|]. split; [intros [|? ?]; discriminate|].
      right. rewrite plen_nil. lia.
    + destruct (IH (p + elen e) lim) as (A1 & A2 & E & H1 & H2). exists (e :: A1), A2.
      split; [rewrite E; reflexivity|]. rewrite plen_cons. split; [|destruct H2 as [H2|H2]; [auto|right; lia]].
      intros [|a P] x S0 Ea.
      * rewrite plen_nil. lia.
      * cbn [app] in Ea. injection Ea as <- Ea. specialize (H1 P x S0 Ea). rewrite plen_cons. lia.
Qed.
Lemma lay_gap f h pre es c : lay F f h (h + NP) pre es [] c ->
  lay F f h (h + NP) pre (es ++ gapof F h pre es) [] c.
Proof.
  intros L. destruct (gapof_nil F h pre es) as [E|[Lt (n & E)]]; [rewrite E, app_nil_r; exact L|].
  pose proof (b_pre _ _ _ _ _ _ _ _ L) as Bq.
  destruct (gapof_plen F G h pre es Bq) as (Gp & _ & Go). rewrite E in *.
  pose proof (g_N F G) as HN. pose proof (g_M F G) as HM.
  assert (Hn : plen [Gap n] = n) by (rewrite plen_one; unfold elen; cbn [ewords]; apply repeat_length).
  rewrite plen_app, Hn in Gp.
  assert (Fit : (h + 1) * Q <= (h + NP) * Q) by (apply Nat.mul_le_mono_r; lia).
  destruct L as [B1 B2 B3 B4 B5 B6 B7 B8 B9 B10 B11 B12 B13 B14 B15 B16 C1 C2 C3 C4 C5].
  cbn [length] in *. rewrite Nat.add_0_r in *.
  split; cbn [length]; rewrite ?plen_app, ?Hn, ?Nat.add_0_r; try assumption.
  - apply Forall_app. auto.
  - rewrite app_nil_r in *. rewrite flat_app. apply seg_app. split; [exact B6|].
    fold (plen es). rewrite flat_cons. cbn [ewords flat map concat]. rewrite app_nil_r.
    apply blank_seg. eapply blank_mono; [exact B10|lia|lia].
  - lia.
  - eapply blank_mono; [exact B10|lia|lia].
  - intros j Hj Hjt. exfalso. pose proof (mul_lt F h j ltac:(lia)). lia.
  - intros j Hj. lia.
  - intros j Hj Hjt. apply B14; [exact Hj|]. lia.
  - intros p Hp. destruct (C1 p Hp) as [X|[X [(A & ws & B & Ees & Y)|(_ & w & r & Y & _)]]];
      [left; exact X| |discriminate Y].
    right. split; [exact X|]. left. exists A, ws, (B ++ [Gap n]). split; [|exact Y].
    rewrite Ees, <- app_assoc. reflexivity.
  - intros j Hj Hjt. destruct (C2 j Hj) as [X|[X _]]; [lia|left; exact X|lia].
Qed.

Lemma wp_compact (R : flash -> Prop) s h pre es c m (P : res store_error unit -> st -> Prop) :
  let base := es ++ gapof F h pre es in
  lay F (fl s) h (h + NP) pre es [] c -> sub (compact_word (plen base)) c ->
  based h pre es -> room F h pre es [] -> Forall plain es -> NoDup (keys es) -> Permutation (lives es) m ->
  (c = ERASED \/ h < EN * NP) ->
  st_head s = Some (h * Q + pre) -> ents_ok s (h * Q + pre) (lpos (h * Q + pre) es) ->
  (forall f', Crash F m f' -> R f') ->
  (EN * NP <= h -> P (Err NoLifetime) s) ->
  (forall s' A B pre' w, base = A ++ B -> gapof F h pre es = [] \/ B = [] ->
     (h + 1) * Q + pre' = h * Q + pre + plen A -> pre' <= MP ->
     rest F (fl s') (h + 1) pre' (B ++ copies A ++ [Dead [w]]) m ->
     st_head s' = Some ((h + 1) * Q + pre') -> (st_ents s = None <-> st_ents s' = None) ->
     ents_ok s' ((h + 1) * Q + pre') (lpos ((h + 1) * Q + pre') (B ++ copies A ++ [Dead [w]])) ->
     P (Ok tt) s') ->
  wp F R (compact F) s P.
Proof.
  intros base L Hsub Hbs Hroom Hpl Hnd Hpm Hl0 Hh He HR Herr HP.
  pose proof Hroom as (Hi & Hl & _).
  pose proof (g_N F G) as HN. pose proof (g_M F G) as HM.
  pose proof (b_pre _ _ _ _ _ _ _ _ L) as Bq.
  destruct (gapof_plen F G h pre es Bq) as (Gp & Gl & Go). fold base in Gp.
  assert (Hin : h * Q <= h * Q + pre < h * Q + Q) by lia.
  unfold compact. eapply wp_the_head; [exact Hh|].
  rewrite (pos_page_in F h _ Hin), (next_page_in F h _ Hin), (pos_cycle_in F h _ Hin).
  destruct (EN <=? h / NP) eqn:Ec.
  { apply wp_fail. apply Herr. apply (cycle_ge F G). apply Nat.leb_le, Ec. }
  apply Nat.leb_gt in Ec.
  assert (Hlife : h < EN * NP).
  { destruct (Nat.lt_ge_cases h (EN * NP)) as [X|X]; [exact X|]. apply (cycle_ge F G) in X. lia. }
  assert (Hw : plen es <= W) by (eapply iw_win; eassumption).
  eapply wp_bind_reads.
  { eapply lay_tail; [exact G|exact L|apply plain_gap, Hpl|].
    pose proof (win_pages F G h pre _ Bq Hw). lia. }
  rewrite <- Gp. replace (h * Q + pre + plen base - (h * Q + pre)) with (plen base) by lia.
  assert (Hbw : plen base <= W).
  { pose proof (page_win F G). lia. }
  destruct (compact_word_parse F (plen base) Hbw) as (Bc & Wc & Nc & Pc & Pp).
  { pose proof (window_small F G). lia. }
  eapply wp_bind_lift; [exact Bc|].
  assert (Um : h mod NP < NP) by (apply Nat.mod_upper_bound; lia).
  assert (Ev : vcmp F (fl s) h = c) by apply (b_cmp0 _ _ _ _ _ _ _ _ L).
  destruct (cut_ex es (h * Q + pre) ((h + 1) * Q)) as (A1 & A2 & EA & Hcut).
  fold (cut F h pre A1 A2) in Hcut.
  assert (Cd : cmp_done F (compact_word (plen base))) by (exists (plen base); exact Pc).
  assert (Cn : c <> compact_word (plen base) -> writes (fl s) (h mod NP) COMPACT_WORD = 0).
  { intros Hne. destruct (b_wcmp0 _ _ _ _ _ _ _ _ L) as [X|(t & X)]; [exact X|exfalso].
    assert (W32 : w32 c) by (rewrite <- Ev; apply (b_ok _ _ _ _ _ _ _ _ L)).
    destruct (N.eq_dec c ERASED) as [Ee|Ee].
    - rewrite Ee in X. discriminate X.
    - rewrite (Pp c W32 Hsub Hne Ee) in X. discriminate X. }
  assert (Full : forall f', fok f' ->
    (forall p x, p <> h mod NP \/ x <> COMPACT_WORD ->
       f' p x = fl s p x /\ writes f' p x = writes (fl s) p x) ->
    (forall p, erases f' p = erases (fl s) p) ->
    vcmp F f' h = compact_word (plen base) ->
    copied f' h (h + NP) pre ((A1 ++ A2) ++ gapof F h pre (A1 ++ A2)) (targets F h A1)
      (compact_word (plen ((A1 ++ A2) ++ gapof F h pre (A1 ++ A2)))) [] (targets F h A1) []).
  { intros f' Hf' Hr' He' Hc'. rewrite <- EA. fold base. split; [|split; [reflexivity|left; reflexivity]].
    rewrite app_nil_r. apply lay_gap. eapply (lay_compact F G (fl s) f'); try eassumption.
    right. exact Cd. }
  assert (Rw : forall f', hworn (h mod NP) COMPACT_WORD (compact_word (plen base)) (fl s) f' ->
    (forall p x, p <> h mod NP \/ x <> COMPACT_WORD -> f' p x = fl s p x) ->
    forall p x, p <> h mod NP \/ x <> COMPACT_WORD ->
       f' p x = fl s p x /\ writes f' p x = writes (fl s) p x).
  { intros f' [_ Hw'] Hr' p x Hpx. split; [apply Hr', Hpx|]. rewrite Hw'.
    destruct ((p =? h mod NP) && (x =? COMPACT_WORD)) eqn:E; [|reflexivity].
    apply andb_true_iff in E as [E1 E2]. apply Nat.eqb_eq in E1, E2. destruct Hpx; congruence. }
  rewrite EA in Hroom, Hpl, Hnd, Hpm, He.
  apply wp_bind. apply wp_write_compact.
  - exact G.
  - apply (b_ok _ _ _ _ _ _ _ _ L).
  - exact Wc.
  - exact Um.
  - unfold vcmp in Ev. rewrite Ev. exact Hsub.
  - unfold vcmp in Ev. rewrite Ev. intros X. rewrite (Cn X). lia.
  - intros f' (Hf' & Hw' & H').
    assert (Hr' : forall p x, p <> h mod NP \/ x <> COMPACT_WORD -> f' p x = fl s p x).
    { intros p x Hpx. specialize (H' p x). destruct ((p =? h mod NP) && (x =? COMPACT_WORD)) eqn:E; [|exact H'].
      apply andb_true_iff in E as [E1 E2]. apply Nat.eqb_eq in E1, E2. destruct Hpx; congruence. }
    specialize (H' (h mod NP) COMPACT_WORD). rewrite !Nat.eqb_refl in H'. cbn [andb] in H'.
    fold (vcmp F f' h) in H'. fold (vcmp F (fl s) h) in H'. destruct H' as [S1 S2].
    pose proof (Rw f' Hw' Hr') as Hr2.
    assert (Hc2 : writes f' (h mod NP) COMPACT_WORD = 0 \/ cmp_done F (vcmp F f' h)).
    { destruct (N.eq_dec (vcmp F f' h) (compact_word (plen base))) as [E1|E1].
      - right. rewrite E1. exact Cd.
      - left. rewrite (proj2 Hw'). fold (vcmp F f' h). apply N.eqb_neq in E1. rewrite E1. cbn [andb].
        rewrite andb_false_r. apply Cn. intros ->. apply N.eqb_neq in E1. apply E1.
        rewrite Ev in S2. apply sub_antisym; assumption. }
    pose proof (lay_compact F G (fl s) f' h _ pre es [] c (vcmp F f' h) L Hf' Hr2 (proj1 Hw') eq_refl Hc2) as L'.
    apply HR. destruct (N.eq_dec (vcmp F f' h) ERASED) as [E1|E1].
    + rewrite E1 in L'. eapply rest_crash. rewrite <- EA in *.
      repeat (split; [eassumption|]). eassumption.
    + right. right. destruct (N.eq_dec (vcmp F f' h) (compact_word (plen base))) as [E2|E2].
      * right. left. exists h, pre, A1, A2, [], (targets F h A1), [].
        destruct (Full f' Hf' Hr2 (proj1 Hw') E2) as (X1 & X2 & X3). cbn zeta.
        repeat (split; [assumption|]). assumption.
      * left. exists h, pre, es, (vcmp F f' h). fold base. rewrite <- EA in *.
        repeat (split; [assumption|]). assumption.
  - intros f' (Hf' & Hw' & H').
    assert (Hr' : forall p x, p <> h mod NP \/ x <> COMPACT_WORD -> f' p x = fl s p x).
    { intros p x Hpx. rewrite (H' p x). destruct ((p =? h mod NP) && (x =? COMPACT_WORD)) eqn:E; [|reflexivity].
      apply andb_true_iff in E as [E1 E2]. apply Nat.eqb_eq in E1, E2. destruct Hpx; congruence. }
    assert (Hc' : vcmp F f' h = compact_word (plen base)).
    { unfold vcmp. rewrite H', !Nat.eqb_refl. reflexivity. }
    eapply (wp_compact_copy R (set_fl s f') h pre A1 A2 [] (targets F h A1) [] m).
    + exact (Full f' Hf' (Rw f' Hw' Hr') (proj1 Hw') Hc').
    + exact Hcut.
    + exact Hpl.
    + exact Hroom.
    + exact Hnd.
    + exact Hpm.
    + exact Hlife.
    + exact Hh.
    + exact He.
    + exact HR.
    + rewrite <- EA. exact HP.
Qed.

End COMPACT.
