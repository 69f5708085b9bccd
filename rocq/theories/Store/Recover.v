(** Starting the store on whatever an interruption left. *)
From Coq Require Import Permutation.
From Verif Require Import Base Facts.
From Verif.Kv Require Import Model.
From Verif.Store Require Import Format Bits Words Geom Model Wp Entries Layout Scan Steps Ents Window Shapes Compact Room Finish Oper Redo Undo.
Open Scope nat_scope.
Ltac Zify.zify_post_hook ::= idtac.

Section RECOVER.
Variable F : format.
Hypothesis G : wff F.
Notation Q := (virt_page_size F).
Notation NP := (num_pages F).
Notation MP := (max_prefix F).
Notation W := (window_size F).
Notation V := (virt_size F).
Notation C := (capacity_of F).
Notation EN := (max_page_erases F).

(* -------------------------------------------------------------------- initialize *)

Lemma ent_first x : eok F x -> no_gap x -> exists w r, ewords x = w :: r /\ w <> ERASED.
Proof.
  intros Ox Gx. destruct x as [k v|ws|i|n].
  - destruct (live_facts F G k v Ox) as (_ & E & _ & H & _). exists (head_word k v), (value_words v). split; assumption.
  - destruct Ox as (_ & w & r & -> & _ & H). exists w, r. split; [reflexivity|]. eapply valid_not_erased. exact H.
  - destruct (intl_facts F i Ox) as (_ & _ & H & _). exists (int_word i), []. split; [reflexivity|exact H].
  - destruct Gx.
Qed.

(** Entries an operation leaves: no gaps, and no erase entry. *)
Definition okop (x : ent) : Prop := match x with Gap _ | Intl (IErase _) => False | _ => True end.
Lemma okop_gap x : okop x -> no_gap x.
Proof. destruct x; intros H; try exact Logic.I; destruct H. Qed.
Lemma soft_okop es : Forall soft es -> Forall okop es.
Proof. intros H. eapply Forall_impl; [|exact H]. intros [| |[]|]; cbn; auto. Qed.
Lemma plain_okop es : Forall plain es -> Forall okop es.
Proof. intros H. apply soft_okop, plain_soft, H. Qed.
Lemma opc_okop es J m : opc F es J m -> Forall okop es.
Proof.
  intros [(H & _)|[(es0 & k & v & [_ [[-> _]|[-> _]]] & H & _)|[(es0 & k & [_ [[-> _]|[-> _]]] & H & _)|[(n & _ & _ & _ & H & _)|
    [(es0 & n & us & us' & -> & HU & Hu & _ & _ & H & _)|(es0 & n & ds & us & -> & Hd & Hu & _ & _ & _ & H & _)]]]]];
    try (apply soft_okop; exact H);
    try (apply Forall_app; split; [apply soft_okop; exact H|repeat constructor]).
  - assert (X : Forall isupd us).
    { destruct HU as [[-> _]|(x & -> & _)]; [exact Hu|apply Forall_app in Hu; apply Hu]. }
    apply soft_okop, upd_soft, X.
  - apply Forall_app. split; [|apply soft_okop, upd_soft, Hu].
    eapply Forall_impl; [|exact Hd]. intros []; cbn; tauto.
Qed.
Lemma opc_J es J m : opc F es J m -> J = [] \/ jg_ok F J \/ ju_ok F J \/
  exists x, J = ewords x /\ eok F x /\ okop x /\ ~ is_dead x.
Proof.
  intros [(_ & _ & [H|[H|H]] & _)|[(es0 & k & v & [Ox [[_ H]|[_ H]]] & _)|[(es0 & k & [Ox [[_ H]|[_ H]]] & _)|[(n & _ & Ox & H & _)|
    [(es0 & n & us & us' & _ & [[_ H]|(x & -> & H & Ox)] & Hu & _)|(es0 & n & ds & us & _ & _ & _ & _ & _ & [[[H|H] _]|(us' & [[_ H]|(x & -> & H & Ox)] & Hu & _)] & _)]]]]]; auto.
  - right. right. right. exists (Live k v). repeat split; auto; apply Ox.
  - right. right. right. exists (Intl (IClear k)). repeat split; auto; apply Ox.
  - right. right. right. exists (Intl (IMarker n)). repeat split; auto; apply Ox.
  - right. right. right. exists x. apply Forall_app in Hu as [_ Hu]. inversion_clear Hu as [|? ? X _].
    split; [exact H|]. split; [exact Ox|]. destruct x as [| |[]|]; cbn in *; auto.
  - right. right. right. exists x. apply Forall_app in Hu as [_ Hu]. inversion_clear Hu as [|? ? X _].
    split; [exact H|]. split; [exact Ox|]. destruct x as [| |[]|]; cbn in *; auto.
Qed.

Lemma untouched_spec f : untouched F f = true <->
  (forall p x, p < NP -> x < Q + 2 -> p <> 0 \/ x <> INIT_WORD -> f p x = ERASED).
Proof.
  unfold untouched. rewrite forallb_forall. split.
  - intros H p x Hp Hx Hne. specialize (H p). rewrite in_seq in H. specialize (H ltac:(lia)).
    apply andb_true_iff in H as [H1 H2]. rewrite forallb_forall in H2.
    destruct x as [|x].
    + apply orb_true_iff in H1 as [H1|H1]; [apply Nat.eqb_eq in H1; destruct Hne as [Hne|Hne]; [lia|destruct Hne; reflexivity]|].
      apply N.eqb_eq in H1. exact H1.
    + apply N.eqb_eq, H2, in_seq. lia.
  - intros H p Hp. apply in_seq in Hp. apply andb_true_iff. split.
    + destruct (Nat.eqb_spec p 0) as [->|Hne]; [reflexivity|]. cbn [orb]. apply N.eqb_eq, H; [lia|unfold INIT_WORD; lia|left; exact Hne].
    + apply forallb_forall. intros x Hx. apply in_seq in Hx. apply N.eqb_eq, H; [lia|lia|right; unfold INIT_WORD; lia].
Qed.

Lemma untouched_read f pos : untouched F f = true -> read_word F f pos = ERASED.
Proof.
  intros H. rewrite untouched_spec in H. destruct (pos_parts F pos G) as (_ & H1 & H2).
  unfold read_word. apply H; [exact H1|unfold CONTENT_WORD; lia|right; unfold CONTENT_WORD, INIT_WORD; lia].
Qed.
Lemma untouched_cmp f page : untouched F f = true -> page < NP -> f page COMPACT_WORD = ERASED.
Proof.
  intros H Hp. rewrite untouched_spec in H. apply H; [exact Hp|unfold COMPACT_WORD; lia|right; discriminate].
Qed.
Lemma base_small h pre es : pre <= MP -> Iw F h pre es ->
  plen (es ++ gapof F h pre es) <= W /\ (N.of_nat (plen (es ++ gapof F h pre es)) <= 65535)%N.
Proof.
  intros Hp Hi. destruct (gapof_plen F G h pre es Hp) as [X _]. pose proof (page_win F G). pose proof (iw_win F G _ _ _ Hi).
  pose proof (window_small F G). assert (plen (es ++ gapof F h pre es) <= W) by lia. split; lia.
Qed.

(** A layout without entries: nothing was written. *)
Lemma lay_unused f : lay F f 0 (0 + NP) 0 [] [] ERASED ->
  (forall p x, p < NP -> x < Q -> f p (CONTENT_WORD + x) = ERASED -> writes f p (CONTENT_WORD + x) = 0) /\
  (forall p x, p < NP -> (p <> 0 /\ x = INIT_WORD) \/ x = COMPACT_WORD -> writes f p x = 0) /\
  (forall p, p < NP -> erases f p = 0).
Proof.
  intros L. pose proof (NP_pos F G) as HNP.
  destruct L as [B1 B2 B3 B4 B5 B6 B7 B8 B9 B10 B11 B12 B13 B14 B15 B16 C1 C2 C3 C4 C5].
  split; [|split].
  - intros p x Hp Hx E. assert (Hin : p * Q <= p * Q + x < p * Q + Q) by lia.
    assert (Hq : 0 * Q <= p * Q + x < (0 + NP) * Q).
    { split; [lia|]. assert ((p + 1) * Q <= (0 + NP) * Q) by (apply Nat.mul_le_mono_r; lia). lia. }
    destruct (C1 _ Hq) as [X|[_ [(A & ws & B & Y & _)|(_ & w & r & Y & _)]]];
      [|destruct A; discriminate Y|discriminate Y].
    unfold read_wear, read_word in X. rewrite (pos_page_in F p _ Hin) in X. unfold pos_word in X.
    destruct (pos_in F p _ Hin) as [_ Ew]. rewrite Ew in X.
    replace (p * Q + x - p * Q) with x in X by lia. rewrite Nat.mod_small in X by lia.
    rewrite E, budget_erased in X. lia.
  - intros p x Hp [[Hn ->]| ->].
    + destruct (C2 p) as [X|[X _]]; [lia|cbn [Nat.mul Nat.add]; change (plen []) with 0; lia| |].
      * rewrite Nat.mod_small in X by lia. exact X.
      * cbn [Nat.mul Nat.add length] in X. change (plen []) with 0 in X. lia.
    + destruct p as [|p].
      * rewrite Nat.mod_0_l in C3 by lia. destruct C3 as [X|(t & X)]; [exact X|].
        rewrite (erased_compact_parse F) in X. discriminate X.
      * pose proof (C4 (S p) ltac:(lia)) as X. rewrite Nat.mod_small in X by lia. exact X.
  - intros p Hp. pose proof (C5 p ltac:(lia)) as X. rewrite Nat.mod_small, Nat.div_small in X by lia. exact X.
Qed.

Lemma untouched_crash f m : untouched F f = true -> Crash F m f -> Cblank F m f.
Proof.
  intros U. pose proof (untouched_spec f) as US. pose proof (NP_pos F G) as HNP.
  assert (Um : forall h, h mod NP < NP) by (intros; apply Nat.mod_upper_bound; lia).
  assert (NE : forall pos x, eok F x -> no_gap x -> seg F f pos (ewords x) -> False).
  { intros pos x Ox Gx Sx. destruct (ent_first x Ox Gx) as (w & r & E & Hw). rewrite E in Sx.
    apply seg_cons in Sx as [Sx _]. rewrite untouched_read in Sx by exact U. auto. }
  assert (NL : forall pos ws, ws <> [] -> last ws 0%N <> ERASED -> seg F f pos ws -> False).
  { intros pos ws Hn Hl Hs. apply Hl. rewrite <- nth_last, <- (Hs (length ws - 1)); [apply untouched_read, U|].
    destruct ws; [destruct (Hn eq_refl)|cbn [length]; lia]. }
  intros [H|[H|[H|[H|H]]]].
  - exact H.
  - destruct H as (h & pre & es & J & L & Hb & Hr & Ho).
    assert (es = []) as ->.
    { destruct es as [|x es]; [reflexivity|]. exfalso. pose proof (opc_okop _ _ _ Ho) as X. inversion_clear X as [|? ? X1 _].
      pose proof (b_ents _ _ _ _ _ _ _ _ L) as Y. inversion_clear Y as [|? ? Y1 _].
      apply (NE (h * Q + pre + plen []) x Y1 (okop_gap _ X1)). apply (lay_seg_at F f h (h + NP) pre [] x es J ERASED L). }
    assert (J = []) as ->.
    { pose proof (seg_J F _ _ _ _ _ _ _ L) as SJ.
      destruct (opc_J _ _ _ Ho) as [H|[H|[H|(x & H & Ox & Okx & _)]]]; [exact H| | |]; exfalso.
      - destruct H as (H1 & _ & _ & H2 & _). eapply NL; eassumption.
      - destruct H as (_ & w & r & hh & -> & _ & _ & _ & Hr0 & Hl & _).
        eapply (NL _ (w :: r)); [discriminate| |exact SJ]. destruct r; [destruct (Hr0 eq_refl)|exact Hl].
      - subst J. eapply NE; [exact Ox|apply okop_gap, Okx|exact SJ]. }
    destruct Hb as [[-> ->]|Hb]; [|destruct (Hb eq_refl)].
    assert (Em : m = []).
    { assert (X : Permutation (lives []) m).
      { destruct Ho as [(_ & _ & _ & H)|[(es0 & k & v & [Ox [[<- H]|[H _]]] & _)|[(es0 & k & [Ox [[<- H]|[H _]]] & _)|[(n & _ & Ox & H & _)|
          [(es0 & n & us & us' & H & _)|(es0 & n & ds & us & H & _)]]]]].
        - exact H.
        - pose proof (eok_len F G _ Ox) as X. unfold elen in X. rewrite <- H in X. cbn [length] in X. lia.
        - destruct es0; discriminate.
        - discriminate.
        - destruct es0; discriminate.
        - discriminate.
        - destruct es0; discriminate.
        - destruct es0; discriminate. }
      apply Permutation_nil in X. exact X. }
    pose proof (b_init0 _ _ _ _ _ _ _ _ L) as X. unfold vini, iword in X. rewrite Nat.mod_0_l, Nat.div_0_l in X by lia.
    cbn [Nat.mul Nat.add Nat.sub] in X.
    split; [exact Em|]. split; [apply (b_ok _ _ _ _ _ _ _ _ L)|]. split; [rewrite X; apply sub_refl|].
    pose proof (lay_unused f L) as (LU1 & LU2 & LU3).
    split; [|split; [right; exact X|exact LU3]].
    intros p x Hp Hx Hne. split; [apply (proj1 US U); assumption|].
    destruct x as [|[|x]]; [apply LU2; [lia|]|apply LU2; [lia|]|].
    + left. split; [destruct Hne as [Hne|Hne]; [exact Hne|destruct Hne; reflexivity]|reflexivity].
    + right. reflexivity.
    + replace (S (S x)) with (CONTENT_WORD + x) by reflexivity. apply LU1; [exact Hp|lia|].
      apply (proj1 US U); [exact Hp|unfold CONTENT_WORD; lia|right; unfold CONTENT_WORD, INIT_WORD; lia].
  - destruct H as (h & pre & es & c & L & _ & _ & _ & _ & _ & _ & Hc & _). exfalso. apply Hc.
    rewrite <- (b_cmp0 _ _ _ _ _ _ _ _ L). apply untouched_cmp; auto.
  - destruct H as (h & pre & A1 & A2 & D & T & J & L & _ & Hr & _). exfalso.
    destruct (base_small h pre (A1 ++ A2) (b_pre _ _ _ _ _ _ _ _ L) (proj1 Hr)) as [X1 X2].
    destruct (compact_word_parse F _ X1 X2) as (_ & _ & X & _). apply X.
    rewrite <- (b_cmp0 _ _ _ _ _ _ _ _ L). apply untouched_cmp; auto.
  - destruct H as (h & pre & es & L & _). exfalso. eapply (NE _ (Intl (IErase (h mod NP)))); [apply (erase_ok F G)|exact Logic.I|].
    eapply lay_seg_at. exact L.
Qed.

Lemma blank_lay f : fok f -> f 0 INIT_WORD = init_word 0 0 ->
  (forall p x, p < NP -> x < Q + 2 -> p <> 0 \/ x <> INIT_WORD -> f p x = ERASED /\ writes f p x = 0) ->
  (forall p, p < NP -> erases f p = 0) ->
  lay F f 0 (0 + NP) 0 [] [] ERASED.
Proof.
  intros Hf Hi HH He. pose proof (NP_pos F G) as HNP. pose proof (g_N F G) as HgN.
  assert (H : forall p x, p < NP -> x < Q + 2 -> p <> 0 \/ x <> INIT_WORD -> f p x = ERASED) by (intros; apply HH; assumption).
  assert (HW : forall p x, p < NP -> x < Q + 2 -> p <> 0 \/ x <> INIT_WORD -> writes f p x = 0) by (intros; apply HH; assumption).
  clear HH.
  assert (Hrd : forall p, read_word F f p = ERASED) by (intros; apply untouched_read, untouched_spec, H).
  constructor; cbn [Nat.mul Nat.add length plen flat map concat app]; try (constructor; fail); try lia.
  - exact Hf.
  - intros i Hi'. cbn [length] in Hi'. lia.
  - intros p _. apply Hrd.
  - unfold vini, iword. rewrite Nat.mod_0_l, Nat.div_0_l by lia. exact Hi.
  - intros j Hj _. unfold vini. rewrite Nat.mod_small by lia. apply H; [lia|unfold INIT_WORD; lia|left; lia].
  - unfold vcmp. rewrite Nat.mod_0_l by lia. apply H; [lia|unfold COMPACT_WORD; lia|right; discriminate].
  - intros j Hj. unfold vcmp. rewrite Nat.mod_small by lia. apply H; [lia|unfold COMPACT_WORD; lia|left; lia].
  - intros p Hp. left. unfold read_wear. destruct (pos_parts F p G) as (_ & P1 & P2).
    rewrite HW; [lia|exact P1|unfold CONTENT_WORD; lia|right; unfold CONTENT_WORD, INIT_WORD; lia].
  - intros j Hj _. left. rewrite Nat.mod_small by lia. apply HW; [lia|unfold INIT_WORD; lia|left; lia].
  - left. rewrite Nat.mod_0_l by lia. apply HW; [lia|unfold COMPACT_WORD; lia|right; discriminate].
  - intros j Hj. rewrite Nat.mod_small by lia. apply HW; [lia|unfold COMPACT_WORD; lia|left; lia].
  - intros j Hj. rewrite Nat.mod_small, Nat.div_small by lia. apply He. lia.
Qed.

Definition Used (m : kv) (f : flash) : Prop := Cop F m f \/ Ccompact F m f \/ Ccopy F m f \/ Cerase F m f.

Lemma wp_recover_initialize (R : flash -> Prop) s m (P : res store_error unit -> st -> Prop) :
  Crash F m (fl s) -> (forall f', Crash F m f' -> R f') ->
  (forall f', Used m f' -> P (Ok tt) (set_fl s f')) ->
  wp F R (recover_initialize F) s P.
Proof.
  intros HC HR HP. unfold recover_initialize. eapply wp_bind_reads; [reflexivity|].
  pose proof (NP_pos F G) as HNP. pose proof (g_N F G).
  destruct (untouched F (fl s)) eqn:U.
  - destruct (untouched_crash _ _ U HC) as (-> & Hf & Hs & Hb & Hw0 & He0).
    destruct (init_word_parse F 0 0) as (Bi & Wi & _); try lia.
    eapply wp_bind_lift; [exact Bi|].
    assert (Keep : forall f', hworn 0 INIT_WORD (init_word 0 0) (fl s) f' ->
      forall p x, p <> 0 \/ x <> INIT_WORD -> writes f' p x = writes (fl s) p x).
    { intros f' [_ Hw'] p x Hpx. rewrite Hw'. destruct ((p =? 0) && (x =? INIT_WORD)) eqn:E; [|reflexivity].
      apply andb_true_iff in E as [E1 E2]. apply Nat.eqb_eq in E1, E2. destruct Hpx; contradiction. }
    apply (wp_write_init F G); try assumption.
    + intros X. destruct Hw0 as [->|Y]; [lia|contradiction].
    + intros f' (Hf' & Hn & Hw). apply HR. left. split; [reflexivity|]. split; [exact Hf'|].
      pose proof (Hw 0 INIT_WORD) as Hw1. rewrite !Nat.eqb_refl in Hw1. cbn [andb] in Hw1.
      split; [apply Hw1|]. split; [|split].
      * intros p x Hp Hx Hne. rewrite (Keep f' Hn p x Hne). specialize (Hw p x).
        destruct ((p =? 0) && (x =? INIT_WORD)) eqn:E.
        -- apply andb_true_iff in E as [E1 E2]. apply Nat.eqb_eq in E1, E2. destruct Hne; contradiction.
        -- rewrite Hw. apply Hb; assumption.
      * destruct (N.eq_dec (f' 0 INIT_WORD) (init_word 0 0)) as [E|E]; [right; exact E|left].
        rewrite (proj2 Hn). apply N.eqb_neq in E. rewrite E, andb_false_r.
        apply N.eqb_neq in E. destruct Hw0 as [Y|Y]; [exact Y|]. exfalso. apply E. rewrite Y in Hw1.
        destruct Hw1. apply sub_antisym; assumption.
      * intros p Hp. rewrite (proj1 Hn). apply He0, Hp.
    + intros f' (Hf' & Hn & Hw). apply HP. left.
      assert (L : lay F f' 0 (0 + NP) 0 [] [] ERASED).
      { apply blank_lay; [exact Hf'| | |].
        - rewrite Hw. reflexivity.
        - intros p x Hp Hx Hne. rewrite (Keep f' Hn p x Hne), Hw.
          destruct ((p =? 0) && (x =? INIT_WORD)) eqn:E; [|apply Hb; assumption].
          apply andb_true_iff in E as [E1 E2]. apply Nat.eqb_eq in E1, E2. destruct Hne; contradiction.
        - intros p Hp. rewrite (proj1 Hn). apply He0, Hp. }
      exists 0, 0, [], []. split; [exact L|]. split; [left; split; reflexivity|]. split.
      * split; [apply (iw_reset F G); cbn [plen live_len flat filter map concat length]; lia|].
        split; [cbn [plen live_len flat filter map concat length]; lia|left; reflexivity].
      * left. repeat split; try constructor. constructor.
  - apply wp_ret. rewrite <- (set_fl_same s). apply HP. destruct HC as [HC|HC]; [|exact HC].
    exfalso. destruct HC as (_ & _ & _ & Hb & _).
    rewrite (proj2 (untouched_spec _)) in U; [discriminate|]. intros p x H1 H2 H3. apply Hb; assumption.
Qed.

(* ------------------------------------------------------------------------- erase *)

(** Reading at [p] does not make the search for an erase entry before [nx] find one. *)
Definition harmless (f : flash) (p nx : nat) : Prop :=
  nx <= p \/ exists r p', parse_entry F f p = Ok (r, p') /\
    match r with
    | ETail | EPartial | EPartialUser => True
    | EInternal (IErase _) => False
    | EInternal _ => True
    | EUser _ => p < p' /\ (nx <= p' \/ read_word F f p' = ERASED)
    | EPadding => False
    end.
Definition noerase (x : ent) : Prop := match x with Intl (IErase _) => False | _ => True end.

Lemma harmless_partial f p nx : parse_entry F f p = Ok (parse_partial F f p) -> harmless f p nx.
Proof.
  intros E. right. rewrite E. destruct (parse_partial_cases F f p) as [->|(i & -> & _)]; eexists _, _; split; try reflexivity; exact Logic.I.
Qed.
Lemma harmless_blank f p nx : read_word F f p = ERASED -> harmless f p nx.
Proof. intros H. apply harmless_partial, (parse_blank F), H. Qed.
Lemma find_blank f p nx fuel : read_word F f p = ERASED -> nx - p <= fuel -> find_erase F f fuel p nx = Ok None.
Proof.
  intros H Hf. destruct fuel as [|n]; cbn [find_erase]; (destruct (Nat.leb_spec nx p); [reflexivity|]); [lia|].
  rewrite (parse_blank F f p H). cbn [rbind].
  destruct (parse_partial_cases F f p) as [->|(i & -> & _)]; reflexivity.
Qed.
Lemma find_harmless f p nx fuel : harmless f p nx -> nx - p <= fuel -> find_erase F f fuel p nx = Ok None.
Proof.
  intros H Hf. destruct fuel as [|n]; cbn [find_erase]; (destruct (Nat.leb_spec nx p) as [|Hlt]; [reflexivity|]); [lia|].
  destruct H as [H|(r & p' & E & H)]; [lia|]. rewrite E. cbn [rbind].
  destruct r as [|hh|i| | |]; try reflexivity; [destruct H|destruct H|].
  - destruct H0 as [H1|H1].
    + destruct n; cbn [find_erase]; (destruct (Nat.leb_spec nx p'); [reflexivity|lia]).
    + apply find_blank; [exact H1|lia].
  - destruct i; try reflexivity. destruct H.
Qed.
Lemma find_none f nx B : forall p fuel, Forall (eok F) B -> Forall noerase B -> seg F f p (flat B) ->
  harmless f (p + plen B) nx -> nx - p <= fuel -> find_erase F f fuel p nx = Ok None.
Proof.
  induction B as [|x B IH]; intros p fuel Ho He Hs Hh Hf.
  - change (plen []) with 0 in Hh. rewrite Nat.add_0_r in Hh. apply find_harmless; assumption.
  - inversion_clear Ho as [|? ? Ox Ho']. inversion_clear He as [|? ? Ex He'].
    rewrite flat_cons in Hs. apply seg_app in Hs as [Hx Hs]. rewrite plen_cons in Hh.
    pose proof (eok_len F G x Ox) as Hl.
    assert (K : (exists n, x = Gap n) \/ (parse_entry F f p = Ok (pent x, p + elen x) /\ no_gap x)).
    { destruct x as [k v|ws|i|n]; try (right; split; [apply (parse_ent F G); [assumption|discriminate|assumption]|exact Logic.I]).
      left. exists n. reflexivity. }
    destruct K as [[n ->]|[K Hg]].
    + apply find_blank; [|assumption]. cbn [eok] in Ox. cbn [ewords] in Hx. destruct n as [|n]; [lia|].
      cbn [repeat] in Hx. apply seg_cons in Hx as [Hx _]. exact Hx.
    + destruct fuel as [|n]; cbn [find_erase]; (destruct (Nat.leb_spec nx p); [reflexivity|]); [lia|].
      rewrite K. cbn [rbind].
      assert (X : find_erase F f n (p + elen x) nx = Ok None).
      { apply IH; try assumption; [|lia]. rewrite <- Nat.add_assoc. exact Hh. }
      destruct x as [k v|ws|i|n0]; cbn [pent]; try exact X; [|destruct Hg].
      destruct i; try reflexivity. destruct Ex.
Qed.

(** Over entries with a value or wiped, an erase entry is found. *)
Lemma find_some f nx pg B : forall p fuel, Forall (eok F) B -> Forall plain B -> eok F (Intl (IErase pg)) ->
  seg F f p (flat B ++ ewords (Intl (IErase pg))) -> p + plen B < nx -> nx - p <= fuel ->
  find_erase F f fuel p nx = Ok (Some (p + plen B)).
Proof.
  induction B as [|x B IH]; intros p fuel Ho Hp Oe Hs Hn Hf.
  - change (plen []) with 0 in *. destruct fuel as [|n]; [lia|]. cbn [find_erase]. destruct (Nat.leb_spec nx p); [lia|].
    rewrite (parse_ent F G f p (Intl (IErase pg))); [|exact Oe|discriminate|exact Hs]. cbn [rbind pent].
    rewrite Nat.add_0_r. reflexivity.
  - inversion_clear Ho as [|? ? Ox Ho']. inversion_clear Hp as [|? ? Px Hp'].
    rewrite plen_cons in *. rewrite flat_cons, <- app_assoc in Hs. apply seg_app in Hs as [Hx Hs].
    pose proof (eok_len F G x Ox) as Hl. destruct fuel as [|n]; [lia|]. cbn [find_erase].
    destruct (Nat.leb_spec nx p); [lia|].
    rewrite (parse_ent F G f p x Ox); [|intros n0 ->; destruct Px|exact Hx]. cbn [rbind].
    assert (X : find_erase F f n (p + elen x) nx = Ok (Some (p + (elen x + plen B)))).
    { rewrite Nat.add_assoc. apply IH; try assumption; lia. }
    destruct x as [k v|ws|i|n0]; cbn [pent]; try exact X; destruct Px.
Qed.

(** The search in a flash whose last entries are not an erase entry. *)
Lemma lay_find_none f h pre es J c : lay F f h (h + NP) pre es J c -> Forall noerase es ->
  (forall L, h <= L < h + NP ->
     (L = h \/ L * Q < h * Q + pre + plen es \/
      (h < L /\ h * Q + pre + plen es <= L * Q < h * Q + pre + plen es + length J /\
       vini F f L = iword F L (target F (h * Q + pre + plen es) (length J) L))) ->
     harmless f (h * Q + pre + plen es) ((L + 1) * Q)) ->
  exists b, latest F f = Ok b /\ find_erase F f Q b (next_page F b) = Ok None.
Proof.
  intros L He Hh. pose proof (NP_pos F G).
  destruct (lay_latest F G f h (h + NP) pre es J c L) as (l & b & Hl & Eb & Hb & D); [lia|intros j; lia|].
  exists b. split; [exact Eb|]. rewrite (next_page_in F l b) by exact Hb.
  assert (Hx : (l + 1) * Q - b <= Q) by lia.
  destruct D as [(A & B & -> & -> & H1 & H2 & H3 & H4)|(H1 & H2 & E & H3)].
  - pose proof (b_seg _ _ _ _ _ _ _ _ L) as S. rewrite flat_app, <- app_assoc in S. apply seg_app in S as [_ S].
    apply seg_app in S as [S _]. fold (plen A) in S. pose proof (b_ents _ _ _ _ _ _ _ _ L) as O.
    apply Forall_app in O as [_ O]. apply Forall_app in He as [_ He].
    eapply find_none; try eassumption. rewrite <- Nat.add_assoc, <- plen_app. apply Hh; [lia|]. destruct H2 as [H2|[_ H2]]; auto.
  - rewrite E in H3. unfold target in *. destruct (Nat.eqb_spec (h * Q + pre + plen es) (l * Q)) as [Et|Et].
    + rewrite E, <- Et. apply find_harmless; [|lia]. apply Hh; [lia|]. right. right. repeat split; try lia.
      rewrite Et, Nat.eqb_refl. exact H3.
    + assert (X : (l + 1) * Q <= h * Q + pre + plen es + length J \/ read_word F f b = ERASED).
      { destruct (Nat.le_gt_cases ((l + 1) * Q) b); [left; lia|right]. apply (b_blank _ _ _ _ _ _ _ _ L).
        assert ((l + 1) * Q <= (h + NP) * Q) by (apply Nat.mul_le_mono_r; lia). lia. }
      destruct X as [X|X]; [lia|]. apply find_blank; assumption.
Qed.

Lemma last_nth_words (ws : list N) : last ws 0%N = nth (length ws - 1) ws 0%N.
Proof. symmetry. apply nth_last. Qed.

(** A partly written entry with a value hides no erase entry. *)
Lemma harmless_part f h e pre es J c k v nx :
  lay F f h e pre es J c -> eok F (Live k v) -> length J = elen (Live k v) ->
  (forall i, i < length J -> sub (nth i (ewords (Live k v)) 0%N) (nth i J 0%N)) -> nx <= e * Q ->
  harmless f (h * Q + pre + plen es) nx.
Proof.
  intros L Ox Lj Sj Hn. set (t := h * Q + pre + plen es).
  pose proof (live_facts F G k v Ox) as (_ & E & Wh & Nh & P & X). pose proof Ox as (Hk & _ & Hv).
  destruct (live_elen F G k v Ox) as [El _]. rewrite El in Lj.
  pose proof (b_w32 _ _ _ _ _ _ _ _ L) as W.
  pose proof (seg_J F _ _ _ _ _ _ _ L) as SJ. fold t in SJ.
  pose proof (b_blank _ _ _ _ _ _ _ _ L) as BL. fold t in BL.
  destruct J as [|w J]; [cbn [length] in Lj; lia|]. cbn [length] in Lj.
  pose proof SJ as SJ'. apply seg_cons in SJ' as [Hw _].
  assert (Ww : w32 w) by (inversion W; assumption).
  assert (Hsub : sub (head_word k v) w).
  { pose proof (Sj 0 ltac:(cbn [length]; lia)) as Y. cbn [ewords] in Y. rewrite E in Y. exact Y. }
  assert (BE : forall n, to_words (length v) <= n -> nx <= t + (1 + n) \/ read_word F f (t + (1 + n)) = ERASED).
  { intros n Hnn. destruct (Nat.le_gt_cases nx (t + (1 + n))); [left; assumption|right]. apply BL. cbn [length]. lia. }
  destruct (N.eq_dec w (head_word k v)) as [Ew|Ew].
  - assert (PW : parse_word F (read_word F f t) = Ok (Valid (PHeader (mkHeader (flip_of v) (length v) k (footer_zeros v))))) by (rewrite Hw, Ew; exact P).
    assert (PE : parse_entry F f t = Ok (parse_partial F f t) \/
       parse_entry F f t = Ok (EUser (mkHeader (flip_of v) (length v) k (footer_zeros v)), t + (1 + to_words (length v))) \/
       parse_entry F f t = Ok (EPartialUser, t + (1 + to_words (length v)))).
    { unfold parse_entry. rewrite PW. cbn [rbind h_length h_key]. destruct (Nat.ltb_spec (max_value F) (length v)); [lia|].
      destruct (header_check _ _).
      - destruct (N.ltb_spec MAX_KEY k); [lia|]. right. left. reflexivity.
      - destruct (match _ with None => true | Some _ => _ end); [left; reflexivity|right; right; reflexivity]. }
    destruct PE as [PE|[PE|PE]]; [apply harmless_partial, PE| |]; right; rewrite PE; eexists _, _; (split; [reflexivity|]); [|exact Logic.I].
    split; [lia|]. apply BE. lia.
  - destruct (X w Ww Hsub Ew) as [PW|[PW|(hh & PW & Hl & Hz & Hkk)]]; rewrite <- Hw in PW.
    + apply harmless_partial. unfold parse_entry. rewrite PW. reflexivity.
    + apply harmless_partial. unfold parse_entry. rewrite PW. reflexivity.
    + assert (TW : to_words (length v) <= to_words (h_length hh)) by (apply to_words_mono; exact Hl).
      assert (PE : parse_entry F f t = Ok (parse_partial F f t) \/
       parse_entry F f t = Ok (EUser hh, t + (1 + to_words (h_length hh))) \/
       parse_entry F f t = Ok (EPartialUser, t + (1 + to_words (h_length hh)))).
      { unfold parse_entry. rewrite PW. cbn [rbind]. destruct (Nat.ltb_spec (max_value F) (h_length hh)); [left; reflexivity|].
        destruct (header_check _ _).
        - destruct (N.ltb_spec MAX_KEY (h_key hh)) as [Y|Y]; [|right; left; reflexivity]. exfalso.
          revert Y. change MAX_KEY with 4095%N. lia.
        - destruct (match _ with None => true | Some _ => _ end); [left; reflexivity|right; right; reflexivity]. }
      destruct PE as [PE|[PE|PE]]; [apply harmless_partial, PE| |]; right; rewrite PE; eexists _, _; (split; [reflexivity|]); [|exact Logic.I].
      split; [lia|]. apply BE. exact TW.
Qed.
Lemma rest_cop f h pre es m : rest F f h pre es m -> Cop F m f.
Proof.
  intros (L & Hb & Hr & Hp & Hn & Hm). exists h, pre, es, []. repeat (split; [assumption|]).
  left. repeat split; try assumption; [apply plain_soft; exact Hp|left; reflexivity].
Qed.

Lemma wp_erase_shape (R : flash -> Prop) s m (P : res store_error unit -> st -> Prop) :
  Cerase F m (fl s) -> st_ents s = None -> (forall f', Crash F m f' -> R f') ->
  (forall s', st_ents s' = None -> Cop F m (fl s') -> P (Ok tt) s') ->
  wp F R (recover_erase F) s P.
Proof.
  intros (h & pre & es & L & Ho & Hr & Hp & Hn & Hm) Hse HR HP.
  pose proof (NP_pos F G) as HNP. pose proof (b_life _ _ _ _ _ _ _ _ L) as Bl.
  set (er := Intl (IErase (h mod NP))) in *.
  assert (Rw : forall f' w, eok F (Dead [w]) ->
    lay F f' (h + 1) (h + 1 + NP) pre (es ++ [Dead [w]]) [] ERASED -> rest F f' (h + 1) pre (es ++ [Dead [w]]) m).
  { intros f' w Ow L'. split; [exact L'|]. split; [right; intros X; destruct es; discriminate|].
    split; [|split; [|split]].
    - destruct Hr as (R1 & R2 & _). split; [|split; [|left; reflexivity]].
      + eapply iw_leq; [|exact R1]. apply Forall2_app; [apply leq_refl|].
        constructor; [|constructor]. split; [reflexivity|right; exact Logic.I].
      + rewrite live_len_app in R2 |- *. cbn in R2 |- *. lia.
    - apply Forall_app. split; [exact Hp|]. constructor; [exact Logic.I|constructor].
    - unfold keys. rewrite lives_app. cbn [lives flat_map lives1]. rewrite app_nil_r. exact Hn.
    - rewrite lives_app. cbn [lives flat_map lives1]. rewrite app_nil_r. exact Hm. }
  assert (X : exists b, latest F (fl s) = Ok b /\
    find_erase F (fl s) Q b (next_page F b) = Ok (Some ((h + 1) * Q + pre + plen es))).
  { destruct (lay_latest F G (fl s) (h + 1) (h + NP) pre _ [] _ L) as (l & b & Hl & Eb & Hb & D); [lia| |].
    { apply (oldi_older F G); [exact Ho|apply (b_ok _ _ _ _ _ _ _ _ L)|lia]. }
    exists b. split; [exact Eb|]. rewrite (next_page_in F l b) by exact Hb.
    destruct D as [(A & B & E & -> & H1 & H2 & H3 & _)|(_ & H2 & _)]; [|cbn [length] in H2; lia].
    rewrite plen_app in H1, H2. change (plen [er]) with 1 in H1, H2.
    destruct B as [|x0 B0].
    - exfalso. rewrite app_nil_r in E. apply (H3 es er []); [symmetry; exact E|].
      destruct H2 as [->|[_ H2]]; lia.
    - assert (Hne : x0 :: B0 <> []) by discriminate. destruct (exists_last Hne) as (B & x & EB). rewrite EB in E.
      rewrite app_assoc in E. apply app_inj_tail in E as [-> <-].
      pose proof (b_seg _ _ _ _ _ _ _ _ L) as S. rewrite !flat_app, <- !app_assoc in S. apply seg_app in S as [_ S].
      fold (plen A) in S. cbn [flat map concat app] in S. rewrite !app_nil_r in S.
      pose proof (b_ents _ _ _ _ _ _ _ _ L) as O. apply Forall_app in O as [O1 O2]. apply Forall_app in O1 as [_ O1].
      apply Forall_app in Hp as [_ Hp]. rewrite plen_app in *.
      rewrite (find_some (fl s) ((l + 1) * Q) (h mod NP) B); try assumption; try lia.
      + f_equal. f_equal. lia.
      + inversion O2; assumption. }
  destruct X as (b & Eb & Ef). unfold recover_erase. eapply wp_bind_reads; [exact Eb|].
  eapply wp_bind_reads; [exact Ef|]. cbn iota beta.
  apply (wp_compact_erase F G R s h pre es).
  - exact L.
  - exact Ho.
  - apply (iw_win F G (h + 1) pre), Hr.
  - left. exact Hse.
  - intros f' L' O'. apply HR. right. right. right. right. exists h, pre, es. repeat (split; [assumption|]). assumption.
  - intros f' w Ow L'. apply HR. eapply rest_crash. apply Rw; eassumption.
  - intros s' w Ow L' Hh' Hn' He'. apply HP; [apply Hn'; exact Hse|]. eapply rest_cop, Rw; eassumption.
Qed.

Lemma no_erase_okop es : Forall okop es -> Forall noerase es.
Proof. intros H. eapply Forall_impl; [|exact H]. intros [| |[]|]; cbn; auto. Qed.
Lemma noerase_gap h pre es : Forall noerase (gapof F h pre es).
Proof. destruct (gapof_nil F h pre es) as [E|[_ (n & E)]]; rewrite E; repeat constructor. Qed.
Lemma noerase_copies A : Forall noerase (copies A).
Proof. apply Forall_forall. intros x Hx. apply filter_In in Hx as [_ Hx]. destruct x; try discriminate. exact Logic.I. Qed.

Lemma lay_after f h pre es J c L n : lay F f h (h + NP) pre es J c -> L < h + NP -> length J <= n ->
  (L + 1) * Q <= h * Q + pre + plen es + n \/ read_word F f (h * Q + pre + plen es + n) = ERASED.
Proof.
  intros Ly Hl Hn. destruct (Nat.le_gt_cases ((L + 1) * Q) (h * Q + pre + plen es + n)); [left; assumption|right].
  apply (b_blank _ _ _ _ _ _ _ _ Ly). assert ((L + 1) * Q <= (h + NP) * Q) by (apply Nat.mul_le_mono_r; lia). lia.
Qed.
Lemma harmless_nil f h pre es c L : lay F f h (h + NP) pre es [] c -> L < h + NP ->
  harmless f (h * Q + pre + plen es) ((L + 1) * Q).
Proof.
  intros Ly Hl. destruct (lay_after _ _ _ _ _ _ L 0 Ly Hl) as [H|H]; [cbn [length]; lia|left|]; rewrite Nat.add_0_r in H; [exact H|].
  apply harmless_blank, H.
Qed.

Definition Mid (m : kv) (f : flash) : Prop := Cop F m f \/ Ccompact F m f \/ Ccopy F m f.

Lemma op_no_erase f m : Cop F m f ->
  exists b, latest F f = Ok b /\ find_erase F f Q b (next_page F b) = Ok None.
Proof.
  intros (h & pre & es & J & L & Hb & Hr & Ho).
  eapply lay_find_none; [exact L|apply no_erase_okop; eapply opc_okop; exact Ho|].
  intros l Hl _. pose proof (seg_J F _ _ _ _ _ _ _ L) as SJ.
  assert (Hw : plen es + length J <= W).
  { destruct Hr as (Hi & _ & [->|H]); [pose proof (iw_win F G _ _ _ Hi); cbn [length]; lia|].
    pose proof (virt_win F G). lia. }
  destruct (opc_J _ _ _ Ho) as [->|[H|[H|(x & -> & Ox & Okx & Dx)]]].
  - eapply harmless_nil; [exact L|lia].
  - right. rewrite (parse_jg F G f _ J H SJ); [eexists _, _; split; [reflexivity|exact Logic.I]|].
    destruct H as (_ & H & _).
    pose proof (lay_blank F G _ _ _ _ _ _ (MP + 1 - length J) L ltac:(lia) Hw) as Bk.
    eapply blank_mono; [exact Bk|lia|lia].
  - right. rewrite (parse_ju F f _ J H SJ). eexists _, _. split; [reflexivity|exact Logic.I].
  - right. rewrite (parse_ent F G f _ x Ox); [|intros n ->; destruct Okx|exact SJ].
    eexists _, _. split; [reflexivity|]. destruct x as [k v|ws|i|n]; cbn [pent].
    + pose proof (eok_len F G _ Ox). split; [lia|]. apply (lay_after _ _ _ _ _ _ l (elen (Live k v)) L); [lia|unfold elen; lia].
    + destruct Dx. exact Logic.I.
    + destruct i; auto.
    + destruct Okx.
Qed.

Lemma copy_erase f m : Ccopy F m f ->
  Cerase F m f \/ exists b, latest F f = Ok b /\ find_erase F f Q b (next_page F b) = Ok None.
Proof.
  intros (h & pre & A1 & A2 & D & T & J & H). cbn zeta in H. destruct H as (L & Hc & Hr & Hp & Hn & Hm & Hl & E & Hpt).
  assert (Full : forall c, lay F f h (h + NP) pre (((A1 ++ A2) ++ gapof F h pre (A1 ++ A2)) ++ targets F h A1) [] c -> Cerase F m f).
  { intros c L'. destruct Hr as (R1 & R2 & _).
    destruct (compact_split F G f h pre A1 A2 c L' Hc Hp R1 R2 Hl) as
      (A & B & pre' & _ & _ & _ & _ & _ & _ & L4 & O4 & P4 & Rm4 & Pm4).
    exists h, pre', (B ++ copies A). split; [exact L4|]. split; [exact O4|]. split; [exact Rm4|]. split; [exact P4|].
    split; [|eapply perm_trans; eassumption]. eapply Permutation_NoDup; [|exact Hn]. unfold keys. apply Permutation_map, Permutation_sym, Pm4. }
  set (base := (A1 ++ A2) ++ gapof F h pre (A1 ++ A2)) in *.
  assert (Nb : Forall noerase base).
  { apply Forall_app. split; [apply no_erase_okop, plain_okop, Hp|apply noerase_gap]. }
  pose proof (NP_pos F G) as HNP.
  destruct T as [|x T].
  { assert (J = []) as -> by (destruct Hpt as [Z|(x & r & Z & _)]; [exact Z|discriminate]).
    left. rewrite app_nil_r in E. rewrite E in L. eapply Full. exact L. }
  unfold targets in E.
  assert (ED : exists T', copies A1 = D ++ T' /\ x :: T = T' ++ [Intl (IErase (h mod NP))]).
  { assert (Hne : x :: T <> []) by discriminate. destruct (exists_last Hne) as (T' & y & EY). rewrite EY in E.
    rewrite app_assoc in E. apply app_inj_tail in E as [E ->]. exists T'. split; [symmetry; exact E|exact EY]. }
  destruct ED as (T' & ED & ET).
  assert (ND : Forall noerase (base ++ D)).
  { apply Forall_app. split; [exact Nb|]. pose proof (noerase_copies A1) as X. rewrite ED in X. apply Forall_app in X. apply X. }
  destruct Hpt as [->|(x' & r & Ex & Lj & Sj & _)].
  { right. eapply lay_find_none; [exact L|exact ND|]. intros l Hll _. eapply harmless_nil; [exact L|lia]. }
  injection Ex as <- <-.
  destruct T' as [|y T'].
  - injection ET as -> ->. set (er := Intl (IErase (h mod NP))) in *.
    destruct J as [|w J]; [discriminate|]. destruct J; [|discriminate].
    pose proof (erase_ok F G h) as Oe. fold er in Oe.
    destruct (intl_facts F _ Oe) as (_ & _ & _ & _ & X).
    assert (Ww : w32 w) by (pose proof (b_w32 _ _ _ _ _ _ _ _ L) as Y; inversion Y; assumption).
    assert (Sw : sub (int_word (IErase (h mod NP))) w) by (apply (Sj 0); cbn [length]; lia).
    pose proof (seg_J F _ _ _ _ _ _ _ L) as SJ. apply seg_cons in SJ as [Hw _].
    destruct (N.eq_dec w (int_word (IErase (h mod NP)))) as [->|Nw].
    + set (t := h * Q + pre + plen (base ++ D)) in *.
      assert (Dec : inited F f h (h + NP) pre (base ++ D) [int_word (IErase (h mod NP))] \/
        exists j, h < j < h + NP /\ t = j * Q /\ vini F f j <> iword F j (target F t 1 j)).
      { destruct (Nat.eq_dec (t mod Q) 0) as [Z|Z].
        - pose proof (Q_pos F G) as HQ. assert (Et : t = (t / Q) * Q) by (pose proof (Nat.div_mod t Q ltac:(lia)); lia).
          assert (Uq : forall j, t <= j * Q < t + 1 -> j = t / Q).
          { intros j Hj. apply (Nat.mul_cancel_r _ _ Q); lia. }
          destruct (N.eq_dec (vini F f (t / Q)) (iword F (t / Q) (target F t 1 (t / Q)))) as [Y|Y].
          + left. intros j Hj Hjq. cbn [length] in Hjq |- *. fold t in Hjq |- *. rewrite (Uq j Hjq). exact Y.
          + destruct (Nat.le_gt_cases (t / Q) h) as [Z1|Z1]; [|destruct (Nat.le_gt_cases (h + NP) (t / Q)) as [Z2|Z2]].
            * left. intros j Hj Hjq. cbn [length] in Hjq. fold t in Hjq. rewrite (Uq j Hjq) in Hj. lia.
            * left. intros j Hj Hjq. cbn [length] in Hjq. fold t in Hjq. rewrite (Uq j Hjq) in Hj. lia.
            * right. exists (t / Q). repeat split; try assumption.
        - left. intros j Hj Hjq. cbn [length] in Hjq. fold t in Hjq. exfalso. apply Z.
          replace t with (j * Q) by lia. apply Nat.mod_mul. pose proof (Q_pos F G). lia. }
      destruct Dec as [In|(j & Hj & Et & Nj)].
      * left. eapply Full. unfold targets. rewrite ED, app_nil_r. fold er. rewrite app_assoc.
        eapply lay_settle; [exact G| |exact In| |].
        -- exact L.
        -- constructor; [exact Oe|constructor].
        -- intros [|a [|]] d D2 Ed; try discriminate. intros X0. destruct X0. reflexivity.
      * right. eapply lay_find_none; [exact L|exact ND|]. fold t. intros l Hll Hd. left. rewrite Et.
        apply Nat.mul_le_mono_r. rewrite Et in Hd. destruct Hd as [->|[Hd|(_ & Hd & Hv)]]; [lia| |].
        -- assert (l < j); [|lia]. apply (Nat.mul_lt_mono_pos_r Q); [apply (Q_pos F G)|exact Hd].
        -- exfalso. cbn [length] in Hd. assert (l = j) as -> by (apply (Nat.mul_cancel_r _ _ Q); [pose proof (Q_pos F G); lia|lia]).
           apply Nj. rewrite Et. exact Hv.
    + right. eapply lay_find_none; [exact L|exact ND|]. intros l Hll _. apply harmless_partial. unfold parse_entry. rewrite Hw.
      destruct (X w Ww Sw Nw) as [Y|Y]; rewrite Y; reflexivity.
  - cbn [app] in ET. injection ET as -> ->.
    assert (Iy : In y (copies A1)) by (rewrite ED; apply in_or_app; right; left; reflexivity).
    pose proof Iy as Iy2. apply filter_In in Iy as [Iy Ky]. destruct y as [k v| | |]; try discriminate.
    assert (Oy : eok F (Live k v)).
    { pose proof (b_ents _ _ _ _ _ _ _ _ L) as O. apply Forall_app in O as [O _]. unfold base in O.
      rewrite Forall_forall in O. apply O. apply in_or_app. left. apply in_or_app. left. exact Iy. }
    right. eapply lay_find_none; [exact L|exact ND|]. intros l Hll _. eapply harmless_part; try eassumption.
    apply Nat.mul_le_mono_r. lia.
Qed.

Lemma wp_recover_erase (R : flash -> Prop) s m (P : res store_error unit -> st -> Prop) :
  Used m (fl s) -> st_ents s = None -> (forall f', Crash F m f' -> R f') ->
  (forall s', st_ents s' = None -> Mid m (fl s') -> P (Ok tt) s') ->
  wp F R (recover_erase F) s P.
Proof.
  intros HU Hse HR HP.
  assert (K : Cerase F m (fl s) \/ (Mid m (fl s) /\ exists b, latest F (fl s) = Ok b /\ find_erase F (fl s) Q b (next_page F b) = Ok None)).
  { destruct HU as [H|[H|[H|H]]].
    - right. split; [left; exact H|]. eapply op_no_erase. exact H.
    - right. split; [right; left; exact H|]. destruct H as (h & pre & es & c & L & _ & _ & Hp & _).
      eapply lay_find_none; [exact L|apply no_erase_okop, plain_okop, Hp|]. intros l Hl _. eapply harmless_nil; [exact L|lia].
    - destruct (copy_erase _ _ H) as [X|X]; [left; exact X|right]. split; [right; right; exact H|exact X].
    - left. exact H. }
  destruct K as [K|(K & b & Eb & Ef)].
  - eapply wp_erase_shape; try eassumption. intros s' Hs' Hc. apply HP; [exact Hs'|left; exact Hc].
  - unfold recover_erase. eapply wp_bind_reads; [exact Eb|]. eapply wp_bind_reads; [exact Ef|]. cbn iota beta.
    apply wp_ret. apply HP; assumption.
Qed.

(* -------------------------------------------------------------------- compaction *)

Lemma wp_recover_compaction (R : flash -> Prop) s m (P : res store_error unit -> st -> Prop) :
  Mid m (fl s) -> st_ents s = None -> (forall f', Crash F m f' -> R f') ->
  (forall s' h pre es J, lay F (fl s') h (h + NP) pre es J ERASED -> based h pre es -> room F h pre es J ->
     opc F es J m -> st_head s' = Some (h * Q + pre) -> P (Ok tt) s') ->
  wp F R (recover_compaction F) s P.
Proof.
  intros HM Hse HR HP. unfold recover_compaction. pose proof (g_N F G) as HN. pose proof (g_M F G) as HMM.
  assert (Pg : forall f h pre es J c, lay F f h (h + NP) pre es J c ->
    oldest F f = Ok (h * Q + pre) /\ parse_compact F f (pos_page F (h * Q + pre)) = parse_compact_word F c).
  { intros f h pre es J c L. split; [eapply (lay_oldest F G); exact L|].
    pose proof (b_pre _ _ _ _ _ _ _ _ L). rewrite (pos_page_in F h) by lia. unfold parse_compact.
    fold (vcmp F f h). rewrite (b_cmp0 _ _ _ _ _ _ _ _ L). reflexivity. }
  destruct HM as [H|[H|H]].
  - destruct H as (h & pre & es & J & L & Hb & Hr & Ho). destruct (Pg _ _ _ _ _ _ L) as [P1 P2].
    eapply wp_bind_reads; [exact P1|]. apply wp_put_head. eapply wp_bind_reads.
    { cbn [fl set_head]. rewrite P2. apply erased_compact_parse. }
    cbn iota beta. apply wp_ret. apply (HP _ h pre es J); try assumption. reflexivity.
  - destruct H as (h & pre & es & c & L & Hb & Hr & Hp & Hn & Hm & Hl & C1 & C2 & C3).
    destruct (Pg _ _ _ _ _ _ L) as [P1 P2].
    eapply wp_bind_reads; [exact P1|]. apply wp_put_head. eapply wp_bind_reads.
    { cbn [fl set_head]. rewrite P2.
      destruct (base_small h pre es (b_pre _ _ _ _ _ _ _ _ L) (proj1 Hr)) as [X1 X2].
      destruct (compact_word_parse F _ X1 X2) as (_ & _ & _ & _ & X). apply X; try assumption.
      rewrite <- (b_cmp0 _ _ _ _ _ _ _ _ L). apply (b_ok _ _ _ _ _ _ _ _ L). }
    cbn iota beta. eapply (wp_compact F G R _ h pre es c m).
    + exact L.
    + exact C3.
    + exact Hb.
    + exact Hr.
    + exact Hp.
    + exact Hn.
    + exact Hm.
    + right. exact Hl.
    + reflexivity.
    + unfold ents_ok. cbn [st_ents set_head]. rewrite Hse. exact Logic.I.
    + exact HR.
    + intros X. exfalso. lia.
    + intros s' A B pre' w _ _ _ _ Rs Hh _ _. destruct Rs as (L' & Hb' & Hr' & Hp' & Hn' & Hm').
      eapply HP; try eassumption. left. repeat split; try assumption; [apply plain_soft; exact Hp'|left; reflexivity].
  - destruct H as (h & pre & A1 & A2 & D & T & J & H). cbn zeta in H. destruct H as (L & Hc & Hr & Hp & Hn & Hm & Hl & E & Hpt).
    destruct (Pg _ _ _ _ _ _ L) as [P1 P2].
    eapply wp_bind_reads; [exact P1|]. apply wp_put_head. eapply wp_bind_reads.
    { cbn [fl set_head]. rewrite P2.
      destruct (base_small h pre (A1 ++ A2) (b_pre _ _ _ _ _ _ _ _ L) (proj1 Hr)) as [X1 X2].
      destruct (compact_word_parse F _ X1 X2) as (_ & _ & _ & X & _). exact X. }
    cbn iota beta. eapply (wp_compact_copy F G R _ h pre A1 A2 D T J m); try assumption.
    + split; [exact L|]. split; assumption.
    + reflexivity.
    + unfold ents_ok. cbn [st_ents set_head]. rewrite Hse. exact Logic.I.
    + intros s' A B pre' w _ _ _ _ Rs Hh _ _. destruct Rs as (L' & Hb' & Hr' & Hp' & Hn' & Hm').
      eapply HP; try eassumption. left. repeat split; try assumption; [apply plain_soft; exact Hp'|left; reflexivity].
Qed.

(* ----------------------------------------------------------------------- recover *)

(** Whatever an interruption left, starting again succeeds and gives back the same content; if
    starting is interrupted in its turn, nothing is lost. *)
Lemma wp_recover (R : flash -> Prop) s m (P : res store_error unit -> st -> Prop) :
  Crash F m (fl s) -> st_ents s = None -> (forall f', Crash F m f' -> R f') ->
  (forall s', On F s' m -> P (Ok tt) s') ->
  wp F R (recover F) s P.
Proof.
  intros HC Hse HR HP. unfold recover. apply wp_bind.
  apply (wp_recover_initialize R s m); try assumption. intros f1 H1. apply wp_bind.
  eapply (wp_recover_erase R _ m); [exact H1|exact Hse|exact HR|]. intros s2 Hs2 H2. apply wp_bind.
  eapply (wp_recover_compaction R _ m); [exact H2|exact Hs2|exact HR|]. intros s3 h pre es J L Hb Hr Ho Hh.
  eapply (wp_recover_operation F G R m P HR HP); eassumption.
Qed.

End RECOVER.
