(** The entries a running store knows about: their positions, deleting them and finding them. *)
From Coq Require Import Permutation.
From Verif Require Import Base Facts.
From Verif.Kv Require Import Model.
From Verif.Store Require Import Format Bits Words Geom Model Wp Entries Layout Scan Steps.
Open Scope nat_scope.
Ltac Zify.zify_post_hook ::= idtac.

(** The positions of the entries with a value. *)
Fixpoint lpos (p : nat) (es : list ent) : list nat :=
  match es with
  | [] => []
  | Live k v :: r => p :: lpos (p + elen (Live k v)) r
  | e :: r => lpos (p + elen e) r
  end.
Lemma lpos_app p a b : lpos p (a ++ b) = lpos p a ++ lpos (p + plen a) b.
Proof.
  revert p. induction a as [|e a IH]; intros p.
  - cbn [app lpos]. rewrite plen_nil, Nat.add_0_r. reflexivity.
  - cbn [app]. rewrite plen_cons, Nat.add_assoc. destruct e; cbn [lpos app]; rewrite IH; reflexivity.
Qed.
Lemma lpos_in p es x : In x (lpos p es) <->
  exists A k v B, es = A ++ Live k v :: B /\ x = p + plen A.
Proof.
  revert p. induction es as [|e es IH]; intros p.
  - split; [intros []|]. intros (A & k & v & B & E & _). destruct A; discriminate.
  - assert (C : In x (lpos (p + elen e) es) <->
                exists A k v B, e :: es = (e :: A) ++ Live k v :: B /\ x = p + plen (e :: A)).
    { rewrite IH. split; intros (A & k & v & B & E & X); exists A, k, v, B.
      - split; [cbn [app]; rewrite E; reflexivity|rewrite plen_cons; lia].
      - cbn [app] in E. injection E as E. rewrite plen_cons in X. split; [exact E|lia]. }
    split.
    + intros H. assert (D : (exists k v, e = Live k v /\ x = p) \/ In x (lpos (p + elen e) es)).
      { destruct e; cbn [lpos] in H; auto. destruct H as [<-|H]; eauto. }
      destruct D as [(k & v & -> & ->)|D].
      * exists [], k, v, es. rewrite plen_nil. split; [reflexivity|lia].
      * apply C in D as (A & k & v & B & E & X). exists (e :: A), k, v, B. auto.
    + intros (A & k & v & B & E & X). destruct A as [|a A].
      * cbn [app] in E. injection E as -> ->. cbn [lpos]. left. rewrite X, plen_nil. lia.
      * cbn [app] in E. injection E as -> E.
        assert (D : In x (lpos (p + elen a) es)).
        { apply C. exists A, k, v, B. cbn [app]. rewrite E. auto. }
        destruct a; cbn [lpos]; auto. right. exact D.
Qed.
Lemma lpos_ge p es x : In x (lpos p es) -> p <= x.
Proof. intros H. apply lpos_in in H as (A & k & v & B & _ & ->). lia. Qed.

Lemma lives_cons e es : lives (e :: es) = lives1 e ++ lives es.
Proof. reflexivity. Qed.
Lemma lives_in k v es : In (k, v) (lives es) <-> exists A B, es = A ++ Live k v :: B.
Proof.
  unfold lives. rewrite in_flat_map. split.
  - intros (e & He & Hk). destruct e; cbn in Hk; try contradiction.
    destruct Hk as [E|[]]. injection E as <- <-.
    apply in_split in He as (A & B & ->). eauto.
  - intros (A & B & ->). exists (Live k v). split; [apply in_or_app; right; left; reflexivity|].
    left. reflexivity.
Qed.
Lemma live_len_cons e es : live_len (e :: es) =
  match e with Live k v => elen (Live k v) | _ => 0 end + live_len es.
Proof. unfold live_len. cbn [filter]. destruct e; rewrite ?plen_cons; reflexivity. Qed.

(* --------------------------------------------------------- the index of entries *)

Lemma removelast_last (l : list nat) d : l <> [] -> l = removelast l ++ [last l d].
Proof. apply app_removelast_last. Qed.
Lemma removelast_length {A} (l : list A) : length (removelast l) = length l - 1.
Proof.
  induction l as [|x l IH]; [reflexivity|]. destruct l; [reflexivity|].
  cbn [removelast length] in *. rewrite IH. lia.
Qed.
Lemma list_set_perm {A} (l : list A) i x y : nth_error l i = Some x ->
  Permutation (y :: l) (x :: list_set l i y).
Proof.
  revert i. induction l as [|z l IH]; intros i H.
  - destruct i; discriminate.
  - destruct i as [|i]; cbn [nth_error list_set] in *.
    + injection H as ->. apply perm_swap.
    + eapply perm_trans; [apply perm_swap|]. eapply perm_trans; [apply perm_skip, IH, H|]. apply perm_swap.
Qed.
Lemma nth_error_list_set {A} (l : list A) i x j : j < i -> nth_error (list_set l i x) j = nth_error l j.
Proof.
  revert i j. induction l as [|z l IH]; intros [|i] [|j] H; cbn [list_set nth_error]; try lia; auto.
  apply IH. lia.
Qed.
Lemma nth_error_removelast {A} (l : list A) j : j < length l - 1 ->
  nth_error (removelast l) j = nth_error l j.
Proof.
  intros H. destruct l as [|x l]; [cbn in H; lia|].
  rewrite (app_removelast_last x (l := x :: l)) at 2 by discriminate.
  symmetry. apply nth_error_app1. rewrite removelast_length. exact H.
Qed.
Lemma swap_remove_spec l i o : nth_error l i = Some o ->
  Permutation l (o :: swap_remove l i) /\
  (forall j, j < i -> nth_error (swap_remove l i) j = nth_error l j).
Proof.
  intros H. assert (Li : i < length l) by (apply nth_error_Some; congruence).
  assert (Ne : l <> []) by (destruct l; [cbn in Li; lia|discriminate]).
  unfold swap_remove. rewrite removelast_length. destruct (i =? length l - 1) eqn:E.
  - apply Nat.eqb_eq in E. assert (Eo : o = last l 0).
    { rewrite (removelast_last l 0 Ne) in H. rewrite nth_error_app2 in H by (rewrite removelast_length; lia).
      rewrite removelast_length, E, Nat.sub_diag in H. injection H as <-. reflexivity. }
    split.
    + rewrite (removelast_last l 0 Ne) at 1. rewrite Eo. apply Permutation_sym, Permutation_cons_append.
    + intros j Hj. apply nth_error_removelast. lia.
  - apply Nat.eqb_neq in E. assert (H' : nth_error (removelast l) i = Some o).
    { rewrite nth_error_removelast by lia. exact H. }
    split.
    + rewrite (removelast_last l 0 Ne) at 1. eapply perm_trans; [apply Permutation_sym, Permutation_cons_append|].
      apply list_set_perm, H'.
    + intros j Hj. rewrite nth_error_list_set by exact Hj. apply nth_error_removelast. lia.
Qed.
Lemma index_of_spec o l : In o l -> exists i, index_of o l = Some i /\ nth_error l i = Some o.
Proof.
  induction l as [|x l IH]; intros H; [destruct H|]. cbn [index_of].
  destruct (x =? o) eqn:E.
  - apply Nat.eqb_eq in E. subst x. exists 0. auto.
  - apply Nat.eqb_neq in E. destruct H as [H|H]; [congruence|].
    destruct (IH H) as (i & -> & Hi). exists (Datatypes.S i). auto.
Qed.

Definition nomatch (del : N -> bool) (es : list ent) : Prop :=
  forall A k v B, es = A ++ Live k v :: B -> del k = false.
(** Some of the entries in [es] with a key [del] have been deleted. *)
Definition wiping1 (del : N -> bool) (e e' : ent) : Prop :=
  e' = e \/ exists k v ws, e = Live k v /\ del k = true /\ e' = Dead ws /\ length ws = elen e.
Definition wiping (del : N -> bool) : list ent -> list ent -> Prop := Forall2 (wiping1 del).
Lemma wiping_refl del es : wiping del es es.
Proof. induction es; constructor; [left; reflexivity|exact IHes]. Qed.
Lemma wiping_plen del es es' : wiping del es es' -> plen es' = plen es.
Proof.
  induction 1 as [|e e' es es' H _ IH]; [reflexivity|]. rewrite !plen_cons, IH.
  destruct H as [->|(k & v & ws & -> & _ & -> & L)]; [reflexivity|].
  unfold elen at 1. cbn [ewords]. lia.
Qed.
Lemma wiping_set del es A k v B ws : wiping del es (A ++ Live k v :: B) -> del k = true ->
  length ws = elen (Live k v) -> wiping del es (A ++ Dead ws :: B).
Proof.
  intros H Hd L. apply Forall2_app_inv_r in H as (A0 & B0 & HA & HB & ->).
  inversion HB as [|x y X Y Hx HY]; subst. apply Forall2_app; [exact HA|].
  constructor; [|exact HY]. right. destruct Hx as [<-|(k0 & v0 & ws0 & _ & _ & E & _)]; [|discriminate].
  exists k, v, ws. auto.
Qed.
Lemma wiping_live del es A k v B : wiping del es (A ++ Live k v :: B) -> exists A0 B0, es = A0 ++ Live k v :: B0.
Proof.
  intros H. apply Forall2_app_inv_r in H as (A0 & B0 & HA & HB & ->).
  inversion HB as [|x y X Y Hx HY]; subst.
  destruct Hx as [<-|(k0 & v0 & ws0 & _ & _ & E & _)]; [|discriminate]. eauto.
Qed.
(** What is left once they all are. *)
Lemma wiping_lives del es es' : wiping del es es' -> nomatch del es' ->
  lives es' = filter (fun p => negb (del (fst p))) (lives es).
Proof.
  induction 1 as [|e e' es es' H _ IH]; intros Hn; [reflexivity|].
  assert (Hn' : nomatch del es').
  { intros A k v B E. apply (Hn (e' :: A) k v B). cbn [app]. rewrite E. reflexivity. }
  rewrite !lives_cons, IH by exact Hn'. rewrite filter_app. f_equal.
  destruct H as [->|(k & v & ws & -> & Hd & -> & _)].
  - destruct e as [k v|ws|i|n]; try reflexivity. cbn [lives1 filter fst].
    rewrite (Hn [] k v es' eq_refl). reflexivity.
  - cbn [lives1 filter fst]. rewrite Hd. reflexivity.
Qed.
Lemma wiping_filter del es es' : wiping del es es' ->
  filter (fun p => negb (del (fst p))) (lives es') = filter (fun p => negb (del (fst p))) (lives es).
Proof.
  induction 1 as [|e e' es es' H _ IH]; [reflexivity|].
  rewrite !lives_cons, !filter_app, IH. f_equal.
  destruct H as [->|(k & v & ws & -> & Hd & -> & _)]; [reflexivity|].
  cbn [lives1 filter fst]. rewrite Hd. reflexivity.
Qed.

Section ENTS.
Variable F : format.
Hypothesis G : wff F.
Notation Q := (virt_page_size F).
Notation NP := (num_pages F).
Notation MP := (max_prefix F).
Notation W := (window_size F).

Lemma window_small : (N.of_nat W <= 65535)%N.
Proof.
  pose proof (window_eq F G). pose proof (g_Q F G). pose proof (g_N F G).
  assert ((NP - 1) * Q <= 63 * Q) by (apply Nat.mul_le_mono_r; lia). lia.
Qed.
Lemma pages_small : (N.of_nat (NP * Q) <= 65535)%N.
Proof.
  pose proof (g_N F G). pose proof (g_Q F G).
  assert (NP * Q <= 64 * 1022) by (apply Nat.mul_le_mono; lia). lia.
Qed.
Lemma lpos_lt p es x : Forall (eok F) es -> In x (lpos p es) -> x < p + plen es.
Proof.
  intros H Hx. apply lpos_in in Hx as (A & k & v & B & -> & ->).
  rewrite plen_app, plen_cons. apply Forall_app in H as [_ H]. inversion H as [|e0 es0 He Hr]; subst.
  pose proof (eok_len F G _ He). lia.
Qed.
Lemma lpos_nodup p es : Forall (eok F) es -> NoDup (lpos p es).
Proof.
  revert p. induction es as [|e es IH]; intros p H; [constructor|].
  inversion H as [|e0 es0 He Hr]; subst. pose proof (eok_len F G _ He).
  destruct e; cbn [lpos]; auto. constructor; [|auto].
  intros X. apply lpos_ge in X. lia.
Qed.
(** Positions identify entries. *)
Lemma pos_inj es A x B A' x' B' : Forall (eok F) es ->
  es = A ++ x :: B -> es = A' ++ x' :: B' -> plen A = plen A' -> A = A' /\ x = x' /\ B = B'.
Proof.
  revert es A'. induction A as [|a A IH]; intros es A' H E E' L.
  - destruct A' as [|a' A'].
    + cbn [app] in *. rewrite E in E'. injection E' as -> ->. auto.
    + exfalso. rewrite E' in H. cbn [app] in H. inversion H as [|? ? Ha _]; subst.
      pose proof (eok_len F G _ Ha). rewrite plen_nil, plen_cons in L. lia.
  - destruct A' as [|a' A'].
    + exfalso. rewrite E in H. cbn [app] in H. inversion H as [|? ? Ha _]; subst.
      pose proof (eok_len F G _ Ha). rewrite plen_nil, plen_cons in L. lia.
    + rewrite E in E'. cbn [app] in E'. injection E' as -> E'. rewrite !plen_cons in L.
      rewrite E in H. cbn [app] in H. inversion H as [|? ? Ha Hr]; subst.
      destruct (IH _ A' Hr eq_refl E' ltac:(lia)) as (-> & -> & ->). auto.
Qed.
Lemma lpos_swap p A k v B (ws : list N) : length ws = elen (Live k v) ->
  Permutation (lpos p (A ++ Live k v :: B)) (p + plen A :: lpos p (A ++ Dead ws :: B)).
Proof.
  intros L. rewrite !lpos_app. cbn [lpos]. unfold elen at 2. cbn [ewords]. rewrite L.
  apply Permutation_sym, Permutation_middle.
Qed.

(* ------------------------------------------------------------- push and remove *)

Definition ents_ok (s : st) (hpos : nat) (ps : list nat) : Prop :=
  match st_ents s with
  | None => True
  | Some l => Permutation (map (Nat.add hpos) l) ps
  end.
Lemma wp_offset_of {A} (R : flash -> Prop) (k : nat -> M A) s pos hpos P :
  hpos <= pos <= hpos + NP * Q -> wp F R (k (pos - hpos)) s P -> wp F R (bind (offset_of pos hpos) k) s P.
Proof.
  intros H Hk. pose proof pages_small. unfold offset_of.
  replace (pos <? hpos) with false by (symmetry; apply Nat.ltb_ge; lia).
  replace (65535 <? N.of_nat (pos - hpos))%N with false by (symmetry; apply N.ltb_ge; lia).
  apply wp_bind_ret, Hk.
Qed.
Lemma set_ents_same s : set_ents s (st_ents s) = s.
Proof. destruct s; reflexivity. Qed.
Lemma wp_push (R : flash -> Prop) s hpos pos (P : res store_error unit -> st -> Prop) :
  st_head s = Some hpos -> hpos <= pos <= hpos + NP * Q ->
  P (Ok tt) (set_ents s (option_map (fun l => l ++ [pos - hpos]) (st_ents s))) ->
  wp F R (push_entry pos) s P.
Proof.
  intros Hh Hp HP. unfold push_entry. apply wp_the_ents. destruct (st_ents s) as [l|] eqn:E.
  - eapply wp_the_head; [exact Hh|]. apply wp_offset_of; [exact Hp|].
    split; [constructor|]. exact HP.
  - apply wp_ret. cbn [option_map] in HP. rewrite <- E, set_ents_same in HP. exact HP.
Qed.
Lemma ents_push s hpos pos ps : hpos <= pos -> ents_ok s hpos ps ->
  ents_ok (set_ents s (option_map (fun l => l ++ [pos - hpos]) (st_ents s))) hpos (ps ++ [pos]).
Proof.
  intros Hp H. unfold ents_ok in *. cbn [st_ents set_ents]. destruct (st_ents s) as [l|]; [|exact Logic.I].
  cbn [option_map]. rewrite map_app. cbn [map]. replace (hpos + (pos - hpos)) with pos by lia.
  apply Permutation_app_tail, H.
Qed.
Lemma wp_remove_entry (R : flash -> Prop) s hpos pos ps (P : res store_error unit -> st -> Prop) :
  st_head s = Some hpos -> hpos <= pos <= hpos + NP * Q -> ents_ok s hpos (pos :: ps) ->
  (forall l', (st_ents s = None <-> l' = None) -> ents_ok (set_ents s l') hpos ps ->
     P (Ok tt) (set_ents s l')) ->
  wp F R (remove_entry pos) s P.
Proof.
  intros Hh Hp He HP. unfold remove_entry. apply wp_the_ents. unfold ents_ok in He.
  destruct (st_ents s) as [l|] eqn:E.
  - eapply wp_the_head; [exact Hh|]. apply wp_offset_of; [exact Hp|].
    assert (Ho : In (pos - hpos) l).
    { assert (X : In pos (map (Nat.add hpos) l)) by (apply (Permutation_in _ (Permutation_sym He)); left; reflexivity).
      apply in_map_iff in X as (o & Eo & Ho). replace (pos - hpos) with o by lia. exact Ho. }
    destruct (index_of_spec _ _ Ho) as (i & Ei & Ni). rewrite Ei. cbn [or_invalid].
    apply wp_bind_ret. split; [constructor|]. apply HP; [split; discriminate|].
    unfold ents_ok. cbn [st_ents set_ents]. destruct (swap_remove_spec _ _ _ Ni) as [Pm _].
    apply (Permutation_map (Nat.add hpos)) in Pm. cbn [map] in Pm.
    replace (hpos + (pos - hpos)) with pos in Pm by lia.
    apply Permutation_cons_inv with pos. eapply perm_trans; [apply Permutation_sym, Pm|exact He].
  - apply wp_ret. specialize (HP None). rewrite <- E, set_ents_same in HP. apply HP.
    + split; auto.
    + unfold ents_ok. rewrite E. exact Logic.I.
Qed.

(* ------------------------------------------------------------------- delete_if *)

Lemma wp_delete_loop (R : flash -> Prop) h e pre eb J c del ea0 (X : list nat) (P : res store_error (list nat) -> st -> Prop) :
  (forall p, In p X -> h * Q + pre + plen ea0 <= p) ->
  forall fuel l i s ea,
  lay F (fl s) h e pre (ea ++ eb) J c -> wiping del ea0 ea ->
  Permutation (map (Nat.add (h * Q + pre)) l) (lpos (h * Q + pre) ea ++ X) ->
  length l - i <= fuel ->
  (forall j o A k v B, j < i -> nth_error l j = Some o -> ea = A ++ Live k v :: B ->
     plen A = o -> del k = false) ->
  ((forall o, In o l -> o < plen ea) \/ nomatch del ea \/
   (exists xs o, l = xs ++ [o] /\ (forall o', In o' xs -> o' < plen ea) /\
      forall A k v B, ea = A ++ Live k v :: B -> del k = true -> nomatch del (A ++ B))) ->
  (forall f' ea', wiping del ea0 ea' -> lay F f' h e pre (ea' ++ eb) J c -> R f') ->
  (forall f' ea' l', wiping del ea0 ea' -> nomatch del ea' -> lay F f' h e pre (ea' ++ eb) J c ->
     Permutation (map (Nat.add (h * Q + pre)) l') (lpos (h * Q + pre) ea' ++ X) ->
     P (Ok l') (set_fl s f')) ->
  wp F R (delete_loop F fuel (h * Q + pre) (h * Q + pre + plen ea) del l i) s P.
Proof.
  intros HX. induction fuel as [|fuel IH]; intros l i s ea L Hw Hp Hf Hpre Hcase HR HP.
  all: set (hpos := h * Q + pre) in *.
  all: assert (Hok : Forall (eok F) (ea ++ eb)) by apply (b_ents _ _ _ _ _ _ _ _ L).
  all: assert (Done : (forall j o, i <= j -> nth_error l j = Some o -> plen ea <= o) ->
       wp F R (ret l) s P).
  1, 3: intros Hrest; apply wp_ret; rewrite <- (set_fl_same s); apply (HP (fl s) ea l Hw); try assumption.
  1, 2: intros A k v B E; assert (Hin : In (hpos + plen A) (map (Nat.add hpos) l)) by
     (apply (Permutation_in _ (Permutation_sym Hp)); apply in_or_app; left; apply lpos_in; exists A, k, v, B;
      auto);
     apply in_map_iff in Hin as (o & Eo & Ho); apply In_nth_error in Ho as (j & Hj);
     assert (Eo' : o = plen A) by lia;
     destruct (Nat.lt_ge_cases j i) as [C|C]; [apply (Hpre j o A k v B C Hj E); lia|];
     exfalso; specialize (Hrest j o C Hj); rewrite E, plen_app, plen_cons in Hrest;
     rewrite E, <- app_assoc in Hok; apply Forall_app in Hok as [_ Hok]; cbn [app] in Hok;
     inversion Hok as [|e0 es0 He0 _]; subst; pose proof (eok_len F G _ He0); lia.
  - cbn [delete_loop]. assert (En : nth_error l i = None) by (apply nth_error_None; lia). rewrite En.
    apply Done. intros j o Hj Hn. exfalso.
    assert (j < length l) by (apply nth_error_Some; congruence). lia.
  - cbn [delete_loop]. destruct (nth_error l i) as [o|] eqn:En.
    2:{ apply Done. intros j o Hj Hn. exfalso. apply nth_error_None in En.
        assert (j < length l) by (apply nth_error_Some; congruence). lia. }
    assert (Li : i < length l) by (apply nth_error_Some; congruence).
    destruct (hpos + plen ea <=? hpos + o) eqn:El.
    { apply Nat.leb_le in El. destruct Hcase as [Hc|[Hc|(xs & o1 & Ex & Hx & Hc)]].
      - exfalso. specialize (Hc o (nth_error_In _ _ En)). lia.
      - apply wp_ret. rewrite <- (set_fl_same s). apply (HP (fl s) ea l); assumption.
      - assert (Ei : i = length xs).
        { destruct (Nat.lt_ge_cases i (length xs)) as [C|C].
          - exfalso. rewrite Ex, nth_error_app1 in En by exact C.
            specialize (Hx o (nth_error_In _ _ En)). lia.
          - rewrite Ex, app_length in Li. cbn [length] in Li. lia. }
        apply Done. intros j o2 Hj Hn. assert (j < length l) by (apply nth_error_Some; congruence).
        rewrite Ex, app_length in H. cbn [length] in H. assert (j = i) by lia. subst j.
        rewrite En in Hn. injection Hn as <-. lia. }
    apply Nat.leb_gt in El.
    assert (Hin : In (hpos + o) (lpos hpos ea ++ X)).
    { apply (Permutation_in _ Hp). apply in_map. eapply nth_error_In; exact En. }
    apply in_app_or in Hin as [Hin|Hin].
    2:{ exfalso. specialize (HX _ Hin). rewrite (wiping_plen _ _ _ Hw) in El. lia. }
    apply lpos_in in Hin as (A & k & v & r & Ea & Ho). assert (Eo : o = plen A) by lia. subst o.
    assert (L' : lay F (fl s) h e pre (A ++ Live k v :: (r ++ eb)) J c).
    { rewrite Ea, <- app_assoc in L. exact L. }
    eapply wp_bind_reads; [apply (lay_parse F G _ _ _ _ _ _ _ _ _ L'); exact Logic.I|].
    cbn [fst pent h_key h_length]. destruct (del k) eqn:Hd.
    + apply wp_bind. apply (wp_delete_pos F G R s h e pre A k v (r ++ eb) J c); [exact L'| | |].
      * intros f' Lf. apply (HR f' ea Hw). rewrite Ea, <- app_assoc. exact Lf.
      * intros f' ws Lw Lf. apply (HR f' (A ++ Dead ws :: r)).
        -- apply (wiping_set del ea0 A k v r ws); [rewrite <- Ea; exact Hw|exact Hd|exact Lw].
        -- rewrite <- app_assoc. exact Lf.
      * intros f' ws Lw Lf.
        assert (El' : elen (Dead ws) = elen (Live k v)) by (unfold elen at 1; cbn [ewords]; exact Lw).
        assert (Ep : plen (A ++ Dead ws :: r) = plen ea).
        { rewrite Ea, !plen_app, !plen_cons, El'. reflexivity. }
        destruct (swap_remove_spec _ _ _ En) as [Pm Nm]. rewrite <- Ep.
        assert (Ll : length (swap_remove l i) = length l - 1).
        { apply Permutation_length in Pm. cbn [length] in Pm. lia. }
        apply IH.
        -- rewrite <- app_assoc. exact Lf.
        -- apply (wiping_set del ea0 A k v r ws); [rewrite <- Ea; exact Hw|exact Hd|exact Lw].
        -- apply Permutation_cons_inv with (hpos + plen A).
           change (h * Q + pre) with hpos. rewrite app_comm_cons.
           eapply perm_trans; [|apply Permutation_app_tail, (lpos_swap hpos A k v r ws Lw)].
           rewrite Ea in Hp. eapply perm_trans; [|exact Hp].
           apply Permutation_sym. apply (Permutation_map (Nat.add hpos)) in Pm. exact Pm.
        -- lia.
        -- intros j o A1 k1 v1 B1 Hj Hn E1 Ho1. rewrite Nm in Hn by exact Hj.
           (* the entry was there before *)
           assert (Xx : exists A2 B2, ea = A2 ++ Live k1 v1 :: B2 /\ plen A2 = plen A1).
           { assert (Wx : wiping (fun _ => true) ea (A ++ Dead ws :: r)).
             { apply (wiping_set _ ea A k v r ws); [rewrite Ea; apply wiping_refl|reflexivity|exact Lw]. }
             rewrite E1 in Wx. apply Forall2_app_inv_r in Wx as (A2 & B2 & HA & HB & E2).
             inversion HB as [|x y X1 Y Hx HY]; subst.
             destruct Hx as [<-|(k0 & v0 & ws0 & _ & _ & E3 & _)]; [|discriminate].
             exists A2, X1. split; [exact E2|]. symmetry. eapply wiping_plen. exact HA. }
           destruct Xx as (A2 & B2 & E2 & P2). apply (Hpre j o A2 k1 v1 B2 Hj Hn E2). lia.
        -- rewrite Ep. destruct Hcase as [Hc|[Hc|(xs & o1 & Ex & Hx & Hc)]].
           ++ left. intros o Ho1. apply Hc. apply (Permutation_in _ (Permutation_sym Pm)). right. exact Ho1.
           ++ exfalso. specialize (Hc A k v r Ea). congruence.
           ++ right. left. specialize (Hc A k v r Ea Hd). intros A1 k1 v1 B1 E1.
              destruct (app_inj_mid (Live k1 v1) A1 B1 A (Dead ws :: r) (eq_sym E1))
                as [(r1 & E2 & E3)|(r1 & E2 & E3)].
              ** apply (Hc A1 k1 v1 (r1 ++ r)). rewrite E2, <- app_assoc. reflexivity.
              ** destruct r1 as [|x r1]; [discriminate|]. cbn [app] in E3. injection E3 as <- E3.
                 apply (Hc (A ++ r1) k1 v1 B1). rewrite E3, <- app_assoc. reflexivity.
        -- exact HR.
        -- intros f2 ea' l' Hw' Hn' L2 Hp'. apply (HP f2 ea' l'); assumption.
    + apply IH.
      * exact L.
      * exact Hw.
      * exact Hp.
      * lia.
      * intros j o A1 k1 v1 B1 Hj Hn E1 Ho1. destruct (Nat.eq_dec j i) as [->|C].
        -- rewrite En in Hn. injection Hn as <-.
           assert (Oea : Forall (eok F) ea) by (apply Forall_app in Hok; apply Hok).
           destruct (pos_inj ea _ _ _ _ _ _ Oea Ea E1) as (_ & Ex & _); [lia|].
           injection Ex as <- _. exact Hd.
        -- apply (Hpre j o A1 k1 v1 B1); try assumption. lia.
      * exact Hcase.
      * exact HR.
      * exact HP.
Qed.

Lemma wp_delete_if (R : flash -> Prop) s h e pre ea eb J c del l (X : list nat) (P : res store_error unit -> st -> Prop) :
  lay F (fl s) h e pre (ea ++ eb) J c ->
  (forall p, In p X -> h * Q + pre + plen ea <= p) ->
  st_head s = Some (h * Q + pre) -> st_ents s = Some l ->
  Permutation (map (Nat.add (h * Q + pre)) l) (lpos (h * Q + pre) ea ++ X) ->
  ((forall o, In o l -> o < plen ea) \/ nomatch del ea \/
   (exists xs o, l = xs ++ [o] /\ (forall o', In o' xs -> o' < plen ea) /\
      forall A k v B, ea = A ++ Live k v :: B -> del k = true -> nomatch del (A ++ B))) ->
  (forall f' ea', wiping del ea ea' -> lay F f' h e pre (ea' ++ eb) J c -> R f') ->
  (forall f' ea' l', wiping del ea ea' -> nomatch del ea' -> lay F f' h e pre (ea' ++ eb) J c ->
     Permutation (map (Nat.add (h * Q + pre)) l') (lpos (h * Q + pre) ea' ++ X) ->
     P (Ok tt) (set_ents (set_fl s f') (Some l'))) ->
  wp F R (delete_if F (h * Q + pre + plen ea) del) s P.
Proof.
  intros L HX Hh He Hp Hc HR HP. unfold delete_if. eapply wp_the_head; [exact Hh|].
  apply wp_the_ents. rewrite He. cbn [or_invalid]. apply wp_bind_ret. apply wp_put_ents. apply wp_bind.
  apply (wp_delete_loop R h e pre eb J c del ea X _ HX (length l) l 0 (set_ents s None) ea).
  - exact L.
  - apply wiping_refl.
  - exact Hp.
  - lia.
  - intros j. lia.
  - exact Hc.
  - exact HR.
  - intros f' ea' l' Hw Hn Lf Hp'. split; [constructor|]. apply (HP f' ea' l'); assumption.
Qed.

(* ------------------------------------------------------------- find and iterate *)

Definition hdr (k : N) (v : bytes) : header := mkHeader (flip_of v) (length v) k (footer_zeros v).
Lemma handles_spec f h e pre es J c : lay F f h e pre es J c ->
  forall l, (forall o, In o l -> In (h * Q + pre + o) (lpos (h * Q + pre) es)) ->
  exists hs, handles F f (h * Q + pre) l = Ok hs /\ map fst hs = map (Nat.add (h * Q + pre)) l /\
    Forall (fun x => exists A k v B, es = A ++ Live k v :: B /\ fst x = h * Q + pre + plen A /\
                                     snd x = hdr k v) hs.
Proof.
  intros L. induction l as [|o l IH]; intros H.
  - exists []. auto.
  - destruct (IH (fun o' Ho => H o' (or_intror Ho))) as (hs & E1 & E2 & E3).
    pose proof (H o (or_introl eq_refl)) as Ho.
    apply lpos_in in Ho as (A & k & v & B & E & Eo).
    exists ((h * Q + pre + o, hdr k v) :: hs). cbn [handles].
    subst es. rewrite Eo. rewrite (lay_parse F G _ _ _ _ _ _ _ _ _ L) by exact Logic.I.
    cbn [rbind fst pent]. rewrite E1. cbn [rbind map fst]. rewrite E2, Eo.
    split; [reflexivity|]. split; [reflexivity|]. constructor; [|exact E3].
    exists A, k, v, B. auto.
Qed.
Definition hsum (hs : list (nat * header)) : nat :=
  fold_right (fun h n => 1 + to_words (h_length (snd h)) + n) 0 hs.
Lemma hsum_perm a b : Permutation a b -> hsum a = hsum b.
Proof. unfold hsum. induction 1; cbn [fold_right]; lia. Qed.
Fixpoint hents (p : nat) (es : list ent) : list (nat * header) :=
  match es with
  | [] => []
  | Live k v :: r => (p, hdr k v) :: hents (p + elen (Live k v)) r
  | e :: r => hents (p + elen e) r
  end.
Lemma hents_fst p es : map fst (hents p es) = lpos p es.
Proof.
  revert p. induction es as [|e es IH]; intros p; [reflexivity|].
  destruct e; cbn [hents lpos map fst]; rewrite IH; reflexivity.
Qed.
Lemma hents_in p A k v B : In (p + plen A, hdr k v) (hents p (A ++ Live k v :: B)).
Proof.
  revert p. induction A as [|a A IH]; intros p.
  - rewrite plen_nil, Nat.add_0_r. cbn [app hents]. left. reflexivity.
  - cbn [app]. rewrite plen_cons, Nat.add_assoc. destruct a; cbn [hents]; auto. right. apply IH.
Qed.
Lemma hents_sum p es : Forall (eok F) es -> hsum (hents p es) = live_len es.
Proof.
  intros H. revert p. induction H as [|e es He H IH]; intros p; [reflexivity|].
  rewrite live_len_cons. destruct e as [k v|ws|i|n]; cbn [hents]; try (rewrite IH; lia).
  unfold hsum. cbn [fold_right]. fold (hsum (hents (p + elen (Live k v)) es)). rewrite IH.
  cbn [snd h_length hdr]. destruct (live_elen F G k v He) as [-> _]. lia.
Qed.

Lemma wp_used (R : flash -> Prop) s h e pre es J c l (P : res store_error nat -> st -> Prop) :
  lay F (fl s) h e pre es J c -> st_head s = Some (h * Q + pre) -> st_ents s = Some l ->
  Permutation (map (Nat.add (h * Q + pre)) l) (lpos (h * Q + pre) es) ->
  P (Ok (live_len es)) s -> wp F R (used F) s P.
Proof.
  intros L Hh He Hp HP. unfold used, iter. apply wp_bind. eapply wp_the_head; [exact Hh|].
  apply wp_the_ents. rewrite He. cbn [or_invalid]. apply wp_bind_ret.
  destruct (handles_spec _ _ _ _ _ _ _ L l) as (hs & E1 & E2 & E3).
  { intros o Ho. apply (Permutation_in _ Hp). apply in_map. exact Ho. }
  apply wp_reads. rewrite E1. apply wp_ret. fold (hsum hs).
  assert (Hok : Forall (eok F) es) by apply (b_ents _ _ _ _ _ _ _ _ L).
  replace (hsum hs) with (live_len es); [exact HP|].
  rewrite <- (hents_sum (h * Q + pre) es Hok). symmetry. apply hsum_perm.
  apply NoDup_Permutation_bis.
  - apply (NoDup_map_inv fst). rewrite E2. eapply Permutation_NoDup; [apply Permutation_sym, Hp|].
    apply lpos_nodup, Hok.
  - apply Nat.eq_le_incl. transitivity (length (map fst hs)); [|apply map_length].
    transitivity (length (map fst (hents (h * Q + pre) es))); [symmetry; apply map_length|].
    rewrite E2, hents_fst. symmetry. apply Permutation_length, Hp.
  - intros x Hx. rewrite Forall_forall in E3. destruct (E3 x Hx) as (A & k & v & B & E & X1 & X2).
    destruct x as [p hd]. cbn [fst snd] in *. subst p hd es. apply hents_in.
Qed.

Lemma find_handle_spec f h e pre es J c key : lay F f h e pre es J c ->
  forall l, (forall o, In o l -> In (h * Q + pre + o) (lpos (h * Q + pre) es)) ->
  (exists A v B, es = A ++ Live key v :: B /\ In (plen A) l /\
     find_handle F f (h * Q + pre) l key = Ok (Some (h * Q + pre + plen A))) \/
  ((forall A v B, es = A ++ Live key v :: B -> ~ In (plen A) l) /\
   find_handle F f (h * Q + pre) l key = Ok None).
Proof.
  intros L. assert (Hok : Forall (eok F) es) by apply (b_ents _ _ _ _ _ _ _ _ L).
  induction l as [|o l IH]; intros H.
  - right. split; [intros A v B _ []|reflexivity].
  - pose proof (H o (or_introl eq_refl)) as Ho. apply lpos_in in Ho as (A & k & v & B & E & Eo).
    assert (Eo' : o = plen A) by lia. subst o. cbn [find_handle].
    rewrite E in L. rewrite (lay_parse F G _ _ _ _ _ _ _ _ _ L) by exact Logic.I.
    cbn [rbind fst pent h_key]. destruct (k =? key)%N eqn:Ek.
    + apply N.eqb_eq in Ek. subst k. left. exists A, v, B.
      split; [exact E|]. split; [left; reflexivity|reflexivity].
    + apply N.eqb_neq in Ek. destruct (IH (fun o' Ho => H o' (or_intror Ho)))
        as [(A1 & v1 & B1 & E1 & I1 & F1)|[N1 F1]].
      * left. exists A1, v1, B1. split; [exact E1|]. split; [right; exact I1|exact F1].
      * right. split; [|exact F1]. intros A1 v1 B1 E1 [X|X]; [|apply (N1 A1 v1 B1 E1 X)].
        destruct (pos_inj es _ _ _ _ _ _ Hok E E1) as (_ & X2 & _); [lia|]. congruence.
Qed.
Lemma wp_find (R : flash -> Prop) s h e pre es J c l key (P : res store_error (option bytes) -> st -> Prop) :
  lay F (fl s) h e pre es J c -> st_head s = Some (h * Q + pre) -> st_ents s = Some l ->
  Permutation (map (Nat.add (h * Q + pre)) l) (lpos (h * Q + pre) es) ->
  NoDup (map fst (lives es)) ->
  P (Ok (kv_get (lives es) key)) s -> wp F R (find F key) s P.
Proof.
  intros L Hh He Hp Hnd HP. unfold find. eapply wp_the_head; [exact Hh|].
  apply wp_the_ents. rewrite He. cbn [or_invalid]. apply wp_bind_ret.
  assert (Hl : forall o, In o l -> In (h * Q + pre + o) (lpos (h * Q + pre) es)).
  { intros o Ho. apply (Permutation_in _ Hp). apply in_map. exact Ho. }
  destruct (find_handle_spec _ _ _ _ _ _ _ key L l Hl) as [(A & v & B & E & I & Fh)|[Nn Fh]].
  - eapply wp_bind_reads; [exact Fh|]. apply wp_bind. unfold get_value.
    eapply wp_the_head; [exact Hh|].
    replace (h * Q + pre + plen A <? h * Q + pre) with false by (symmetry; apply Nat.ltb_ge; lia).
    apply wp_reads. rewrite E in L. rewrite (lay_parse F G _ _ _ _ _ _ _ _ _ L) by exact Logic.I.
    pose proof (lay_seg_at F _ _ _ _ _ _ _ _ _ L) as Sg.
    pose proof (lay_ok_at F _ _ _ _ _ _ _ _ _ L) as (Hk & Hv & Hlen). cbn [ewords] in Sg.
    pose proof (live_facts F G key v (conj Hk (conj Hv Hlen))) as (_ & Eu & _).
    rewrite Eu in Sg. apply seg_cons in Sg as [_ Sg]. apply seg_words in Sg.
    rewrite value_words_length in Sg.
    cbn [rbind fst pent h_length h_flipped]. rewrite Sg.
    rewrite E in HP. rewrite E in Hnd.
    assert (Ev : kv_get (lives (A ++ Live key v :: B)) key = Some v).
    { rewrite lives_app, lives_cons in *. cbn [lives1 app] in *. clear - Hnd.
      induction (lives A) as [|[k0 v0] m IH]; cbn [app kv_get map fst] in *.
      - rewrite N.eqb_refl. reflexivity.
      - inversion Hnd as [|? ? Hni Hnd']; subst. destruct (k0 =? key)%N eqn:Ek; [|auto].
        exfalso. apply N.eqb_eq in Ek. subst k0. apply Hni. rewrite map_app. apply in_or_app.
        right. left. reflexivity. }
    rewrite Ev in HP. pose proof (value_roundtrip v Hv) as VR. unfold value_of in VR.
    assert (Ne : flip_of v = true -> v <> []) by (intros X ->; discriminate X).
    match goal with |- context [match ?r with Ok _ => _ | Err _ => _ end] =>
      replace r with (Ok v : res store_error bytes) end.
    + apply wp_ret. exact HP.
    + destruct (flip_of v); [|rewrite VR; reflexivity]. unfold set_last in VR.
      destruct (firstn (length v) (bytes_of (value_words v))); [|rewrite VR; reflexivity].
      exfalso. apply Ne; [reflexivity|]. symmetry. exact VR.
  - eapply wp_bind_reads; [exact Fh|]. apply wp_ret.
    replace (kv_get (lives es) key) with (@None bytes) in HP; [exact HP|]. symmetry.
    destruct (kv_get (lives es) key) as [v|] eqn:Ek; [exfalso|reflexivity].
    assert (Hin : In (key, v) (lives es)).
    { clear - Ek. induction (lives es) as [|[k0 v0] m IH]; cbn [kv_get] in Ek; [discriminate|].
      destruct (k0 =? key)%N eqn:E0; [|right; auto]. apply N.eqb_eq in E0. injection Ek as ->.
      subst k0. left. reflexivity. }
    apply lives_in in Hin as (A & B & E). apply (Nn A v B E).
    assert (X : In (h * Q + pre + plen A) (map (Nat.add (h * Q + pre)) l)).
    { apply (Permutation_in _ (Permutation_sym Hp)). apply lpos_in. exists A, key, v, B. auto. }
    apply in_map_iff in X as (o & Eo & Ho). replace (plen A) with o by lia. exact Ho.
Qed.

End ENTS.
