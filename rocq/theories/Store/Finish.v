(** The last steps of the operations: the same whether the operation or the recovery runs them. *)
From Coq Require Import Permutation.
From Verif Require Import Base Facts.
From Verif.Kv Require Import Model.
From Verif.Store Require Import Format Bits Words Geom Model Wp Entries Layout Scan Steps Ents Window Shapes Compact Room.
Open Scope nat_scope.
Ltac Zify.zify_post_hook ::= idtac.

(* ---------------------------------------------------------------------- contents *)

Lemma filter_perm {A} (g : A -> bool) (a b : list A) : Permutation a b -> Permutation (filter g a) (filter g b).
Proof.
  induction 1 as [|x a b _ IH|x y a|a b c _ IH1 _ IH2]; cbn [filter].
  - constructor.
  - destruct (g x); [constructor; exact IH|exact IH].
  - destruct (g x), (g y); try apply Permutation_refl. constructor.
  - eapply perm_trans; eassumption.
Qed.
Lemma insert_perm a b k v : Permutation a b -> Permutation (kv_insert a k v) (kv_insert b k v).
Proof. intros H. unfold kv_insert, kv_remove. apply Permutation_app_tail, filter_perm, H. Qed.
Lemma filter_filter_ext {A} (g h : A -> bool) (l : list A) : (forall x, In x l -> g x = h x) -> filter g l = filter h l.
Proof.
  induction l as [|x l IH]; intros H; [reflexivity|]. cbn [filter]. rewrite (H x (or_introl eq_refl)).
  rewrite IH; [reflexivity|]. intros y Hy. apply H. right. exact Hy.
Qed.
Lemma keys_app a b : keys (a ++ b) = keys a ++ keys b.
Proof. unfold keys. rewrite lives_app, map_app. reflexivity. Qed.
Lemma keys_in A k v B : In k (keys (A ++ Live k v :: B)).
Proof. rewrite keys_app. apply in_or_app. right. left. reflexivity. Qed.
Lemma keys_ex es k : In k (keys es) -> exists A v B, es = A ++ Live k v :: B.
Proof.
  unfold keys. intros H. apply in_map_iff in H as ([k' v] & E & H). cbn [fst] in E. subst k'.
  apply lives_in in H as (A & B & E). exists A, v, B. exact E.
Qed.
Lemma wiping_keys del es es' : wiping del es es' -> forall k, In k (keys es') -> In k (keys es).
Proof.
  intros H k Hk. apply keys_ex in Hk as (A & v & B & E). rewrite E in H.
  apply wiping_live in H as (A0 & B0 & ->). apply keys_in.
Qed.
Lemma wiping_nodup del es es' : wiping del es es' -> NoDup (keys es) -> NoDup (keys es').
Proof.
  induction 1 as [|e e' es es' H Hw IH]; intros Hn; [constructor|].
  assert (Hn2 : NoDup (keys es)).
  { unfold keys in *. rewrite lives_cons, map_app in Hn. destruct e; cbn in Hn; [|exact Hn|exact Hn|exact Hn].
    inversion Hn; assumption. }
  destruct H as [->|(k & v & ws & -> & _ & -> & _)].
  - destruct e as [k v|ws|i|n]; try (apply IH, Hn2). unfold keys in *. rewrite lives_cons in *.
    cbn [lives1 app map fst] in *. inversion Hn as [|? ? Nk _]; subst. constructor; [|apply IH, Hn2].
    intros X. apply Nk. apply (wiping_keys _ _ _ Hw k X).
  - apply IH, Hn2.
Qed.
Lemma wiping_plain del es es' : wiping del es es' -> Forall plain es -> Forall plain es'.
Proof.
  induction 1 as [|e e' es es' H Hw IH]; intros Hp; [constructor|].
  inversion_clear Hp as [|? ? P1 P2]. constructor; [|apply IH, P2].
  destruct H as [->|(k & v & ws & -> & _ & -> & _)]; [exact P1|exact Logic.I].
Qed.
Lemma nodup_single del k es : (forall k', del k' = true -> k' = k) -> NoDup (keys es) ->
  forall A k' v B, es = A ++ Live k' v :: B -> del k' = true -> nomatch del (A ++ B).
Proof.
  intros Hd Hn A k' v B -> Hk A2 k2 v2 B2 E. destruct (del k2) eqn:E2; [|reflexivity]. exfalso.
  apply Hd in Hk, E2. subst k' k2. rewrite keys_app in Hn. change (keys (Live k v :: B)) with (k :: keys B) in Hn.
  apply NoDup_remove_2 in Hn. apply Hn. rewrite <- keys_app, E. apply keys_in.
Qed.
Lemma nomatch_keys del es : nomatch del es <-> forall k, In k (keys es) -> del k = false.
Proof.
  split.
  - intros H k Hk. apply keys_ex in Hk as (A & v & B & E). eapply H; exact E.
  - intros H A k v B ->. apply H, keys_in.
Qed.
Lemma keys_live_snoc es k v : keys (es ++ [Live k v]) = keys es ++ [k].
Proof. rewrite keys_app. reflexivity. Qed.
Lemma lives_live_snoc es k v : lives (es ++ [Live k v]) = lives es ++ [(k, v)].
Proof. rewrite lives_app. reflexivity. Qed.
Lemma leq_app a b a' b' : leq a a' -> leq b b' -> leq (a ++ b) (a' ++ b').
Proof. intros H1 H2. apply Forall2_app; assumption. Qed.

Lemma NoDup_snoc {A} (l : list A) x : NoDup l -> ~ In x l -> NoDup (l ++ [x]).
Proof.
  intros H Hx. apply (Permutation_NoDup (l := x :: l)); [|constructor; assumption].
  apply Permutation_cons_append.
Qed.

Section FINISH.
Variable F : format.
Hypothesis G : wff F.
Notation Q := (virt_page_size F).
Notation NP := (num_pages F).
Notation MP := (max_prefix F).
Notation W := (window_size F).
Notation V := (virt_size F).
Notation C := (capacity_of F).
Notation EN := (max_page_erases F).

Lemma iw_reset h pre es : plen es <= V -> live_len es <= C -> pre <= MP -> Iw F h pre es.
Proof. intros H1 H2 H3. exists 0. apply (iwx_reset F G); assumption. Qed.
Lemma settle_one f h e pre es x c : lay F f h e pre es (ewords x) c -> inited F f h e pre es (ewords x) ->
  eok F x -> lay F f h e pre (es ++ [x]) [] c.
Proof.
  intros L I Ox. apply (lay_settle F G).
  - rewrite flat_cons, app_nil_r. exact L.
  - rewrite flat_cons, app_nil_r. exact I.
  - constructor; [exact Ox|constructor].
  - intros A1 d A2 Ed Hn. destruct A1 as [|a [|b A1]]; [congruence|discriminate|discriminate].
Qed.

(** An entry which is complete, or settled already, is settled. *)
Lemma wp_settle (R : flash -> Prop) s h e pre es x c (P : res store_error unit -> st -> Prop) :
  (lay F (fl s) h e pre es (ewords x) c /\ forall f', lay F f' h e pre es (ewords x) c -> R f') \/
  lay F (fl s) h e pre (es ++ [x]) [] c -> eok F x ->
  (forall f', lay F f' h e pre (es ++ [x]) [] c -> P (Ok tt) (set_fl s f')) ->
  wp F R (init_page F (h * Q + pre + plen es) (h * Q + pre + plen es + (elen x - 1))) s P.
Proof.
  intros [[L HR]|L] Ox HP.
  - apply (wp_init_page F G R s h e pre es (ewords x) c).
    + exact L.
    + intros X. pose proof (eok_len F G x Ox) as Y. unfold elen in Y. rewrite X in Y. cbn [length] in Y. lia.
    + exact HR.
    + intros f' L' I. apply HP. apply settle_one; assumption.
  - apply (wp_init_settled F G R s h e pre es x [] [] c P L).
    rewrite <- (set_fl_same s). apply HP. exact L.
Qed.

Lemma based_leq h pre es es' : leq es es' -> based h pre es -> based h pre es'.
Proof.
  intros H [B|B]; [left; exact B|right]. intros ->. inversion H. congruence.
Qed.
Lemma room_leq h pre es es' J : leq es es' -> room F h pre es J -> room F h pre es' J.
Proof.
  intros H (R1 & R2 & R3). split; [eapply iw_leq; eassumption|]. rewrite (leq_plen _ _ H).
  pose proof (leq_live _ _ H). split; [lia|exact R3].
Qed.
Lemma offs_lt xs h pre es : Forall (eok F) es ->
  Permutation (map (Nat.add (h * Q + pre)) xs) (lpos (h * Q + pre) es) ->
  forall o, In o xs -> o < plen es.
Proof.
  intros H Hp o Ho. apply (in_map (Nat.add (h * Q + pre))) in Ho.
  apply (Permutation_in _ Hp) in Ho. apply (lpos_lt F G _ _ _ H) in Ho. lia.
Qed.
Lemma existsb_one k (a : N) : existsb (N.eqb a) [k] = (a =? k)%N.
Proof. cbn [existsb]. apply orb_false_r. Qed.
Lemma remove_filter m k :
  kv_remove m k = filter (fun p => negb (existsb (N.eqb (fst p)) [k])) m.
Proof. unfold kv_remove. apply filter_filter_ext. intros x _. rewrite existsb_one. reflexivity. Qed.

(** The end of an insertion. *)
Lemma wp_insert_init (R : flash -> Prop) s h pre es k v xs m' (P : res store_error unit -> st -> Prop) :
  (lay F (fl s) h (h + NP) pre es (user_words k v) ERASED /\ plen es + elen (Live k v) <= V /\
     Iw F h pre es /\ based h pre es) \/
  (lay F (fl s) h (h + NP) pre (es ++ [Live k v]) [] ERASED /\ Iw F h pre (es ++ [Live k v])) ->
  Forall plain es -> NoDup (keys es) -> eok F (Live k v) -> live_len es + elen (Live k v) <= C ->
  st_head s = Some (h * Q + pre) -> st_ents s = Some (xs ++ [plen es]) ->
  Permutation (map (Nat.add (h * Q + pre)) xs) (lpos (h * Q + pre) es) ->
  Permutation (kv_insert (lives es) k v) m' ->
  (forall f', Crash F m' f' -> R f') ->
  (forall s', On F s' m' -> P (Ok tt) s') ->
  wp F R (insert_init F (h * Q + pre + plen es) (elen (Live k v) - 1) k) s P.
Proof.
  intros Hst Hpl Hnd Ox Hl Hh He Hp Hm HR HP.
  assert (Bq : pre <= MP) by (destruct Hst as [[L _]|[L _]]; apply (b_pre _ _ _ _ _ _ _ _ L)).
  assert (Oes : Forall (eok F) es).
  { destruct Hst as [[L _]|[L _]]; pose proof (b_ents _ _ _ _ _ _ _ _ L) as X; [exact X|].
    apply Forall_app in X. apply X. }
  assert (Hll : live_len (es ++ [Live k v]) <= C).
  { rewrite live_len_app, live_len_cons. change (live_len []) with 0. lia. }
  assert (HI : Iw F h pre (es ++ [Live k v])).
  { destruct Hst as [(_ & X & _)|(_ & X)]; [|exact X]. apply iw_reset; [|exact Hll|exact Bq].
    rewrite plen_app, plen_one. exact X. }
  unfold insert_init. apply wp_bind. eapply (wp_settle R s h (h + NP) pre es (Live k v) ERASED).
  - destruct Hst as [(L & Hv & Hi & Hb)|[L _]]; [left|right; exact L]. split; [exact L|]. intros f' L'.
    apply HR. right. left. exists h, pre, es, (user_words k v). split; [exact L'|]. split; [exact Hb|].
    split; [split; [exact Hi|]; split; [lia|right; exact Hv]|].
    right. left. exists es, k, v. split; [split; [exact Ox|left; split; reflexivity]|].
    split; [apply plain_soft, Hpl|]. split; [exact Hnd|]. split; [exact Hl|exact Hm].
  - exact Ox.
  - intros f' L'. unfold delete_keys.
    eapply (wp_delete_if F G R _ h (h + NP) pre es [Live k v] [] ERASED _ (xs ++ [plen es])
              [h * Q + pre + plen es]).
    + exact L'.
    + intros p [<-|[]]. lia.
    + exact Hh.
    + exact He.
    + rewrite map_app. apply Permutation_app; [exact Hp|apply Permutation_refl].
    + right. right. exists xs, (plen es). split; [reflexivity|]. split; [eapply offs_lt; eassumption|].
      eapply nodup_single; [|exact Hnd]. intros k' E. rewrite existsb_one in E. apply N.eqb_eq, E.
    + intros f2 ea' Hw L2. apply HR. right. left. exists h, pre, (ea' ++ [Live k v]), [].
      assert (Hq : leq (es ++ [Live k v]) (ea' ++ [Live k v])) by (apply leq_app; [eapply wiping_leq, Hw|apply leq_refl]).
      split; [exact L2|]. split; [right; intros E; destruct ea'; discriminate|].
      split; [apply (room_leq _ _ _ _ _ Hq); split; [exact HI|]; split; [exact Hll|left; reflexivity]|].
      right. left. exists ea', k, v. split; [split; [exact Ox|right; split; reflexivity]|].
      split; [apply plain_soft; eapply wiping_plain; eassumption|].
      split; [eapply wiping_nodup; eassumption|]. split.
      * pose proof (leq_live _ _ (wiping_leq _ _ _ Hw)). lia.
      * unfold kv_insert. rewrite remove_filter, (wiping_filter _ _ _ Hw), <- remove_filter. exact Hm.
    + intros f2 ea' l' Hw Hn L2 Hp2. apply HP. exists h, pre, (ea' ++ [Live k v]).
      assert (Hq : leq (es ++ [Live k v]) (ea' ++ [Live k v])) by (apply leq_app; [eapply wiping_leq, Hw|apply leq_refl]).
      split.
      { split; [exact L2|]. split; [right; intros E; destruct ea'; discriminate|].
        split; [apply (room_leq _ _ _ _ _ Hq); split; [exact HI|]; split; [exact Hll|left; reflexivity]|].
        split; [apply Forall_app; split; [eapply wiping_plain; eassumption|constructor; [exact Logic.I|constructor]]|].
        split.
        - rewrite keys_live_snoc. apply NoDup_snoc; [eapply wiping_nodup; eassumption|].
          intros X. apply (proj1 (nomatch_keys _ _) Hn) in X. rewrite existsb_one, N.eqb_refl in X. discriminate.
        - rewrite lives_live_snoc, (wiping_lives _ _ _ Hw Hn), <- remove_filter. exact Hm. }
      split; [exact Hh|]. exists l'. split; [reflexivity|].
      rewrite lpos_app, (wiping_plen _ _ _ Hw). exact Hp2.
Qed.

(** The end of a clear. *)
Lemma wp_clear_delete (R : flash -> Prop) s h pre es k l m' (P : res store_error unit -> st -> Prop) :
  let x := Intl (IClear k) in
  (lay F (fl s) h (h + NP) pre es [int_word (IClear k)] ERASED /\ plen es + 1 <= V /\
     Iw F h pre es /\ based h pre es) \/
  (lay F (fl s) h (h + NP) pre (es ++ [x]) [] ERASED /\ Iw F h pre (es ++ [x])) ->
  Forall plain es -> NoDup (keys es) -> eok F x -> live_len es <= C ->
  st_head s = Some (h * Q + pre) -> st_ents s = Some l ->
  Permutation (map (Nat.add (h * Q + pre)) l) (lpos (h * Q + pre) es) ->
  Permutation (filter (fun p => fst p <? k)%N (lives es)) m' ->
  (forall f', Crash F m' f' -> R f') ->
  (forall s', On F s' m' -> P (Ok tt) s') ->
  wp F R (clear_delete F (h * Q + pre + plen es)) s P.
Proof.
  intros x Hst Hpl Hnd Ox Hl Hh He Hp Hm HR HP.
  assert (Bq : pre <= MP) by (destruct Hst as [[L _]|[L _]]; apply (b_pre _ _ _ _ _ _ _ _ L)).
  assert (Oes : Forall (eok F) es).
  { destruct Hst as [[L _]|[L _]]; pose proof (b_ents _ _ _ _ _ _ _ _ L) as X; [exact X|].
    apply Forall_app in X. apply X. }
  assert (Hll : live_len (es ++ [x]) <= C).
  { rewrite live_len_app, live_len_cons. change (live_len []) with 0. cbn [x]. lia. }
  assert (HI : Iw F h pre (es ++ [x])).
  { destruct Hst as [(_ & X & _)|(_ & X)]; [|exact X]. apply iw_reset; [|exact Hll|exact Bq].
    rewrite plen_app, plen_one. exact X. }
  assert (Hfil : forall es', filter (fun p : N * bytes => fst p <? k)%N (lives es') =
                 filter (fun p => negb (k <=? fst p)%N) (lives es')).
  { intros es'. apply filter_filter_ext. intros p _. apply N.ltb_antisym. }
  unfold clear_delete. apply wp_bind.
  replace (h * Q + pre + plen es) with (h * Q + pre + plen es + (elen x - 1)) at 2 by (cbn; lia).
  eapply (wp_settle R s h (h + NP) pre es x ERASED).
  - destruct Hst as [(L & Hv & Hi & Hb)|[L _]]; [left|right; exact L]. split; [exact L|]. intros f' L'.
    apply HR. right. left. exists h, pre, es, (ewords x). split; [exact L'|]. split; [exact Hb|].
    split; [split; [exact Hi|]; split; [lia|right; exact Hv]|].
    right. right. left. exists es, k. split; [split; [exact Ox|left; split; reflexivity]|].
    split; [apply plain_soft, Hpl|]. split; [exact Hnd|exact Hm].
  - exact Ox.
  - intros f' L'. eapply wp_bind_reads; [eapply (lay_parse F G); [exact L'|exact Logic.I]|].
    cbn [fst pent x]. apply wp_bind.
    eapply (wp_delete_if F G R _ h (h + NP) pre es [x] [] ERASED _ l []).
    + exact L'.
    + intros p [].
    + exact Hh.
    + exact He.
    + rewrite app_nil_r. exact Hp.
    + left. eapply offs_lt; eassumption.
    + intros f2 ea' Hw L2. apply HR. right. left. exists h, pre, (ea' ++ [x]), [].
      assert (Hq : leq (es ++ [x]) (ea' ++ [x])) by (apply leq_app; [eapply wiping_leq, Hw|apply leq_refl]).
      split; [exact L2|]. split; [right; intros E; destruct ea'; discriminate|].
      split; [apply (room_leq _ _ _ _ _ Hq); split; [exact HI|]; split; [exact Hll|left; reflexivity]|].
      right. right. left. exists ea', k. split; [split; [exact Ox|right; split; reflexivity]|].
      split; [apply plain_soft; eapply wiping_plain; eassumption|].
      split; [eapply wiping_nodup; eassumption|].
      rewrite Hfil, (wiping_filter _ _ _ Hw), <- Hfil. exact Hm.
    + intros f2 ea' l' Hw Hn L2 Hp2. rewrite app_nil_r in Hp2.
      assert (Hq : leq (es ++ [x]) (ea' ++ [x])) by (apply leq_app; [eapply wiping_leq, Hw|apply leq_refl]).
      assert (Hpm : Permutation (lives ea') m') by (rewrite (wiping_lives _ _ _ Hw Hn), <- Hfil; exact Hm).
      assert (FIN : forall f3 w, eok F (Dead [w]) ->
        lay F f3 h (h + NP) pre (ea' ++ [Dead [w]]) [] ERASED -> rest F f3 h pre (ea' ++ [Dead [w]]) m').
      { intros f3 w Ow L3.
        assert (Hq3 : leq (es ++ [x]) (ea' ++ [Dead [w]])).
        { apply leq_app; [eapply wiping_leq, Hw|]. constructor; [|constructor]. split; [reflexivity|right; exact Logic.I]. }
        split; [exact L3|]. split; [right; intros E; destruct ea'; discriminate|].
        split; [apply (room_leq _ _ _ _ _ Hq3); split; [exact HI|]; split; [exact Hll|left; reflexivity]|].
        split; [apply Forall_app; split; [eapply wiping_plain; eassumption|constructor; [exact Logic.I|constructor]]|].
        split; [rewrite keys_app, app_nil_r; eapply wiping_nodup; eassumption|].
        rewrite lives_app, app_nil_r. exact Hpm. }
      rewrite <- (wiping_plen _ _ _ Hw). eapply (wp_set_padding F G R _ h (h + NP) pre ea' x [] [] ERASED).
      * exact L2.
      * reflexivity.
      * intros [].
      * intros f3 L3. apply HR. right. left. exists h, pre, (ea' ++ [x]), [].
        split; [exact L3|]. split; [right; intros E; destruct ea'; discriminate|].
        split; [apply (room_leq _ _ _ _ _ Hq); split; [exact HI|]; split; [exact Hll|left; reflexivity]|].
        right. right. left. exists ea', k. split; [split; [exact Ox|right; split; reflexivity]|].
        split; [apply plain_soft; eapply wiping_plain; eassumption|].
        split; [eapply wiping_nodup; eassumption|].
        rewrite Hfil, (wiping_filter _ _ _ Hw), <- Hfil. exact Hm.
      * intros f3 w Ow L3. apply HR. eapply rest_crash. apply FIN; eassumption.
      * intros f3 w Ow L3. apply HP. exists h, pre, (ea' ++ [Dead [w]]).
        split; [apply FIN; eassumption|]. split; [exact Hh|]. exists l'. split; [reflexivity|].
        rewrite lpos_app, app_nil_r. exact Hp2.
Qed.


(* ---------------------------------------------------------------- transactions *)

Lemma upd_keys us : Forall isupd us -> forall k, In k (keys us) -> In k (map ukey us).
Proof.
  intros H k Hk. apply keys_ex in Hk as (A & v & B & ->). rewrite map_app. apply in_or_app. right. left. reflexivity.
Qed.
Lemma upd_nodup us : Forall isupd us -> NoDup (map ukey us) -> NoDup (keys us).
Proof.
  induction 1 as [|e us He Hus IH]; intros Hn; [constructor|]. cbn [map] in Hn. inversion_clear Hn as [|? ? N1 N2].
  destruct e as [k v|ws|i|n]; try (apply IH, N2). change (keys (Live k v :: us)) with (k :: keys us).
  constructor; [|apply IH, N2]. intros X. apply N1. apply upd_keys; assumption.
Qed.
Lemma upd_soft us : Forall isupd us -> Forall soft us.
Proof. intros H. eapply Forall_impl; [|exact H]. intros [| |[]|] K; cbn in *; tauto. Qed.
Lemma upd_gap us : Forall isupd us -> Forall no_gap us.
Proof. intros H. apply soft_gap, upd_soft, H. Qed.
Lemma nodup_disjoint {A} (a b : list A) : NoDup a -> NoDup b -> (forall x, In x a -> ~ In x b) -> NoDup (a ++ b).
Proof.
  induction 1 as [|x a Hx Ha IH]; intros Hb Hd; [exact Hb|]. cbn [app]. constructor.
  - intros X. apply in_app_or in X as [X|X]; [exact (Hx X)|]. apply (Hd x); [left; reflexivity|exact X].
  - apply IH; [exact Hb|]. intros y Hy. apply Hd. right. exact Hy.
Qed.
Lemma existsb_in k ks : existsb (N.eqb k) ks = true <-> In k ks.
Proof.
  rewrite existsb_exists. split; [intros (x & H & E)|intros H; exists k; split; [exact H|apply N.eqb_refl]].
  apply N.eqb_eq in E. subst. exact H.
Qed.

Lemma wp_apply_loop (R : flash -> Prop) h pre : forall us A fuel s l (P : res store_error unit -> st -> Prop),
  lay F (fl s) h (h + NP) pre (A ++ us) [] ERASED -> Forall isupd us ->
  plen (A ++ us) < W -> plen us < fuel ->
  st_head s = Some (h * Q + pre) -> st_ents s = Some l ->
  Permutation (map (Nat.add (h * Q + pre)) l) (lpos (h * Q + pre) A) ->
  (forall f' us', leq us us' -> lives us' = lives us -> Forall soft us' ->
     lay F f' h (h + NP) pre (A ++ us') [] ERASED -> R f') ->
  (forall f' us' l', leq us us' -> lives us' = lives us -> Forall plain us' ->
     lay F f' h (h + NP) pre (A ++ us') [] ERASED ->
     Permutation (map (Nat.add (h * Q + pre)) l') (lpos (h * Q + pre) (A ++ us')) ->
     P (Ok tt) (set_ents (set_fl s f') (Some l'))) ->
  wp F R (apply_loop F fuel (h * Q + pre + plen A) (h * Q + pre + W)) s P.
Proof.
  induction us as [|u us IH]; intros A fuel s l P L Hu Hw Hf Hh He Hp HR HP.
  - rewrite app_nil_r in *. destruct fuel as [|fuel]; [lia|]. cbn [apply_loop].
    replace (h * Q + pre + W <=? h * Q + pre + plen A) with false by (symmetry; apply Nat.leb_gt; lia).
    eapply wp_bind_reads.
    + eapply (lay_parse_end F G); [exact L|].
      pose proof (win_pages F G h pre (plen A) (b_pre _ _ _ _ _ _ _ _ L) ltac:(lia)). pose proof (g_M F G). lia.
    + apply wp_ret. rewrite <- (set_fl_same s), <- (set_ents_same (set_fl s (fl s))). cbn [set_fl st_ents]. rewrite He.
      apply (HP (fl s) [] l); rewrite ?app_nil_r; try assumption; try constructor; reflexivity.
  - inversion_clear Hu as [|? ? Hu1 Hu2]. rewrite plen_cons in Hf. rewrite plen_app, plen_cons in Hw.
    pose proof (lay_ok_at F _ _ _ _ _ _ _ _ _ L) as Ou. pose proof (eok_len F G u Ou) as Lu.
    destruct fuel as [|fuel]; [lia|]. cbn [apply_loop].
    replace (h * Q + pre + W <=? h * Q + pre + plen A) with false by (symmetry; apply Nat.leb_gt; lia).
    assert (Gu : no_gap u) by (destruct u; try exact Logic.I; destruct Hu1).
    eapply wp_bind_reads; [eapply (lay_parse F G); [exact L|exact Gu]|].
    destruct u as [k v|ws|i|n]; try (destruct Hu1; fail).
    + cbn [pent]. apply wp_bind. eapply (wp_push F G); [exact Hh| |].
      { split; [lia|]. pose proof (window_eq F G).
        assert ((NP - 1) * Q <= NP * Q) by (apply Nat.mul_le_mono_r; lia). lia. }
      rewrite He. cbn [option_map].
      replace (h * Q + pre + plen A + elen (Live k v)) with (h * Q + pre + plen (A ++ [Live k v]))
        by (rewrite plen_app, plen_one; lia).
      eapply (IH (A ++ [Live k v]) fuel).
      * cbn [set_ents fl]. rewrite <- app_assoc. exact L.
      * exact Hu2.
      * rewrite <- app_assoc. cbn [app]. rewrite plen_app, plen_cons. exact Hw.
      * lia.
      * exact Hh.
      * reflexivity.
      * rewrite map_app, lpos_app. apply Permutation_app; [exact Hp|]. cbn [map lpos].
        replace (h * Q + pre + (h * Q + pre + plen A - (h * Q + pre))) with (h * Q + pre + plen A) by lia.
        apply Permutation_refl.
      * intros f' us' Q1 Q2 Q3 L'. rewrite <- app_assoc in L'. eapply (HR f' (Live k v :: us')).
        -- constructor; [split; [reflexivity|left; reflexivity]|exact Q1].
        -- rewrite !lives_cons, Q2. reflexivity.
        -- constructor; [exact Logic.I|exact Q3].
        -- exact L'.
      * intros f' us' l' Q1 Q2 Q3 L' Hp'. rewrite <- app_assoc in L', Hp'. eapply (HP f' (Live k v :: us') l').
        -- constructor; [split; [reflexivity|left; reflexivity]|exact Q1].
        -- rewrite !lives_cons, Q2. reflexivity.
        -- constructor; [exact Logic.I|exact Q3].
        -- exact L'.
        -- exact Hp'.
    + destruct i as [| | |kr]; try (destruct Hu1; fail). cbn [pent]. apply wp_bind.
      eapply (wp_set_padding F G R _ h (h + NP) pre A (Intl (IRemove kr)) us [] ERASED).
      * exact L.
      * reflexivity.
      * intros [].
      * intros f' L'. eapply (HR f' (Intl (IRemove kr) :: us)); [apply leq_refl|reflexivity| |exact L'].
        constructor; [exact Logic.I|]. apply upd_soft, Hu2.
      * intros f' w Ow L'. eapply (HR f' (Dead [w] :: us)); [|reflexivity| |exact L'].
        -- constructor; [split; [reflexivity|right; exact Logic.I]|apply leq_refl].
        -- constructor; [exact Logic.I|]. apply upd_soft, Hu2.
      * intros f' w Ow L'.
        replace (h * Q + pre + plen A + elen (Intl (IRemove kr))) with (h * Q + pre + plen (A ++ [Dead [w]]))
          by (rewrite plen_app, plen_one; change (elen (Dead [w])) with 1;
              change (elen (Intl (IRemove kr))) with 1; lia).
        assert (Q0 : leq1 (Intl (IRemove kr)) (Dead [w])) by (split; [reflexivity|right; exact Logic.I]).
        eapply (IH (A ++ [Dead [w]]) fuel).
        -- cbn [set_fl fl]. rewrite <- app_assoc. exact L'.
        -- exact Hu2.
        -- rewrite <- app_assoc. cbn [app]. rewrite plen_app, plen_cons. exact Hw.
        -- lia.
        -- exact Hh.
        -- exact He.
        -- rewrite lpos_app, app_nil_r. exact Hp.
        -- intros f2 us' Q1 Q2 Q3 L2. rewrite <- app_assoc in L2. eapply (HR f2 (Dead [w] :: us')).
           ++ constructor; assumption.
           ++ rewrite !lives_cons, Q2. reflexivity.
           ++ constructor; [exact Logic.I|exact Q3].
           ++ exact L2.
        -- intros f2 us' l' Q1 Q2 Q3 L2 Hp'. rewrite <- app_assoc in L2, Hp'. eapply (HP f2 (Dead [w] :: us') l').
           ++ constructor; assumption.
           ++ rewrite !lives_cons, Q2. reflexivity.
           ++ constructor; [exact Logic.I|exact Q3].
           ++ exact L2.
           ++ exact Hp'.
Qed.

(** The end of a transaction whose updates have all been written. *)
Lemma wp_transaction_apply (R : flash -> Prop) s h pre es0 us ks l m' (P : res store_error unit -> st -> Prop) :
  let mk := Intl (IMarker (length us)) in
  lay F (fl s) h (h + NP) pre (es0 ++ mk :: us) [] ERASED ->
  Forall isupd us -> NoDup (map ukey us) -> ks = map ukey us ->
  Forall plain es0 -> NoDup (keys es0) ->
  plen (es0 ++ mk :: us) <= V -> live_len es0 + live_len us <= C ->
  st_head s = Some (h * Q + pre) -> st_ents s = Some l ->
  Permutation (map (Nat.add (h * Q + pre)) l) (lpos (h * Q + pre) es0) ->
  Permutation (filter (fun p => negb (existsb (N.eqb (fst p)) (map ukey us))) (lives es0) ++ lives us) m' ->
  (forall f', Crash F m' f' -> R f') ->
  (forall s', On F s' m' -> P (Ok tt) s') ->
  wp F R (transaction_apply F ks (h * Q + pre + plen es0)) s P.
Proof.
  intros mk L Hu Hnu -> Hpl Hnd Hv Hl Hh He Hp Hm HR HP.
  pose proof (b_pre _ _ _ _ _ _ _ _ L) as Bq.
  pose proof (b_ents _ _ _ _ _ _ _ _ L) as Oall. apply Forall_app in Oall as [Oes Ous]. inversion_clear Ous as [|? ? Omk Ous'].
  set (del := fun k => existsb (N.eqb k) (map ukey us)).
  pose proof (virt_eq F G) as Ev. pose proof (g_N F G) as HN.
  assert (LL : forall es', leq es0 es' -> live_len es' + live_len us <= C).
  { intros es' Hq. pose proof (leq_live _ _ Hq). lia. }
  assert (COM : forall f' ea', wiping del es0 ea' -> lay F f' h (h + NP) pre (ea' ++ mk :: us) [] ERASED -> Crash F m' f').
  { intros f' ea' Hw L'. right. left. exists h, pre, (ea' ++ mk :: us), [].
    pose proof (wiping_leq _ _ _ Hw) as Hq.
    assert (Hv' : plen (ea' ++ mk :: us) <= V) by (rewrite plen_app, (wiping_plen _ _ _ Hw), <- plen_app; exact Hv).
    assert (Hll : live_len (ea' ++ mk :: us) <= C) by (rewrite live_len_app, live_len_cons; cbn [mk]; apply LL, Hq).
    split; [exact L'|]. split; [right; intros E; destruct ea'; discriminate|].
    split; [split; [apply iw_reset; assumption|]; split; [exact Hll|left; reflexivity]|].
    right. right. right. right. left. exists ea', (length us), us, us.
    split; [reflexivity|]. split; [left; split; reflexivity|]. split; [exact Hu|]. split; [exact Hnu|].
    split; [reflexivity|]. split; [apply plain_soft; eapply wiping_plain; eassumption|].
    split; [eapply wiping_nodup; eassumption|]. split; [rewrite Nat.add_0_r; exact Hv'|].
    split; [apply LL, Hq|].
    change (fun p : N * bytes => negb (existsb (N.eqb (fst p)) (map ukey us)))
      with (fun p : N * bytes => negb (del (fst p))).
    rewrite (wiping_filter _ _ _ Hw). exact Hm. }
  unfold transaction_apply. apply wp_bind. unfold delete_keys.
  eapply (wp_delete_if F G R _ h (h + NP) pre es0 (mk :: us) [] ERASED del l []).
  - exact L.
  - intros p [].
  - exact Hh.
  - exact He.
  - rewrite app_nil_r. exact Hp.
  - left. eapply offs_lt; eassumption.
  - intros f' ea' Hw L'. apply HR. eapply COM; eassumption.
  - intros f1 ea' l1 Hw Hn L1 Hp1. rewrite app_nil_r in Hp1.
    pose proof (wiping_leq _ _ _ Hw) as Hq.
    assert (FACTS : forall w us', leq us us' -> lives us' = lives us ->
      based h pre (ea' ++ Dead [w] :: us') /\ room F h pre (ea' ++ Dead [w] :: us') [] /\
      NoDup (keys (ea' ++ Dead [w] :: us')) /\ Permutation (lives (ea' ++ Dead [w] :: us')) m').
    { intros w us' Q1 Q2. split; [right; intros E; destruct ea'; discriminate|]. split.
      - split; [|split; [|left; reflexivity]].
        + apply iw_reset; [| |exact Bq].
          * rewrite plen_app, plen_cons in *. rewrite (leq_plen _ _ Q1), (wiping_plen _ _ _ Hw). exact Hv.
          * rewrite live_len_app, live_len_cons. pose proof (leq_live _ _ Q1). pose proof (LL _ Hq). lia.
        + rewrite live_len_app, live_len_cons. pose proof (leq_live _ _ Q1). pose proof (LL _ Hq). lia.
      - rewrite keys_app, lives_app. change (keys (Dead [w] :: us')) with (map fst (lives us')).
        change (lives (Dead [w] :: us')) with (lives us'). rewrite Q2. split.
        + apply nodup_disjoint; [eapply wiping_nodup; eassumption|apply upd_nodup; assumption|].
          intros k Hk Hk2. apply (proj1 (nomatch_keys _ _) Hn) in Hk.
          apply (upd_keys us Hu) in Hk2. apply existsb_in in Hk2. unfold del in Hk. rewrite Hk2 in Hk. discriminate.
        + rewrite (wiping_lives _ _ _ Hw Hn). exact Hm. }
    rewrite <- (wiping_plen _ _ _ Hw). apply wp_bind.
    eapply (wp_set_padding F G R _ h (h + NP) pre ea' mk us [] ERASED).
    + exact L1.
    + reflexivity.
    + intros [].
    + intros f' L'. apply HR. eapply COM; eassumption.
    + (* the marker is padding *)
      intros f' w Ow L'. apply HR. right. left. exists h, pre, (ea' ++ Dead [w] :: us), [].
      destruct (FACTS w us (leq_refl _) eq_refl) as (F1 & F2 & F3 & F4).
      split; [exact L'|]. split; [exact F1|]. split; [exact F2|]. left.
      split; [|split; [exact F3|split; [left; reflexivity|exact F4]]].
      apply Forall_app. split; [apply plain_soft; eapply wiping_plain; eassumption|].
      constructor; [exact Logic.I|apply upd_soft, Hu].
    + intros f' w Ow L'. eapply wp_the_head; [exact Hh|].
      replace (h * Q + pre + plen ea' + 1) with (h * Q + pre + plen (ea' ++ [Dead [w]]))
        by (rewrite plen_app, plen_one; change (elen (Dead [w])) with 1; lia).
      assert (Hv' : plen ((ea' ++ [Dead [w]]) ++ us) <= V).
      { rewrite <- app_assoc. cbn [app]. rewrite plen_app, plen_cons, (wiping_plen _ _ _ Hw).
        rewrite plen_app, plen_cons in Hv. exact Hv. }
      eapply (wp_apply_loop R h pre us (ea' ++ [Dead [w]]) W _ l1).
      * rewrite <- app_assoc. exact L'.
      * exact Hu.
      * lia.
      * rewrite plen_app in Hv'. lia.
      * exact Hh.
      * reflexivity.
      * rewrite lpos_app, app_nil_r. exact Hp1.
      * intros f2 us' Q1 Q2 Q3 L2. rewrite <- app_assoc in L2. cbn [app] in L2.
        apply HR. right. left. exists h, pre, (ea' ++ Dead [w] :: us'), [].
        destruct (FACTS w us' Q1 Q2) as (F1 & F2 & F3 & F4).
        split; [exact L2|]. split; [exact F1|]. split; [exact F2|]. left.
        split; [|split; [exact F3|split; [left; reflexivity|exact F4]]].
        apply Forall_app. split; [apply plain_soft; eapply wiping_plain; eassumption|].
        constructor; [exact Logic.I|exact Q3].
      * intros f2 us' l2 Q1 Q2 Q3 L2 Hp2. rewrite <- app_assoc in L2, Hp2. cbn [app] in L2, Hp2.
        apply HP. exists h, pre, (ea' ++ Dead [w] :: us').
        destruct (FACTS w us' Q1 Q2) as (F1 & F2 & F3 & F4).
        split; [|split; [exact Hh|exists l2; split; [reflexivity|exact Hp2]]].
        split; [exact L2|]. split; [exact F1|]. split; [exact F2|].
        split; [|split; [exact F3|exact F4]].
        apply Forall_app. split; [eapply wiping_plain; eassumption|].
        constructor; [exact Logic.I|exact Q3].
Qed.

End FINISH.
