(** The operations of a running store, against its specification. *)
From Coq Require Import Permutation.
From Verif Require Import Base Facts.
From Verif.Kv Require Import Model.
From Verif.Store Require Import Format Bits Words Geom Model Wp Entries Layout Scan Steps Ents Window Shapes Compact Room Finish.
Open Scope nat_scope.
Ltac Zify.zify_post_hook ::= idtac.

(* ------------------------------------------------------------- capacity used *)

Lemma used_perm a b : Permutation a b -> kv_used a = kv_used b.
Proof.
  induction 1 as [|x a b _ IH|x y a|a b c _ IH1 _ IH2]; cbn [kv_used fold_right].
  - reflexivity.
  - unfold kv_used in IH. rewrite IH. reflexivity.
  - lia.
  - congruence.
Qed.
Lemma used_app a b : kv_used (a ++ b) = (kv_used a + kv_used b)%N.
Proof.
  induction a as [|x a IH]; [reflexivity|]. cbn [app kv_used fold_right]. unfold kv_used in *. rewrite IH. lia.
Qed.
Lemma to_words_of v : N.of_nat (1 + to_words (length v)) = entry_size v.
Proof.
  unfold entry_size, bytes_to_words, to_words, Nlen. rewrite Nat2N.inj_add, Nat2N.inj_div. f_equal. f_equal. lia.
Qed.

Lemma filter_true {A} (l : list A) : filter (fun _ => true) l = l.
Proof. induction l as [|x l IH]; [reflexivity|]. cbn [filter]. rewrite IH. reflexivity. Qed.
Lemma wiping_single del k es es' : (forall k', del k' = true -> k' = k) -> NoDup (keys es) ->
  wiping del es es' ->
  lives es' = lives es \/ lives es' = filter (fun p => negb (del (fst p))) (lives es).
Proof.
  intros Hd Hn Hw. induction Hw as [|e e' es es' H Hw IH]; [left; reflexivity|].
  assert (NF : forall k' v, e = Live k' v -> del k' = true ->
    NoDup (keys es) /\ filter (fun p => negb (del (fst p))) (lives es) = lives es).
  { intros k' v -> E. change (keys (Live k' v :: es)) with (k' :: keys es) in Hn. inversion_clear Hn as [|? ? N1 N2].
    split; [exact N2|]. rewrite <- (filter_true (lives es)) at 2. apply filter_filter_ext. intros [k2 v2] Hin. cbn [fst].
    destruct (del k2) eqn:E2; [|reflexivity]. exfalso. apply Hd in E, E2. subst k' k2. apply N1.
    unfold keys. apply in_map_iff. exists (k, v2). split; [reflexivity|exact Hin]. }
  assert (Hn2 : NoDup (keys es)).
  { unfold keys in *. rewrite lives_cons, map_app in Hn. destruct e; cbn [lives1 map app] in Hn; [|exact Hn|exact Hn|exact Hn].
    inversion Hn; assumption. }
  specialize (IH Hn2). rewrite !lives_cons, filter_app.
  destruct H as [->|(k' & v & ws & -> & E & -> & _)].
  - destruct e as [k' v|ws|i|n]; cbn [lives1 app filter fst]; try exact IH.
    destruct (del k') eqn:E; cbn [negb app].
    + destruct (NF k' v eq_refl E) as [_ X]. rewrite X in IH. left. destruct IH as [->| ->]; reflexivity.
    + destruct IH as [->| ->]; [left|right]; reflexivity.
  - destruct (NF k' v eq_refl E) as [_ X]. right. cbn [lives1 app filter fst]. rewrite E. cbn [negb app]. rewrite X.
    rewrite X in IH. destruct IH; assumption.
Qed.

Section OPER.
Variable F : format.
Hypothesis G : wff F.
Notation Q := (virt_page_size F).
Notation NP := (num_pages F).
Notation MP := (max_prefix F).
Notation W := (window_size F).
Notation V := (virt_size F).
Notation C := (capacity_of F).
Notation EN := (max_page_erases F).

Lemma live_used es : Forall (eok F) es -> N.of_nat (live_len es) = kv_used (lives es).
Proof.
  induction 1 as [|e es He Hes IH]; [reflexivity|]. rewrite live_len_cons, lives_cons, used_app, <- IH.
  destruct e as [k v|ws|i|n]; try (cbn [lives1 kv_used fold_right]; lia).
  rewrite (proj1 (live_elen F G k v He)). cbn [lives1 kv_used fold_right snd]. rewrite <- to_words_of. lia.
Qed.
Lemma on_used s h pre es m : on F s h pre es m -> N.of_nat (live_len es) = kv_used m.
Proof.
  intros O. destruct O as ((L & _ & _ & _ & _ & Hpm) & _). rewrite <- (used_perm _ _ Hpm).
  apply live_used, (b_ents _ _ _ _ _ _ _ _ L).
Qed.
Lemma on_on s h pre es m : on F s h pre es m -> On F s m.
Proof. intros O. exists h, pre, es. exact O. Qed.
Lemma on_crash s m : On F s m -> Crash F m (fl s).
Proof. intros (h & pre & es & (Rs & _)). eapply rest_crash, Rs. Qed.
Lemma worn_on s m : Worn F s m -> On F s m.
Proof. intros (h & pre & es & O & _). eapply on_on, O. Qed.
Lemma wp_remove (R : flash -> Prop) s m k (P : res store_error unit -> st -> Prop) :
  On F s m ->
  (forall f', Crash F m f' -> R f') ->
  ((k <= MAX_KEY)%N -> forall f', Crash F (kv_remove m k) f' -> R f') ->
  ((MAX_KEY < k)%N -> P (Err InvalidArgument) s) ->
  ((k <= MAX_KEY)%N -> forall s', On F s' (kv_remove m k) -> P (Ok tt) s') ->
  wp F R (remove F k) s P.
Proof.
  intros (h & pre & es & O) HR1 HR2 Herr HP. unfold remove. destruct (MAX_KEY <? k)%N eqn:Ek.
  - apply wp_fail, Herr, N.ltb_lt, Ek.
  - apply N.ltb_ge in Ek. eapply wp_bind_reads; [eapply (on_tail F G), O|].
    destruct O as ((L & Hb & Hr & Hpl & Hnd & Hpm) & Hh & l & He & Hp).
    assert (DK : forall ea', filter (fun p => negb (existsb (N.eqb (fst p)) [k])) (lives ea') = kv_remove (lives ea') k)
      by (intros; symmetry; apply remove_filter).
    assert (RST : forall f' ea' m', wiping (fun k' => existsb (N.eqb k') [k]) es ea' ->
      lay F f' h (h + NP) pre ea' [] ERASED -> Permutation (lives ea') m' -> rest F f' h pre ea' m').
    { intros f' ea' m' Hw L' Hm. pose proof (wiping_leq _ _ _ Hw) as Hq.
      split; [exact L'|]. split; [eapply based_leq; eassumption|]. split; [eapply room_leq; eassumption|].
      split; [eapply wiping_plain; eassumption|]. split; [eapply wiping_nodup; eassumption|exact Hm]. }
    assert (KM : Permutation (kv_remove (lives es) k) (kv_remove m k)) by (apply filter_perm, Hpm).
    unfold delete_keys. rewrite <- (app_nil_r es) in L.
    eapply (wp_delete_if F G R _ h (h + NP) pre es [] [] ERASED _ l []).
    + exact L.
    + intros p [].
    + exact Hh.
    + exact He.
    + rewrite app_nil_r. exact Hp.
    + left. eapply offs_lt; [exact G| |exact Hp]. rewrite app_nil_r in L. apply (b_ents _ _ _ _ _ _ _ _ L).
    + intros f' ea' Hw L'. rewrite app_nil_r in L'.
      assert (SG : forall k', existsb (N.eqb k') [k] = true -> k' = k).
      { intros k' E. rewrite existsb_one in E. apply N.eqb_eq, E. }
      destruct (wiping_single _ k es ea' SG Hnd Hw) as [E|E].
      * apply HR1. eapply rest_crash, RST; [exact Hw|exact L'|]. rewrite E. exact Hpm.
      * apply (HR2 Ek). eapply rest_crash, RST; [exact Hw|exact L'|]. rewrite E, DK. exact KM.
    + intros f' ea' l' Hw Hn L' Hp'. rewrite app_nil_r in L', Hp'. apply (HP Ek). exists h, pre, ea'.
      split; [|split; [exact Hh|exists l'; split; [reflexivity|exact Hp']]].
      apply RST; [exact Hw|exact L'|]. rewrite (wiping_lives _ _ _ Hw Hn), DK. exact KM.
Qed.

Lemma on_fit s h pre es m n : on F s h pre es m -> plen es + n <= V -> h * Q + pre + plen es + n <= (h + NP) * Q.
Proof.
  intros O Hn. pose proof (b_pre _ _ _ _ _ _ _ _ (on_lay F _ _ _ _ _ O)) as Bq. pose proof (virt_eq F G).
  pose proof (win_page F G h pre (plen es + n) Bq ltac:(lia)). lia.
Qed.

Lemma crash_none f h pre es m J n : rest F f h pre es m ->
  forall f', lay F f' h (h + NP) pre es J ERASED -> length J <= n -> plen es + n <= V ->
  J = [] \/ jg_ok F J \/ ju_ok F J -> Crash F m f'.
Proof.
  intros (_ & Hb & (R1 & R2 & _) & Hpl & Hnd & Hpm) f' L' Hn Hv Hj.
  right. left. exists h, pre, es, J. split; [exact L'|]. split; [exact Hb|].
  split; [split; [exact R1|]; split; [exact R2|right; lia]|]. left.
  split; [apply plain_soft, Hpl|]. split; [exact Hnd|]. split; [exact Hj|exact Hpm].
Qed.

Lemma wp_insert (R : flash -> Prop) s m k v (P : res store_error unit -> st -> Prop) :
  On F s m -> bytes_ok v = true ->
  (forall f', Crash F m f' -> R f') ->
  (forall f', (k <= MAX_KEY)%N -> length v <= max_value F -> (kv_used m + entry_size v <= N.of_nat C)%N ->
     Crash F (kv_insert m k v) f' -> R f') ->
  ((MAX_KEY < k)%N \/ max_value F < length v -> P (Err InvalidArgument) s) ->
  ((k <= MAX_KEY)%N -> length v <= max_value F -> (N.of_nat C < kv_used m + entry_size v)%N -> P (Err NoCapacity) s) ->
  (forall s', (k <= MAX_KEY)%N -> length v <= max_value F -> (kv_used m + entry_size v <= N.of_nat C)%N ->
     Worn F s' m -> P (Err NoLifetime) s') ->
  (forall s', (k <= MAX_KEY)%N -> length v <= max_value F -> (kv_used m + entry_size v <= N.of_nat C)%N ->
     On F s' (kv_insert m k v) -> P (Ok tt) s') ->
  wp F R (insert F k v) s P.
Proof.
  intros (h & pre & es & O) Hv HR1 HR2 Herr Hcap Hlife HP. unfold insert.
  destruct ((MAX_KEY <? k)%N || (max_value F <? length v)) eqn:E.
  { apply wp_fail, Herr. apply orb_true_iff in E as [E|E]; [left; apply N.ltb_lt, E|right; apply Nat.ltb_lt, E]. }
  apply orb_false_iff in E as [E1 E2]. apply N.ltb_ge in E1. apply Nat.ltb_ge in E2.
  assert (Ox : eok F (Live k v)) by (split; [exact E1|split; [exact Hv|exact E2]]).
  destruct (live_elen F G k v Ox) as [El Elm].
  eapply wp_bind_lift; [apply (live_facts F G k v Ox)|].
  pose proof (on_used _ _ _ _ _ O) as Hu.
  assert (Es : entry_size v = N.of_nat (elen (Live k v))) by (rewrite El; symmetry; apply to_words_of).
  apply wp_bind. fold (ewords (Live k v)). fold (elen (Live k v)).
  eapply (wp_reserve F G R s h pre es m (elen (Live k v))).
  - exact O.
  - lia.
  - exact HR1.
  - intros X. apply Hcap; try assumption. lia.
  - intros s' X Ow. apply Hlife; try assumption. lia.
  - intros s2 h2 pre2 es2 X O2 El2 Hfit. rewrite <- El2 in X. clear El2 O Hu Herr Hcap. clear s h pre es.
    rename s2 into s, h2 into h, pre2 into pre, es2 into es, O2 into O.
    pose proof (on_used _ _ _ _ _ O) as Hu.
    assert (Cap : (kv_used m + entry_size v <= N.of_nat C)%N) by lia.
    eapply wp_bind_reads; [eapply (on_tail F G), O|]. pose proof (on_fit _ _ _ _ _ _ O Hfit) as Hpg.
    pose proof O as ((L & Hb & Hr & Hpl & Hnd & Hpm) & Hh & l & He & Hp).
    assert (Hm : Permutation (kv_insert (lives es) k v) (kv_insert m k v)) by (apply insert_perm, Hpm).
    apply wp_bind. eapply (wp_write_entry F G R s h (h + NP) pre es ERASED k v).
    + exact L.
    + exact Ox.
    + exact Hpg.
    + intros f' gs L' Hgs Hg. assert (Hg' : gs = user_words k v \/ gs = [] \/ jg_ok F gs \/ ju_ok F gs) by tauto.
      clear Hg. destruct Hg' as [->|Hg]; [|apply HR1; eapply (crash_none _ _ _ _ _ gs (elen (Live k v))); [apply O|eassumption..]].
      apply HR2; try assumption. right. left. exists h, pre, es, (user_words k v).
      split; [exact L'|]. split; [exact Hb|].
      split; [split; [apply Hr|]; split; [apply Hr|right; exact Hfit]|].
      right. left. exists es, k, v. split; [split; [exact Ox|left; split; reflexivity]|].
      split; [apply plain_soft, Hpl|]. split; [exact Hnd|]. split; [exact X|exact Hm].
    + intros f' L'. apply wp_bind. eapply (wp_push F G); [exact Hh| |].
      { split; [lia|]. pose proof (virt_eq F G). pose proof (window_eq F G).
        assert ((NP - 1) * Q <= NP * Q) by (apply Nat.mul_le_mono_r; lia). lia. }
      cbn [set_fl st_ents]. rewrite He. cbn [option_map].
      replace (h * Q + pre + plen es - (h * Q + pre)) with (plen es) by lia.
      eapply (wp_insert_init F G R _ h pre es k v l (kv_insert m k v)).
      * left. split; [exact L'|]. split; [exact Hfit|]. split; [apply Hr|exact Hb].
      * exact Hpl.
      * exact Hnd.
      * exact Ox.
      * exact X.
      * exact Hh.
      * reflexivity.
      * exact Hp.
      * exact Hm.
      * intros f2 Hc. apply HR2; assumption.
      * intros s' Os. apply HP; assumption.
Qed.

Lemma clear_ok k : (k <= MAX_KEY)%N -> eok F (Intl (IClear k)).
Proof. intros H. unfold MAX_KEY in H. split; [exact H|]. apply N.ltb_ge. exact H. Qed.
Lemma wp_clear (R : flash -> Prop) s m k (P : res store_error unit -> st -> Prop) :
  On F s m ->
  (forall f', Crash F m f' -> R f') ->
  (forall f', (k <= MAX_KEY)%N -> Crash F (filter (fun p => fst p <? k)%N m) f' -> R f') ->
  ((MAX_KEY < k)%N -> P (Err InvalidArgument) s) ->
  (forall s', (k <= MAX_KEY)%N -> Worn F s' m -> P (Err NoLifetime) s') ->
  (forall s', (k <= MAX_KEY)%N -> On F s' (filter (fun p => fst p <? k)%N m) -> P (Ok tt) s') ->
  wp F R (clear F k) s P.
Proof.
  intros (h & pre & es & O) HR1 HR2 Herr Hlife HP. unfold clear.
  destruct (MAX_KEY <? k)%N eqn:E; [apply wp_fail, Herr, N.ltb_lt, E|]. apply N.ltb_ge in E.
  pose proof (clear_ok k E) as Ox. eapply wp_bind_lift; [apply (intl_facts F _ Ox)|].
  apply wp_bind. pose proof O as ((_ & _ & (_ & Hl & _) & _) & _).
  eapply (wp_make_room F G R m 1 (live_len es)); try eassumption.
  - lia.
  - lia.
  - intros s' Ow. apply Hlife; assumption.
  - intros s2 h2 pre2 es2 O2 El2 Hfit. rewrite <- El2 in Hl. clear El2 O Herr. clear s h pre es.
    rename s2 into s, h2 into h, pre2 into pre, es2 into es, O2 into O.
    eapply wp_bind_reads; [eapply (on_tail F G), O|]. pose proof (on_fit _ _ _ _ _ _ O Hfit) as Hpg.
    pose proof O as ((L & Hb & Hr & Hpl & Hnd & Hpm) & Hh & l & He & Hp).
    assert (Hm : Permutation (filter (fun p => fst p <? k)%N (lives es)) (filter (fun p => fst p <? k)%N m))
      by apply filter_perm, Hpm.
    apply wp_bind. eapply (wp_write_int F G R s h (h + NP) pre es ERASED (IClear k)).
    + exact L.
    + exact Ox.
    + exact Hpg.
    + intros f' gs L' Hgs Hg. assert (Hg' : gs = [int_word (IClear k)] \/ gs = [] \/ jg_ok F gs \/ ju_ok F gs) by tauto.
      clear Hg. destruct Hg' as [->|Hg]; [|apply HR1; eapply (crash_none _ _ _ _ _ gs 1); [apply O|eassumption..]].
      apply HR2; try assumption. right. left. exists h, pre, es, [int_word (IClear k)].
      split; [exact L'|]. split; [exact Hb|].
      split; [split; [apply Hr|]; split; [apply Hr|right; exact Hfit]|].
      right. right. left. exists es, k. split; [split; [exact Ox|left; split; reflexivity]|].
      split; [apply plain_soft, Hpl|]. split; [exact Hnd|exact Hm].
    + intros f' L'. eapply (wp_clear_delete F G R _ h pre es k l (filter (fun p => fst p <? k)%N m)).
      * left. split; [exact L'|]. split; [exact Hfit|]. split; [apply Hr|exact Hb].
      * exact Hpl.
      * exact Hnd.
      * exact Ox.
      * exact Hl.
      * exact Hh.
      * exact He.
      * exact Hp.
      * exact Hm.
      * intros f2 Hc. apply HR2; assumption.
      * intros s' Os. apply HP; assumption.
  - reflexivity.
Qed.

Lemma wp_prepare (R : flash -> Prop) s m n (P : res store_error unit -> st -> Prop) :
  On F s m ->
  (forall f', Crash F m f' -> R f') ->
  ((N.of_nat C < kv_used m + N.of_nat n)%N -> P (Err NoCapacity) s) ->
  (forall s', (kv_used m + N.of_nat n <= N.of_nat C)%N -> Worn F s' m -> P (Err NoLifetime) s') ->
  (forall s', (kv_used m + N.of_nat n <= N.of_nat C)%N -> On F s' m -> P (Ok tt) s') ->
  wp F R (prepare F n) s P.
Proof.
  intros (h & pre & es & O) HR Hcap Hlife HP. unfold prepare.
  pose proof (on_used _ _ _ _ _ O) as Hu. pose proof O as ((_ & _ & (_ & Hl & _) & _) & _).
  eapply (wp_remaining F G); [exact O|]. destruct (C - live_len es <? n) eqn:E.
  - apply Nat.ltb_lt in E. apply wp_fail, Hcap. lia.
  - apply Nat.ltb_ge in E. assert (Cap : (kv_used m + N.of_nat n <= N.of_nat C)%N) by lia.
    eapply (wp_immediate F G); [exact O|]. destruct (V - plen es <? n) eqn:E2.
    + eapply (on_compact F G); [exact O|exact HR| |].
      * intros Hw. apply Hlife; [exact Cap|]. exists h, pre, es. split; [exact O|exact Hw].
      * intros s' pre' es' _ O'. apply HP; [exact Cap|]. eapply on_on, O'.
    + apply wp_ret, HP; [exact Cap|]. eapply on_on, O.
Qed.

(* ---------------------------------------------------------------- transactions *)

Definition upd_ent (u : update) : ent :=
  match u with UInsert k v => Live k v | URemove k => Intl (IRemove k) end.
Definition upd_bytes (u : update) : Prop := match u with UInsert _ v => bytes_ok v = true | URemove _ => True end.

Lemma upd_isupd us : Forall isupd (map upd_ent us).
Proof. apply Forall_forall. intros x Hx. apply in_map_iff in Hx as ([k v|k] & <- & _); exact Logic.I. Qed.
Lemma upd_ukey us : map ukey (map upd_ent us) = map update_key us.
Proof. rewrite map_map. apply map_ext. intros [k v|k]; reflexivity. Qed.
Lemma valid_facts : forall us seen, updates_valid (limits_of F) seen us = true -> Forall upd_bytes us ->
  Forall (eok F) (map upd_ent us) /\ NoDup (map update_key us) /\
  (forall k, In k (map update_key us) -> ~ In k seen).
Proof.
  induction us as [|u us IH]; intros seen H Hb; [repeat split; [constructor|constructor|intros k []]|].
  cbn [updates_valid] in H. apply andb_true_iff in H as [H H4]. apply andb_true_iff in H as [H H3].
  apply andb_true_iff in H as [H1 H2]. inversion_clear Hb as [|? ? B1 B2].
  destruct (IH _ H4 B2) as (I1 & I2 & I3). apply N.leb_le in H1.
  assert (Ns : ~ In (update_key u) seen).
  { intros X. apply existsb_in in X. rewrite X in H3. discriminate. }
  cbn [map]. split; [|split].
  - constructor; [|exact I1]. destruct u as [k v|k]; cbn [upd_ent update_key upd_bytes] in *.
    + split; [exact H1|]. split; [exact B1|]. apply N.leb_le in H2. unfold Nlen in H2. cbn [limits_of max_value_len] in H2. lia.
    + unfold MAX_KEY in H1. split; [exact H1|]. apply N.ltb_ge. exact H1.
  - constructor; [|exact I2]. intros X. apply (I3 _ X). left. reflexivity.
  - intros k [<-|X]; [exact Ns|]. intros Y. apply (I3 _ X). right. exact Y.
Qed.
Lemma upd_plen us : Forall (eok F) (map upd_ent us) ->
  N.of_nat (plen (map upd_ent us)) = fold_right (fun u s => update_capacity u + s)%N 0%N us.
Proof.
  induction us as [|u us IH]; intros H; [reflexivity|]. cbn [map] in H. inversion_clear H as [|? ? H1 H2].
  cbn [map fold_right]. rewrite plen_cons, <- IH by exact H2. rewrite Nat2N.inj_add. f_equal.
  destruct u as [k v|k]; cbn [upd_ent update_capacity] in *; [|reflexivity].
  rewrite (proj1 (live_elen F G k v H1)). apply to_words_of.
Qed.
Lemma fold_apply : forall us m, NoDup (map update_key us) ->
  fold_left apply_update us m =
  filter (fun p => negb (existsb (N.eqb (fst p)) (map update_key us))) m ++ lives (map upd_ent us).
Proof.
  induction us as [|u us IH]; intros m Hn.
  - cbn [fold_left map existsb negb lives flat_map]. rewrite app_nil_r. symmetry. apply filter_true.
  - cbn [map] in Hn. inversion_clear Hn as [|? ? N1 N2]. cbn [fold_left]. rewrite IH by exact N2.
    assert (FR : filter (fun p : N * bytes => negb (existsb (N.eqb (fst p)) (map update_key us))) (kv_remove m (update_key u))
               = filter (fun p => negb (existsb (N.eqb (fst p)) (map update_key (u :: us)))) m).
    { unfold kv_remove. clear. induction m as [|p m IH]; [reflexivity|]. cbn [filter map existsb].
      destruct (N.eqb (fst p) (update_key u)); cbn [negb orb]; [exact IH|]. cbn [filter].
      destruct (existsb (N.eqb (fst p)) (map update_key us)); cbn [negb]; [exact IH|]. f_equal. exact IH. }
    destruct u as [k v|k]; cbn [apply_update update_key map upd_ent] in *.
    + unfold kv_insert. rewrite filter_app, FR, lives_cons, <- app_assoc. f_equal. cbn [filter fst lives1].
      replace (existsb (N.eqb k) (map update_key us)) with false; [reflexivity|].
      symmetry. destruct (existsb (N.eqb k) (map update_key us)) eqn:E; [|reflexivity].
      apply existsb_in in E. contradiction.
    + rewrite FR, lives_cons. reflexivity.
Qed.
Lemma live_le_plen U : live_len U <= plen U.
Proof. apply live_len_le. Qed.

Section WRITE.
Variable R : flash -> Prop.
Variable h pre : nat.
Variable es : list ent.
Variable m m' : kv.
Variable us : list update.
Hypothesis HR1 : forall f', Crash F m f' -> R f'.
Hypothesis HR2 : forall f', Crash F m' f' -> R f'.
Notation U := (map upd_ent us).
Notation mk := (Intl (IMarker (length us))).
Hypothesis Bq : pre <= MP.
Hypothesis HI : Iw F h pre es.
Hypothesis Oes : Forall (eok F) es.
Hypothesis Hpl : Forall plain es.
Hypothesis Hnd : NoDup (keys es).
Hypothesis Hm : Permutation (lives es) m.
Hypothesis Hm' : fold_left apply_update us m = m'.
Hypothesis HU : Forall (eok F) U.
Hypothesis HN : NoDup (map update_key us).
Hypothesis Hv : plen es + (1 + plen U) <= V.
Hypothesis Hl : live_len es + (1 + plen U) <= C.

Lemma final_perm :
  Permutation (filter (fun p => negb (existsb (N.eqb (fst p)) (map ukey U))) (lives es) ++ lives U) m'.
Proof.
  rewrite <- Hm', fold_apply by exact HN. rewrite upd_ukey. apply Permutation_app_tail, filter_perm, Hm.
Qed.
Lemma upd_part U1 U2 : U = U1 ++ U2 -> Forall isupd U1 /\ NoDup (map ukey U1) /\ live_len U1 <= plen U1 /\
  plen U1 + plen U2 = plen U /\ length U1 + length U2 = length us.
Proof.
  intros E. pose proof (upd_isupd us) as H1. rewrite E in H1. apply Forall_app in H1 as [H1 _].
  split; [exact H1|]. split.
  - rewrite <- upd_ukey, E, map_app in HN. clear -HN. induction (map ukey U1) as [|a l IH]; [constructor|].
    cbn [app] in HN. inversion_clear HN as [|? ? N1 N2]. constructor; [|apply IH, N2].
    intros X. apply N1. apply in_or_app. left. exact X.
  - split; [apply live_len_le|]. split; [rewrite E, plen_app; reflexivity|].
    apply (f_equal (@length ent)) in E. rewrite map_length, app_length in E. lia.
Qed.
Lemma upd_room U1 J x U2 : U = U1 ++ x :: U2 -> length J <= elen x -> room F h pre (es ++ mk :: U1) J.
Proof.
  intros E HJ. destruct (upd_part _ _ E) as (_ & _ & P3 & P4 & _). rewrite plen_cons in P4.
  assert (PL : plen (es ++ mk :: U1) = plen es + (1 + plen U1)).
  { rewrite plen_app, plen_cons. reflexivity. }
  assert (LL : live_len (es ++ mk :: U1) = live_len es + live_len U1).
  { rewrite live_len_app, live_len_cons. reflexivity. }
  split; [apply (iw_reset F G)|split].
  - lia.
  - lia.
  - exact Bq.
  - lia.
  - right. lia.
Qed.
Lemma crash_abort f' U1 x U2 J : U = U1 ++ x :: U2 -> lay F f' h (h + NP) pre (es ++ mk :: U1) J ERASED ->
  length J <= elen x ->
  (J = [] \/ jg_ok F J \/ ju_ok F J) \/ (J = ewords x /\ U2 <> []) -> Crash F m f'.
Proof.
  intros E L' HJ Hc. pose proof (upd_room _ _ _ _ E HJ) as Hr.
  destruct (upd_part _ _ E) as (P1 & P2 & P3 & P4 & P5). rewrite plen_cons in P4. cbn [length] in P5.
  right. left. exists h, pre, (es ++ mk :: U1), J. split; [exact L'|].
  split; [right; intros X; destruct es; discriminate|]. split; [exact Hr|].
  right. right. right. right. right. exists es, (length us), [], U1.
  split; [reflexivity|]. split; [constructor|]. split; [exact P1|]. split; [exact P2|]. split; [lia|]. split.
  - destruct Hc as [[->|Hj]|[-> Hn]].
    + right. exists U1. split; [left; split; reflexivity|]. split; [exact P1|]. split; [exact P2|]. split; [lia|].
      right. split; [reflexivity|lia].
    + left. split; [exact Hj|right; lia].
    + right. exists (U1 ++ [x]). replace (U1 ++ x :: U2) with ((U1 ++ [x]) ++ U2) in E by (rewrite <- app_assoc; reflexivity).
      destruct (upd_part _ _ E) as (Q1 & Q2 & Q3 & Q4 & Q5).
      split; [right; exists x; split; [reflexivity|split; [reflexivity|]]|].
      { rewrite E in HU. apply Forall_app in HU as [X _]. apply Forall_app in X as [_ X]. inversion X; assumption. }
      split; [exact Q1|]. split; [exact Q2|]. split; [lia|]. right. split; [reflexivity|].
      destruct U2 as [|y U2]; [congruence|]. cbn [length] in Q5. lia.
  - split; [apply plain_soft, Hpl|]. split; [exact Hnd|]. split; [|exact Hm].
    rewrite plen_app, plen_cons. change (elen mk) with 1. lia.
Qed.
Lemma crash_commit f' U1 x : U = U1 ++ [x] -> lay F f' h (h + NP) pre (es ++ mk :: U1) (ewords x) ERASED ->
  Crash F m' f'.
Proof.
  intros E L'. pose proof (upd_room _ (ewords x) _ _ E (Nat.le_refl _)) as Hr.
  destruct (upd_part _ _ E) as (P1 & P2 & P3 & P4 & P5). rewrite plen_cons, plen_nil in P4.
  right. left. exists h, pre, (es ++ mk :: U1), (ewords x). split; [exact L'|].
  split; [right; intros X; destruct es; discriminate|]. split; [exact Hr|].
  right. right. right. right. left. exists es, (length us), U1, U.
  split; [reflexivity|]. split.
  { right. exists x. split; [exact E|]. split; [reflexivity|]. rewrite E in HU. apply Forall_app in HU as [_ X].
    inversion X; assumption. }
  split; [apply upd_isupd|]. split; [rewrite upd_ukey; exact HN|]. split; [apply map_length|].
  split; [apply plain_soft, Hpl|]. split; [exact Hnd|].
  split; [rewrite plen_app, plen_cons; change (elen mk) with 1; change (length (ewords x)) with (elen x); lia|].
  split; [pose proof (live_len_le U); lia|]. exact final_perm.
Qed.

Lemma wp_write_updates : forall us2 us1 s (P : res store_error unit -> st -> Prop), us = us1 ++ us2 ->
  lay F (fl s) h (h + NP) pre (es ++ mk :: map upd_ent us1) [] ERASED ->
  (forall f', lay F f' h (h + NP) pre (es ++ mk :: U) [] ERASED -> P (Ok tt) (set_fl s f')) ->
  wp F R (write_updates F us2 (h * Q + pre + plen (es ++ mk :: map upd_ent us1))) s P.
Proof.
  induction us2 as [|u us2 IH]; intros us1 s P E L HP.
  - rewrite app_nil_r in E. subst us1. cbn [write_updates]. apply wp_ret. rewrite <- (set_fl_same s). apply HP, L.
  - set (U1 := map upd_ent us1) in *.
    assert (EU : U = U1 ++ upd_ent u :: map upd_ent us2) by (rewrite E, map_app; reflexivity).
    assert (Ou : eok F (upd_ent u)).
    { rewrite EU in HU. apply Forall_app in HU as [_ X]. inversion X; assumption. }
    destruct (upd_part _ _ EU) as (P1 & P2 & P3 & P4 & P5). rewrite plen_cons in P4.
    assert (FIT : h * Q + pre + plen (es ++ mk :: U1) + elen (upd_ent u) <= (h + NP) * Q).
    { pose proof (virt_eq F G).
      pose proof (win_page F G h pre (plen (es ++ mk :: U1) + elen (upd_ent u)) Bq) as X.
      rewrite plen_app, plen_cons in *. change (elen mk) with 1 in *. lia. }
    assert (FULL : forall f', lay F f' h (h + NP) pre (es ++ mk :: U1) (ewords (upd_ent u)) ERASED -> R f').
    { intros f' L'. destruct us2 as [|u2 us2].
      - apply HR2. eapply crash_commit; [exact EU|exact L'].
      - apply HR1. eapply crash_abort; [exact EU|exact L'|apply Nat.le_refl|right; split; [reflexivity|discriminate]]. }
    assert (PART : forall f' gs, lay F f' h (h + NP) pre (es ++ mk :: U1) gs ERASED -> length gs <= elen (upd_ent u) ->
       gs = [] \/ jg_ok F gs \/ ju_ok F gs \/ gs = ewords (upd_ent u) -> R f').
    { intros f' gs L' Hgs Hg. assert (Hg' : gs = ewords (upd_ent u) \/ (gs = [] \/ jg_ok F gs \/ ju_ok F gs)) by tauto.
      destruct Hg' as [->|Hj]; [apply FULL, L'|]. apply HR1. eapply crash_abort; [exact EU|exact L'|exact Hgs|left; exact Hj]. }
    assert (NEXT : forall s2, lay F (fl s2) h (h + NP) pre (es ++ mk :: U1) (ewords (upd_ent u)) ERASED ->
       (forall f', lay F f' h (h + NP) pre (es ++ mk :: U) [] ERASED -> P (Ok tt) (set_fl s2 f')) ->
       wp F R (bind (init_page F (h * Q + pre + plen (es ++ mk :: U1))
                 (h * Q + pre + plen (es ++ mk :: U1) + (elen (upd_ent u) - 1)))
              (fun _ => write_updates F us2 (h * Q + pre + plen (es ++ mk :: U1) + elen (upd_ent u)))) s2 P).
    { intros s2 L2 HP2. apply wp_bind.
      eapply (wp_settle F G R s2 h (h + NP) pre (es ++ mk :: U1) (upd_ent u) ERASED).
      - left. split; [exact L2|exact FULL].
      - exact Ou.
      - intros f' L'.
        replace ((es ++ mk :: U1) ++ [upd_ent u]) with (es ++ mk :: map upd_ent (us1 ++ [u])) in L'
          by (rewrite map_app, <- app_assoc; reflexivity).
        replace (h * Q + pre + plen (es ++ mk :: U1) + elen (upd_ent u))
          with (h * Q + pre + plen (es ++ mk :: map upd_ent (us1 ++ [u])))
          by (rewrite map_app; cbn [map]; fold U1; rewrite !plen_app, !plen_cons, plen_app, plen_one; lia).
        apply (IH (us1 ++ [u])); [rewrite <- app_assoc; exact E|exact L'|exact HP2]. }
    cbn [write_updates]. destruct u as [k v|k]; cbn [upd_ent] in *.
    + eapply wp_bind_lift; [apply (live_facts F G k v Ou)|]. apply wp_bind.
      eapply (wp_write_entry F G R s h (h + NP) pre (es ++ mk :: U1) ERASED k v); [exact L|exact Ou|exact FIT|exact PART|].
      intros f' L'. apply NEXT; [exact L'|]. intros f2 L2. apply (HP f2 L2).
    + eapply wp_bind_lift; [apply (intl_facts F _ Ou)|]. apply wp_bind.
      eapply (wp_write_int F G R s h (h + NP) pre (es ++ mk :: U1) ERASED (IRemove k)); [exact L|exact Ou|exact FIT|exact PART|].
      intros f' L'. change (elen (Intl (IRemove k))) with 1 in NEXT. cbn [Nat.sub] in NEXT. rewrite Nat.add_0_r in NEXT.
      apply NEXT; [exact L'|]. intros f2 L2. apply (HP f2 L2).
Qed.
End WRITE.

Lemma wp_multi (R : flash -> Prop) s m us (P : res store_error unit -> st -> Prop) :
  On F s m -> Forall upd_bytes us -> 0 < length us -> (N.of_nat (length us) <= MAX_UPDATES)%N ->
  updates_valid (limits_of F) [] us = true ->
  let n := (1 + fold_right (fun u s => update_capacity u + s) 0 us)%N in
  let m' := fold_left apply_update us m in
  (forall f', Crash F m f' -> R f') ->
  (forall f', (kv_used m + n <= N.of_nat C)%N -> Crash F m' f' -> R f') ->
  ((N.of_nat C < kv_used m + n)%N -> P (Err NoCapacity) s) ->
  (forall s', (kv_used m + n <= N.of_nat C)%N -> Worn F s' m -> P (Err NoLifetime) s') ->
  (forall s', (kv_used m + n <= N.of_nat C)%N -> On F s' m' -> P (Ok tt) s') ->
  wp F R (bind (reserve F (N.to_nat n)) (fun _ =>
          bind (reads (tail F)) (fun marker =>
          bind (lift (build_internal (IMarker (length us)))) (fun w =>
          bind (write_slice F marker [w]) (fun _ =>
          bind (init_page F marker marker) (fun _ =>
          bind (write_updates F us (marker + 1)) (fun _ =>
          transaction_apply F (map update_key us) marker))))))) s P.
Proof.
  intros (h & pre & es & O) Hb0 Hlen Hmax Hval n m' HR1 HR2 Hcap Hlife HP.
  destruct (valid_facts us [] Hval Hb0) as (HU & HN & _).
  assert (En : N.to_nat n = 1 + plen (map upd_ent us)).
  { unfold n. rewrite <- (upd_plen us HU). lia. }
  pose proof (on_used _ _ _ _ _ O) as Hu.
  assert (Omk : eok F (Intl (IMarker (length us)))).
  { unfold MAX_UPDATES in Hmax. split; [exact Hmax|]. apply N.ltb_ge. exact Hmax. }
  apply wp_bind. eapply (wp_reserve F G R s h pre es m (N.to_nat n)); [exact O|lia|exact HR1| | |].
  { intros X. apply Hcap. lia. }
  { intros s' X Ow. apply Hlife; [lia|exact Ow]. }
  intros s2 h2 pre2 es2 X O2 El2 Hfit. rewrite <- El2 in X. rewrite <- El2 in Hu. clear El2 O Hcap. clear s h pre es.
  rename s2 into s, h2 into h, pre2 into pre, es2 into es, O2 into O.
  assert (Cap : (kv_used m + n <= N.of_nat C)%N) by lia. rewrite En in X, Hfit.
  eapply wp_bind_reads; [eapply (on_tail F G), O|].
  eapply wp_bind_lift; [apply (intl_facts F _ Omk)|].
  assert (Hpg : h * Q + pre + plen es + 1 <= (h + NP) * Q) by (eapply on_fit; [exact O|lia]).
  pose proof O as (Rs & Hh & l & He & Hp). pose proof Rs as (L & Hb & Hr & Hpl & Hnd & Hpm).
  pose proof (b_pre _ _ _ _ _ _ _ _ L) as Bq. pose proof (b_ents _ _ _ _ _ _ _ _ L) as Oes.
  assert (MRK : forall f', lay F f' h (h + NP) pre es [int_word (IMarker (length us))] ERASED -> R f').
  { intros f' L'. apply HR1. right. left. exists h, pre, es, [int_word (IMarker (length us))].
    split; [exact L'|]. split; [exact Hb|].
    split; [split; [apply Hr|]; split; [apply Hr|right; cbn [length]; lia]|].
    right. right. right. left. exists (length us). split; [exact Hlen|]. split; [exact Omk|]. split; [reflexivity|].
    split; [apply plain_soft, Hpl|]. split; [exact Hnd|exact Hpm]. }
  apply wp_bind. eapply (wp_write_int F G R s h (h + NP) pre es ERASED); [exact L|exact Omk|exact Hpg| |].
  { intros f' gs L' Hgs Hg.
    assert (Hg' : gs = [int_word (IMarker (length us))] \/ gs = [] \/ jg_ok F gs \/ ju_ok F gs) by tauto.
    destruct Hg' as [->|Hj]; [apply MRK, L'|]. apply HR1.
    eapply (crash_none _ _ _ _ _ gs 1); [exact Rs|exact L'|exact Hgs|lia|exact Hj]. }
  intros f1 L1. apply wp_bind.
  replace (h * Q + pre + plen es) with (h * Q + pre + plen es + (elen (Intl (IMarker (length us))) - 1)) at 2
    by (change (elen (Intl (IMarker (length us)))) with 1; lia).
  eapply (wp_settle F G R _ h (h + NP) pre es (Intl (IMarker (length us))) ERASED).
  { left. split; [exact L1|exact MRK]. }
  { exact Omk. }
  intros f2 L2. apply wp_bind.
  replace (h * Q + pre + plen es + 1) with (h * Q + pre + plen (es ++ Intl (IMarker (length us)) :: map upd_ent []))
    by (cbn [map]; rewrite plen_app, plen_one; change (elen (Intl (IMarker (length us)))) with 1; lia).
  eapply (wp_write_updates R h pre es m m' us HR1 (fun f' => HR2 f' Cap));
    [exact Bq|apply Hr|exact Oes|exact Hpl|exact Hnd|exact Hpm|reflexivity|exact HU|exact HN|exact Hfit|exact X
    |reflexivity|exact L2|].
  - intros f3 L3.
    eapply (wp_transaction_apply F G R _ h pre es (map upd_ent us) _ l m').
    + rewrite map_length. exact L3.
    + apply upd_isupd.
    + rewrite upd_ukey. exact HN.
    + symmetry. apply upd_ukey.
    + exact Hpl.
    + exact Hnd.
    + rewrite plen_app, plen_cons. change (elen (Intl (IMarker (length (map upd_ent us))))) with 1. lia.
    + pose proof (live_len_le (map upd_ent us)). lia.
    + exact Hh.
    + exact He.
    + exact Hp.
    + apply (final_perm es m m' us); [exact Hpm|reflexivity|exact HN].
    + intros f' Hc. apply HR2; assumption.
    + intros s' Os. apply HP; assumption.
Qed.

(** A transaction does what the specification says, and its interruption leaves the content as
    before, or as after it. *)
Lemma wp_transaction (R : flash -> Prop) s m us (P : res store_error unit -> st -> Prop) :
  On F s m -> Forall upd_bytes us ->
  (forall f', Crash F m f' -> R f') ->
  (forall m' f', Kv.Model.transaction (limits_of F) None m us = Ok m' -> Crash F m' f' -> R f') ->
  (forall e, Kv.Model.transaction (limits_of F) None m us = Err e -> P (Err e) s) ->
  (forall m' s', Kv.Model.transaction (limits_of F) None m us = Ok m' -> Worn F s' m -> P (Err NoLifetime) s') ->
  (forall m' s', Kv.Model.transaction (limits_of F) None m us = Ok m' -> On F s' m' -> P (Ok tt) s') ->
  wp F R (transaction F us) s P.
Proof.
  intros O Hb HR1 HR2 Herr Hlife HP.
  assert (Cm : (kv_used m <= N.of_nat C)%N).
  { destruct O as (h & pre & es & O). rewrite <- (on_used _ _ _ _ _ O). destruct O as ((_ & _ & (_ & X & _) & _) & _). lia. }
  assert (TR : Kv.Model.transaction (limits_of F) None m us =
     if negb (transaction_valid (limits_of F) us) then Err InvalidArgument
     else if (N.of_nat C <? kv_used m + transaction_capacity us)%N then Err NoCapacity
     else Ok (fold_left apply_update us m)) by reflexivity.
  unfold transaction. destruct us as [|u us].
  - apply wp_ret. eapply HP; [|exact O]. rewrite TR. change (transaction_valid (limits_of F) []) with true.
    cbn [negb transaction_capacity]. replace (N.of_nat C <? kv_used m + 0)%N with false; [reflexivity|].
    symmetry. apply N.ltb_ge. lia.
  - destruct us as [|u2 us].
    + destruct u as [k v|k].
      * assert (TV : transaction_valid (limits_of F) [UInsert k v] = negb ((MAX_KEY <? k)%N || (max_value F <? length v))).
        { unfold transaction_valid. change (Nlen [UInsert k v] <=? MAX_UPDATES)%N with true.
          cbn [updates_valid update_key existsb negb andb]. rewrite !andb_true_r, negb_orb.
          rewrite N.leb_antisym. f_equal. cbn [limits_of max_value_len]. unfold Nlen. rewrite N.leb_antisym. f_equal.
          destruct (Nat.ltb_spec (max_value F) (length v)); [apply N.ltb_lt|apply N.ltb_ge]; lia. }
        change (transaction_capacity [UInsert k v]) with (entry_size v) in TR. rewrite TV, negb_involutive in TR.
        change (fold_left apply_update [UInsert k v] m) with (kv_insert m k v) in TR.
        assert (OKR : (k <= MAX_KEY)%N -> length v <= max_value F -> (kv_used m + entry_size v <= N.of_nat C)%N ->
           Kv.Model.transaction (limits_of F) None m [UInsert k v] = Ok (kv_insert m k v)).
        { intros H1 H2 H3. rewrite TR. apply N.ltb_ge in H1, H3. apply Nat.ltb_ge in H2. rewrite H1, H2, H3. reflexivity. }
        inversion_clear Hb as [|? ? B1 _].
        eapply (wp_insert R s m k v); [exact O|exact B1|exact HR1| | | | |].
        -- intros f' H1 H2 H3. apply HR2. apply OKR; assumption.
        -- intros H. apply Herr. rewrite TR. replace ((MAX_KEY <? k)%N || (max_value F <? length v)) with true; [reflexivity|].
           symmetry. apply orb_true_iff. destruct H as [H|H]; [left; apply N.ltb_lt, H|right; apply Nat.ltb_lt, H].
        -- intros H1 H2 H3. apply Herr. rewrite TR. apply N.ltb_ge in H1. apply N.ltb_lt in H3. apply Nat.ltb_ge in H2.
           rewrite H1, H2, H3. reflexivity.
        -- intros s' H1 H2 H3. eapply Hlife. apply OKR; assumption.
        -- intros s' H1 H2 H3. eapply HP. apply OKR; assumption.
      * assert (TV : transaction_valid (limits_of F) [URemove k] = negb (MAX_KEY <? k)%N).
        { unfold transaction_valid. change (Nlen [URemove k] <=? MAX_UPDATES)%N with true.
          cbn [updates_valid update_key existsb negb andb]. rewrite !andb_true_r. apply N.leb_antisym. }
        change (transaction_capacity [URemove k]) with 0%N in TR. rewrite TV, negb_involutive in TR.
        change (fold_left apply_update [URemove k] m) with (kv_remove m k) in TR.
        replace (N.of_nat C <? kv_used m + 0)%N with false in TR by (symmetry; apply N.ltb_ge; lia).
        assert (OKR : (k <= MAX_KEY)%N -> Kv.Model.transaction (limits_of F) None m [URemove k] = Ok (kv_remove m k)).
        { intros H1. rewrite TR. apply N.ltb_ge in H1. rewrite H1. reflexivity. }
        eapply (wp_remove R s m k); [exact O|exact HR1| | |].
        -- intros H1 f'. apply HR2. apply OKR; assumption.
        -- intros H. apply Herr. rewrite TR. apply N.ltb_lt in H. rewrite H. reflexivity.
        -- intros H1 s'. eapply HP. apply OKR; assumption.
    + set (uu := u :: u2 :: us) in *.
      assert (TC : transaction_capacity uu = (1 + fold_right (fun u s => update_capacity u + s) 0 uu)%N).
      { unfold uu. destruct u; reflexivity. }
      rewrite TC in TR.
      assert (GO : wp F R (if negb (transaction_valid (limits_of F) uu) then fail InvalidArgument
        else bind (reserve F (N.to_nat (transaction_capacity uu))) (fun _ =>
          bind (reads (tail F)) (fun marker =>
          bind (lift (build_internal (IMarker (length uu)))) (fun w =>
          bind (write_slice F marker [w]) (fun _ =>
          bind (init_page F marker marker) (fun _ =>
          bind (write_updates F uu (marker + 1)) (fun _ =>
          transaction_apply F (map update_key uu) marker))))))) s P).
      { destruct (transaction_valid (limits_of F) uu) eqn:Ev; cbn [negb] in *.
        - pose proof Ev as Ev2. unfold transaction_valid in Ev2. apply andb_true_iff in Ev2 as [E1 E2]. apply N.leb_le in E1.
          rewrite TC.
          assert (OKR : (kv_used m + (1 + fold_right (fun u s => update_capacity u + s) 0 uu) <= N.of_nat C)%N ->
            Kv.Model.transaction (limits_of F) None m uu = Ok (fold_left apply_update uu m)).
          { intros H. rewrite TR. apply N.ltb_ge in H. rewrite H. reflexivity. }
          eapply (wp_multi R s m uu); [exact O|exact Hb|cbn [uu length]; lia|exact E1|exact E2|exact HR1| | | |].
          + intros f' H. apply HR2, OKR, H.
          + intros H. apply Herr. rewrite TR. apply N.ltb_lt in H. rewrite H. reflexivity.
          + intros s' H. eapply Hlife, OKR, H.
          + intros s' H. eapply HP, OKR, H.
        - apply wp_fail, Herr. exact TR. }
      destruct u as [k v|k]; exact GO.
Qed.

End OPER.
