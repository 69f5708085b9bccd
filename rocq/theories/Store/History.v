(** All histories of a device are right. *)
From Coq Require Import Permutation.
From Verif Require Import Base Facts.
From Verif.Kv Require Import Model.
From Verif.Store Require Import Format Bits Words Geom Model Wp Entries Layout Scan Steps Ents Window Shapes Compact Room Finish Oper Redo Undo Recover System StoreSpec.
Open Scope nat_scope.
Ltac Zify.zify_post_hook ::= idtac.

Lemma get_in m : NoDup (kv_keys m) -> forall k v, kv_get m k = Some v <-> In (k, v) m.
Proof.
  unfold kv_keys. induction m as [|[k0 v0] m IH]; intros Hn k v; cbn [kv_get map fst] in *.
  - split; [discriminate|intros []].
  - inversion_clear Hn as [|? ? Hi Hn']. destruct (N.eqb_spec k0 k) as [->|Hne].
    + split.
      * intros E. injection E as ->. left. reflexivity.
      * intros [E|E]; [injection E as ->; reflexivity|]. exfalso. apply Hi, in_map_iff. exists (k, v). auto.
    + rewrite (IH Hn'). split; [right; assumption|]. intros [E|E]; [|exact E]. injection E as -> _. destruct Hne. reflexivity.
Qed.
Lemma get_perm a b k : Permutation a b -> NoDup (kv_keys a) -> kv_get a k = kv_get b k.
Proof.
  intros Hp Hn. assert (Hb : NoDup (kv_keys b)) by (eapply Permutation_NoDup; [apply Permutation_map, Hp|exact Hn]).
  destruct (kv_get b k) as [v|] eqn:E.
  - apply (get_in _ Hb) in E. apply (get_in _ Hn). eapply Permutation_in; [apply Permutation_sym, Hp|exact E].
  - destruct (kv_get a k) as [v|] eqn:E'; [|reflexivity]. apply (get_in _ Hn) in E'.
    apply (Permutation_in _ Hp), (get_in _ Hb) in E'. congruence.
Qed.

Section HISTORY.
Variable F : format.
Hypothesis G : wff F.
Notation Q := (virt_page_size F).
Notation NP := (num_pages F).
Notation MP := (max_prefix F).
Notation W := (window_size F).
Notation V := (virt_size F).
Notation C := (capacity_of F).
Notation EN := (max_page_erases F).

(** An execution is what it was proved to be. *)
Lemma wp_out {A} (R : flash -> Prop) (m : M A) s (P : res store_error A -> st -> Prop) r s' l :
  wp F R m s P -> m s = (r, s', l) ->
  P r s' /\ (forall f', cut F l f' -> R f') /\ Forall (fun p => legal F (fst p) (snd p)) l.
Proof.
  unfold wp. intros H E. rewrite E in H. destruct H as [H1 H2]. split; [exact H2|]. split.
  - intros f' (f & a & Hi & Hc). apply (trace_in F _ _ _ _ _ _ H1 Hi). exact Hc.
  - apply Forall_forall. intros [f a] Hx. apply (trace_in F _ _ _ _ _ _ H1 Hx).
Qed.
Lemma wp_trace {A} (R : flash -> Prop) (m : M A) s (P : res store_error A -> st -> Prop) r s' l :
  wp F R m s P -> m s = (r, s', l) -> trace F R (fl s) l (fl s').
Proof. unfold wp. intros H E. rewrite E in H. apply H. Qed.
Lemma wp_eq {A} (m : M A) s (a : A) : wp F (fun _ => True) m s (fun r s' => r = Ok a /\ s' = s) ->
  exists l, m s = (Ok a, s, l).
Proof. unfold wp. destruct (m s) as [[r s'] l]. intros (_ & -> & ->). exists l. reflexivity. Qed.

Lemma hents_keys p es : map (fun h => (h_key (snd h), h_length (snd h))) (hents p es) =
  map (fun p => (fst p, length (snd p))) (lives es).
Proof.
  revert p. induction es as [|e es IH]; intros p; [reflexivity|]. rewrite lives_cons.
  destruct e; cbn [hents lives1 app map fst snd]; rewrite IH; reflexivity.
Qed.

Lemma iter_on s h pre es m : on F s h pre es m ->
  exists hs l, iter F s = (Ok hs, s, l) /\ Permutation hs (hents (h * Q + pre) es) /\
    Forall (fun x => exists A k v B, es = A ++ Live k v :: B /\ fst x = h * Q + pre + plen A /\ snd x = hdr k v) hs.
Proof.
  intros ((L & _) & Hh & l & He & Hp).
  destruct (handles_spec F G _ _ _ _ _ _ _ L l) as (hs & E1 & E2 & E3).
  { intros o Ho. apply (Permutation_in _ Hp). apply in_map. exact Ho. }
  assert (Hok : Forall (eok F) es) by apply (b_ents _ _ _ _ _ _ _ _ L).
  destruct (wp_eq (iter F) s hs) as (lg & El).
  { unfold iter. eapply wp_the_head; [exact Hh|]. apply wp_the_ents. rewrite He. cbn [or_invalid]. apply wp_bind_ret.
    apply wp_reads. rewrite E1. auto. }
  exists hs, lg. split; [exact El|]. split; [|exact E3].
  apply NoDup_Permutation_bis.
  - apply (NoDup_map_inv fst). rewrite E2. eapply Permutation_NoDup; [apply Permutation_sym, Hp|].
    apply (lpos_nodup F G), Hok.
  - apply Nat.eq_le_incl. transitivity (length (map fst hs)); [|apply map_length].
    transitivity (length (map fst (hents (h * Q + pre) es))); [symmetry; apply map_length|].
    rewrite E2, hents_fst. symmetry. apply Permutation_length, Hp.
  - intros x Hx. rewrite Forall_forall in E3. destruct (E3 x Hx) as (A & k & v & B & E & X1 & X2).
    destruct x as [p hd]. cbn [fst snd] in *. subst p hd es. apply hents_in.
Qed.

Lemma get_value_on s h pre A k v B m : on F s h pre (A ++ Live k v :: B) m ->
  exists l, get_value F (h * Q + pre + plen A) s = (Ok v, s, l).
Proof.
  intros ((L & _) & Hh & _). apply wp_eq. unfold get_value. eapply wp_the_head; [exact Hh|].
  replace (h * Q + pre + plen A <? h * Q + pre) with false by (symmetry; apply Nat.ltb_ge; lia).
  apply wp_reads. rewrite (lay_parse F G _ _ _ _ _ _ _ _ _ L) by exact Logic.I.
  pose proof (lay_seg_at F _ _ _ _ _ _ _ _ _ L) as Sg.
  pose proof (lay_ok_at F _ _ _ _ _ _ _ _ _ L) as (Hk & Hv & Hlen). cbn [ewords] in Sg.
  pose proof (live_facts F G k v (conj Hk (conj Hv Hlen))) as (_ & Eu & _).
  rewrite Eu in Sg. apply seg_cons in Sg as [_ Sg]. apply seg_words in Sg.
  rewrite value_words_length in Sg.
  cbn [rbind fst pent h_length h_flipped]. rewrite Sg.
  pose proof (value_roundtrip v Hv) as VR. unfold value_of in VR.
  assert (Ne : flip_of v = true -> v <> []) by (intros X ->; discriminate X).
  split; [|reflexivity].
  destruct (flip_of v); [|rewrite VR; reflexivity]. unfold set_last in VR.
  destruct (firstn (length v) (bytes_of (value_words v))); [|rewrite VR; reflexivity].
  exfalso. apply Ne; [reflexivity|]. symmetry. exact VR.
Qed.

Lemma lifetime_on s h pre es m : on F s h pre es m ->
  exists l, lifetime F s = (Ok (h * Q + pre + plen es, total_lifetime F), s, l) /\
    h * Q + pre + plen es <= total_lifetime F.
Proof.
  intros O. destruct (wp_eq (lifetime F) s (h * Q + pre + plen es, total_lifetime F)) as (l & E).
  { unfold lifetime. eapply wp_bind_reads; [eapply (on_tail F G), O|]. apply wp_ret. auto. }
  exists l. split; [exact E|]. destruct O as ((L & _ & (Hi & _) & _) & _).
  pose proof (iw_win F G _ _ _ Hi) as Hw. pose proof (b_pre _ _ _ _ _ _ _ _ L) as Bq.
  pose proof (b_life _ _ _ _ _ _ _ _ L) as Bl. pose proof (g_N F G) as HN.
  unfold total_lifetime, position.
  assert (X : h * Q + pre + plen es <= (h + (NP - 1)) * Q).
  { unfold window_size in Hw. pose proof (g_M F G). assert (MP <= (NP - 1) * Q).
    { assert (1 * Q <= (NP - 1) * Q) by (apply Nat.mul_le_mono_r; lia). lia. }
    rewrite Nat.mul_add_distr_r. lia. }
  assert (Y : (h + (NP - 1)) * Q <= (EN * NP + (NP - 1)) * Q) by (apply Nat.mul_le_mono_r; lia). lia.
Qed.

Lemma on_nodup s h pre es m : on F s h pre es m -> NoDup (kv_keys (lives es)) /\ NoDup (kv_keys m) /\ Permutation (lives es) m.
Proof.
  intros ((_ & _ & _ & _ & Hn & Hm) & _). split; [exact Hn|]. split; [|exact Hm].
  eapply Permutation_NoDup; [apply Permutation_map, Hm|exact Hn].
Qed.

Lemma on_shows s m : On F s m -> shows_running F s m.
Proof.
  intros (h & pre & es & O). destruct (on_nodup _ _ _ _ _ O) as (Hn & Hnm & Hm). pose proof O as ((L & _ & (_ & Hl & _) & _) & Hh & l & He & Hp).
  split; [exact Hnm|]. split; [|split; [|split]].
  - intros k. apply wp_eq. eapply (wp_find F G); [exact L|exact Hh|exact He|exact Hp|exact Hn|].
    rewrite (get_perm _ _ k Hm Hn). auto.
  - destruct (iter_on _ _ _ _ _ O) as (hs & lg & E & Ph & Hf). exists hs, lg. split; [exact E|]. split.
    + eapply perm_trans; [apply Permutation_map, Ph|]. rewrite hents_keys. apply Permutation_map, Hm.
    + intros x Hx. rewrite Forall_forall in Hf. destruct (Hf x Hx) as (A & k & v & B & Ees & Ex1 & Ex2).
      exists v. rewrite Ex1, Ex2. subst es. destruct (get_value_on _ _ _ _ _ _ _ _ O) as (l' & Ev). exists l'.
      split; [exact Ev|]. cbn [h_key hdr]. rewrite <- (get_perm _ _ k Hm Hn). apply (get_in _ Hn), lives_in. exists A, B. reflexivity.
  - destruct (wp_eq (capacity F) s (live_len es, C)) as (lg & E).
    { unfold capacity. apply wp_bind. eapply (wp_used F G); [exact L|exact Hh|exact He|exact Hp|]. apply wp_ret. auto. }
    exists (live_len es), lg. split; [exact E|]. split; [apply (on_used F G _ _ _ _ _ O)|exact Hl].
  - destruct (lifetime_on _ _ _ _ _ O) as (lg & E & X). exists (h * Q + pre + plen es), (total_lifetime F), lg. auto.
Qed.
Lemma worn_worn s m : Worn F s m -> worn_out F s.
Proof.
  intros (h & pre & es & O & Hw). destruct (lifetime_on _ _ _ _ _ O) as (lg & E & _).
  exists (h * Q + pre + plen es), (total_lifetime F), lg. split; [exact E|].
  assert (EN * NP * Q <= h * Q) by (apply Nat.mul_le_mono_r; exact Hw). lia.
Qed.

(* ------------------------------------------------------------------- the calls *)

Lemma on_cap s m : On F s m -> (kv_used m <= N.of_nat C)%N.
Proof. intros (h & pre & es & O). rewrite <- (on_used F G _ _ _ _ _ O). destruct O as ((_ & _ & (_ & Hl & _) & _) & _). lia. Qed.

Lemma remove_effect s m k : On F s m -> Kv.Model.transaction (limits_of F) None m [URemove k] =
  if (k <=? MAX_KEY)%N then Ok (kv_remove m k) else Err InvalidArgument.
Proof.
  intros O. pose proof (on_cap _ _ O). unfold Kv.Model.transaction, transaction_valid. cbn [updates_valid update_key existsb negb andb].
  change (Nlen [URemove k] <=? MAX_UPDATES)%N with true. rewrite !andb_true_r. cbn [andb].
  destruct (k <=? MAX_KEY)%N; cbn [negb]; [|reflexivity].
  unfold transaction_capacity, limits_of. cbn [total_capacity]. rewrite N.add_0_r.
  destruct (N.ltb_spec (N.of_nat C) (kv_used m)); [lia|]. reflexivity.
Qed.

Lemma wp_remove_handle (R : flash -> Prop) s h pre A k v B m (P : res store_error unit -> st -> Prop) :
  on F s h pre (A ++ Live k v :: B) m ->
  (forall f', Crash F m f' -> R f') ->
  (forall f', Crash F (kv_remove m k) f' -> R f') ->
  (forall s', On F s' (kv_remove m k) -> P (Ok tt) s') ->
  wp F R (remove_handle F (h * Q + pre + plen A) (length v)) s P.
Proof.
  intros O HR1 HR2 HP. pose proof O as ((L & Hb & Hr & Hpl & Hnd & Hpm) & Hh & l & He & Hp).
  unfold remove_handle. eapply wp_the_head; [exact Hh|].
  replace (h * Q + pre + plen A <? h * Q + pre) with false by (symmetry; apply Nat.ltb_ge; lia).
  set (es := A ++ Live k v :: B) in *. set (del := fun k' => (k' =? k)%N).
  assert (RST : forall f' ws m', length ws = elen (Live k v) ->
    lay F f' h (h + NP) pre (A ++ Dead ws :: B) [] ERASED -> Permutation (lives (A ++ Dead ws :: B)) m' ->
    rest F f' h pre (A ++ Dead ws :: B) m').
  { intros f' ws m' Hl L' Hm.
    assert (Hw : wiping del es (A ++ Dead ws :: B)).
    { apply (wiping_set del es A k v B ws); [apply wiping_refl|apply N.eqb_refl|exact Hl]. }
    pose proof (wiping_leq _ _ _ Hw) as Hq.
    split; [exact L'|]. split; [eapply based_leq; eassumption|]. split; [eapply (room_leq F); eassumption|].
    split; [eapply wiping_plain; eassumption|]. split; [eapply wiping_nodup; eassumption|exact Hm]. }
  assert (KM : forall ws, Permutation (lives (A ++ Dead ws :: B)) (kv_remove m k)).
  { intros ws. eapply perm_trans; [|apply filter_perm, Hpm]. unfold es in Hnd |- *. unfold keys in Hnd.
    rewrite lives_app, lives_cons in Hnd |- *. rewrite lives_app, lives_cons. cbn [lives1 app] in Hnd |- *.
    rewrite filter_app. cbn [filter fst]. rewrite N.eqb_refl. cbn [negb].
    rewrite map_app in Hnd. cbn [map fst] in Hnd. apply NoDup_remove_2 in Hnd.
    assert (X : forall m0 : kv, ~ In k (map fst m0) -> filter (fun p => negb (fst p =? k)%N) m0 = m0).
    { intros m0 H. induction m0 as [|[k0 v0] m0 IH]; [reflexivity|]. cbn [filter fst map] in *.
      destruct (N.eqb_spec k0 k) as [->|]; [exfalso; apply H; left; reflexivity|]. cbn [negb]. rewrite IH; [reflexivity|].
      intros H'. apply H. right. exact H'. }
    rewrite !X; [apply Permutation_refl| |]; intros H; apply Hnd, in_or_app; auto. }
  apply wp_bind. eapply (wp_delete_pos F G); [exact L| | |].
  - intros f' L'. apply HR1. eapply rest_crash. split; [exact L'|]. repeat (split; [eassumption|]). exact Hpm.
  - intros f' ws Hl L'. apply HR2. eapply rest_crash. eapply RST; [exact Hl|exact L'|apply KM].
  - intros f' ws Hl L'.
    assert (NPQ : plen es <= NP * Q).
    { pose proof (b_fit _ _ _ _ _ _ _ _ L) as Bf. rewrite Nat.mul_add_distr_r in Bf. lia. }
    eapply (wp_remove_entry F G R _ (h * Q + pre) _ (lpos (h * Q + pre) (A ++ Dead ws :: B))).
    + exact Hh.
    + unfold es in NPQ. rewrite plen_app in NPQ. lia.
    + unfold ents_ok. cbn [st_ents set_fl]. rewrite He. eapply perm_trans; [exact Hp|].
      unfold es. apply Permutation_sym. apply Permutation_sym. apply lpos_swap. exact Hl.
    + intros l' Hl1 Hl2. apply HP. exists h, pre, (A ++ Dead ws :: B). split; [|split].
      * cbn [fl set_ents set_fl]. eapply RST; [exact Hl|exact L'|apply KM].
      * exact Hh.
      * unfold ents_ok in Hl2. cbn [st_ents set_ents set_fl] in *. destruct l' as [l'|]; [exists l'; auto|].
        exfalso. rewrite He in Hl1. destruct Hl1 as [_ X]. discriminate (X eq_refl).
Qed.

(** The outcome of a call. *)
Definition after_call (m : kv) (c : call) (r : res store_error unit) (s' : st) : Prop :=
  (exists m', r = Ok tt /\ effect F m c (Ok m') /\ On F s' m') \/
  (exists e, r = Err e /\ effect F m c (Err e) /\ On F s' m) \/
  (exists m', r = Err NoLifetime /\ needs_room c = true /\ effect F m c (Ok m') /\ Worn F s' m).
Definition during_call (m : kv) (c : call) (f' : flash) : Prop :=
  Crash F m f' \/ exists m', effect F m c (Ok m') /\ Crash F m' f'.

Lemma wp_transaction_call s m us c : On F s m -> Forall upd_bytes us ->
  (forall r, effect F m (CTransaction us) r -> effect F m c r) ->
  needs_room c = needs_room (CTransaction us) ->
  wp F (during_call m c) (Model.transaction F us) s (after_call m c).
Proof.
  intros O Hb He Hn. pose proof (eff_transaction F m us) as Ef. apply He in Ef.
  assert (R1 : forall f', Crash F m f' -> during_call m c f') by (left; assumption).
  destruct (needs_room c) eqn:Nr.
  - eapply (wp_transaction F G); [exact O|exact Hb|exact R1| | | |].
    + intros m' f' E X. right. exists m'. rewrite E in Ef. auto.
    + intros e E. rewrite E in Ef. right. left. exists e. auto.
    + intros m' s' E X. rewrite E in Ef. right. right. exists m'. auto.
    + intros m' s' E X. rewrite E in Ef. left. exists m'. auto.
  - destruct us as [|[k v|k] [|]]; try discriminate.
    + apply wp_ret. left. exists m. split; [reflexivity|]. split; [|exact O].
      replace (Kv.Model.transaction (limits_of F) None m []) with (Ok (E := store_error) m) in Ef; [exact Ef|].
      unfold Kv.Model.transaction. cbn [transaction_capacity fold_left limits_of total_capacity].
      change (transaction_valid (limits_of F) []) with true. cbn [negb]. rewrite N.add_0_r. pose proof (on_cap _ _ O).
      destruct (N.ltb_spec (N.of_nat C) (kv_used m)); [lia|reflexivity].
    + rewrite (remove_effect _ _ _ O) in Ef. cbn [Model.transaction].
      eapply (wp_remove F G); [exact O|exact R1| | |].
      * intros Hk f' X. right. exists (kv_remove m k). apply N.leb_le in Hk. rewrite Hk in Ef. auto.
      * intros Hk. apply N.leb_gt in Hk. rewrite Hk in Ef. right. left. exists InvalidArgument. auto.
      * intros Hk s' X. apply N.leb_le in Hk. rewrite Hk in Ef. left. exists (kv_remove m k). auto.
Qed.

Lemma wp_call s m c : On F s m -> call_ok F s c -> wp F (during_call m c) (do_call F c) s (after_call m c).
Proof.
  intros O Hc. assert (R1 : forall f', Crash F m f' -> during_call m c f') by (left; assumption).
  destruct c as [us|k v|k|[pos hd]|k|n|]; cbn [do_call call_ok] in *.
  - apply wp_transaction_call; auto.
  - apply (wp_transaction_call s m [UInsert k v]); try exact O; try reflexivity.
    + constructor; [exact Hc|constructor].
    + intros r H. inversion H. constructor.
  - apply (wp_transaction_call s m [URemove k]); try exact O; try reflexivity.
    + constructor; [exact Logic.I|constructor].
    + intros r H. inversion H. constructor.
  - destruct O as (h & pre & es & O). destruct Hc as (hs & l & Ei & Hi).
    destruct (iter_on _ _ _ _ _ O) as (hs' & l' & Ei' & _ & Hf). rewrite Ei in Ei'. injection Ei' as <- <-.
    rewrite Forall_forall in Hf. destruct (Hf _ Hi) as (A & k & v & B & E & E1 & E2). cbn [fst snd] in *. subst es pos hd.
    cbn [h_length hdr].
    eapply wp_remove_handle; [exact O|exact R1| |].
    + intros f' X. right. exists (kv_remove m k). split; [|exact X]. apply (eff_handle F m _ (hdr k v)).
    + intros s' X. left. exists (kv_remove m k). split; [reflexivity|]. split; [|exact X]. apply (eff_handle F m _ (hdr k v)).
  - pose proof (eff_clear F m k) as Ef. eapply (wp_clear F G); [exact O|exact R1| | | |].
    + intros f' Hk X. apply N.leb_le in Hk. rewrite Hk in Ef. right. eauto.
    + intros Hk. apply N.leb_gt in Hk. rewrite Hk in Ef. right. left. eauto.
    + intros s' Hk X. apply N.leb_le in Hk. rewrite Hk in Ef. right. right. eauto 10.
    + intros s' Hk X. apply N.leb_le in Hk. rewrite Hk in Ef. left. eauto.
  - pose proof (eff_prepare F m n) as Ef. eapply (wp_prepare F G); [exact O|exact R1| | |].
    + intros Hk. apply N.leb_gt in Hk. rewrite Hk in Ef. right. left. eauto.
    + intros s' Hk X. apply N.leb_le in Hk. rewrite Hk in Ef. right. right. eauto 10.
    + intros s' Hk X. apply N.leb_le in Hk. rewrite Hk in Ef. left. eauto.
  - pose proof (eff_compact F m) as Ef. destruct O as (h & pre & es & O).
    eapply (on_compact F G); [exact O|exact R1| |].
    + intros X. right. right. exists m. repeat split; auto. exists h, pre, es. auto.
    + intros s' pre' es' _ X. left. exists m. repeat split; auto. eexists _, _, _. exact X.
Qed.

Lemma wp_boot f m : Crash F m f ->
  wp F (Crash F m) (recover F) (mkSt f None None) (fun r s' => r = Ok tt /\ On F s' m).
Proof. intros H. eapply (wp_recover F G); [exact H|reflexivity|auto|auto]. Qed.
Lemma boot_ok f m : Crash F m f -> exists s l, boot F f = (Ok tt, s, l) /\ On F s m.
Proof.
  intros H. pose proof (wp_boot f m H) as X. unfold boot, wp in *. destruct (recover F (mkSt f None None)) as [[r s] l].
  destruct X as (_ & -> & X). eauto.
Qed.

(* -------------------------------------------------------------------- histories *)

(** The device holds [m]. *)
Definition holds (d : device) (m : kv) : Prop :=
  match d with Running s => On F s m | Off f => Crash F m f end.
Lemma holds_shows d m : holds d m -> shows F d m.
Proof.
  destruct d as [s|f]; cbn [holds shows]; intros H; [apply on_shows, H|].
  destruct (boot_ok f m H) as (s & l & E & X). exists s, l. split; [exact E|apply on_shows, X].
Qed.

Lemma step_holds d m e d' : holds d m -> step F d e d' -> exists m', allowed F m d e d' m' /\ holds d' m'.
Proof.
  intros H S. inversion S; subst; cbn [holds] in *.
  - destruct (wp_out _ _ _ _ _ _ _ (wp_call s m c H H0) H1) as (A & _).
    destruct A as [(m' & -> & E & X)|[(e & -> & E & X)|(m' & -> & N & E & X)]].
    + exists m'. split; [apply all_done, E|exact X].
    + exists m. split; [apply all_refused, E|exact X].
    + exists m. split; [eapply all_worn; [exact N|exact E|eapply worn_worn, X]|apply (worn_on F), X].
  - destruct (wp_out _ _ _ _ _ _ _ (wp_call s m c H H0) H1) as (_ & A & _).
    destruct (A _ H2) as [X|(m' & E & X)].
    + exists m. split; [apply all_cut_before|exact X].
    + exists m'. split; [apply all_cut_after, E|exact X].
  - exists m. split; [apply all_cut|apply (on_crash F), H].
  - destruct (wp_out _ _ _ _ _ _ _ (wp_boot f m H) H0) as ((_ & X) & _). exists m. split; [apply all_boot|exact X].
  - destruct (wp_out _ _ _ _ _ _ _ (wp_boot f m H) H0) as ((X & _) & _). discriminate.
  - destruct (wp_out _ _ _ _ _ _ _ (wp_boot f m H) H0) as (_ & A & _). exists m. split; [apply all_cut_boot|auto].
Qed.

Lemma history_right d m t : holds d m -> history F d t -> right F m d t.
Proof.
  intros H T. revert m H. induction T as [d|d e d' t S T IH]; intros m H; [constructor|].
  destruct (step_holds d m e d' H S) as (m' & A & X). econstructor; [exact A|apply holds_shows, X|apply IH, X].
Qed.

Lemma blank_holds : holds (Off blank_flash) [].
Proof.
  left. split; [reflexivity|]. split; [intros p x; apply w32_erased|]. split; [|split; [auto|split; [left; reflexivity|reflexivity]]].
  apply sub_erased. destruct (init_word_parse F 0 0) as (_ & X & _); try lia. exact X.
Qed.

Lemma history_end d m t e d' : holds d m -> history F d (t ++ [(e, d')]) -> exists m', holds d' m'.
Proof.
  intros H T. revert d m H T. induction t as [|[e0 d0] t IH]; intros d m H T.
  - cbn [app] in T. inversion T as [|? ? ? ? S _]; subst. destruct (step_holds _ _ _ _ H S) as (m' & _ & X). eauto.
  - cbn [app] in T. inversion T as [|? ? ? ? S T']; subst. destruct (step_holds _ _ _ _ H S) as (m' & _ & X). eauto.
Qed.
Lemma reachable_holds d : reachable F d -> exists m, holds d m.
Proof.
  intros [->|(t & e & T)]; [exists []; apply blank_holds|]. eapply history_end; [apply blank_holds|exact T].
Qed.

(* ------------------------------------------------------------------------- wear *)

(** The counters of a flash are within the limits. *)
Definition bounded (f : flash) : Prop :=
  forall p, p < NP -> erases f p <= EN /\ forall x, x < Q + 2 -> writes f p x <= 2.
Lemma legal_done f a : legal F f a -> bounded f -> bounded (do_action f a).
Proof.
  intros La B p Hp. destruct (B p Hp) as [B1 B2]. destruct a as [page word ws|page]; cbn [do_action erases writes legal] in *.
  - destruct La as (L1 & L2 & L3 & L4). split; [exact B1|]. intros x Hx. specialize (B2 x Hx).
    destruct (act_cells f (AWrite page word ws) p x =? f p x)%N eqn:E; [exact B2|]. apply N.eqb_neq in E.
    cbn [act_cells] in E. destruct ((p =? page) && ((word <=? x) && (x <? word + length ws))) eqn:Er; [|destruct E; reflexivity].
    apply andb_true_iff in Er as [E1 Er]. apply andb_true_iff in Er as [E2 E3].
    apply Nat.eqb_eq in E1. apply Nat.leb_le in E2. apply Nat.ltb_lt in E3. subst p.
    specialize (L4 (x - word) ltac:(lia)). replace (word + (x - word)) with x in L4 by lia.
    apply L4. intros Y. apply E. rewrite <- Y. apply N.land_diag.
  - destruct La as (L1 & L2). destruct (Nat.eqb_spec p page) as [->|]; split; [exact L2|intros; lia|exact B1|exact B2].
Qed.
Lemma legal_interrupted f a f' : legal F f a -> interrupted F f a f' -> bounded f -> bounded f'.
Proof.
  intros La (_ & I) B p Hp. pose proof (legal_done f a La B p Hp) as [D1 D2]. destruct (B p Hp) as [B1 B2].
  destruct a as [page word ws|page]; destruct I as [I1 I2].
  - split; [rewrite I2; exact B1|]. intros x Hx. rewrite I1. destruct (_ =? _)%N; auto.
  - cbn [do_action erases writes] in *. split.
    + rewrite I2. destruct ((p =? page) && page_erased F f' page) eqn:E; [|exact B1].
      apply andb_true_iff in E as [E _]. rewrite E in D1. exact D1.
    + intros x Hx. rewrite I1. destruct (_ && _); [lia|auto].
Qed.
Lemma trace_bounded R f l f1 : trace F R f l f1 -> bounded f ->
  bounded f1 /\ forall f0 a, In (f0, a) l -> legal F f0 a /\ bounded f0.
Proof.
  induction 1 as [f|f a l f1 La _ T IH]; intros B; [split; [exact B|intros ? ? []]|].
  destruct (IH (legal_done _ _ La B)) as [B1 B2]. split; [exact B1|]. intros f0 a0 [E|Hi]; [injection E as <- <-; auto|auto].
Qed.
Lemma trace_cut R f l f1 f' : trace F R f l f1 -> bounded f -> cut F l f' -> bounded f'.
Proof.
  intros T B (f0 & a & Hi & Hc). destruct (trace_bounded _ _ _ _ T B) as [_ X]. destruct (X _ _ Hi) as [La B0].
  eapply legal_interrupted; eassumption.
Qed.
Lemma step_bounded d m e d' : holds d m -> step F d e d' -> bounded (flash_of d) -> bounded (flash_of d').
Proof.
  intros H S B. inversion S as [s c r s' l Hc E|s c r s' l f' Hc E Hx|s|f s l E|f e0 s l E|f r s l f' E Hx]; subst;
    cbn [holds flash_of] in *; try exact B.
  - exact (proj1 (trace_bounded _ _ _ _ (wp_trace _ _ _ _ _ _ _ (wp_call s m c H Hc) E) B)).
  - exact (trace_cut _ _ _ _ _ (wp_trace _ _ _ _ _ _ _ (wp_call s m c H Hc) E) B Hx).
  - exact (proj1 (trace_bounded _ _ _ _ (wp_trace _ _ _ _ _ _ _ (wp_boot f m H) E) B)).
  - exact (proj1 (trace_bounded _ _ _ _ (wp_trace _ _ _ _ _ _ _ (wp_boot f m H) E) B)).
  - exact (trace_cut _ _ _ _ _ (wp_trace _ _ _ _ _ _ _ (wp_boot f m H) E) B Hx).
Qed.
Lemma history_bounded d m t e d' : holds d m -> bounded (flash_of d) -> history F d (t ++ [(e, d')]) -> bounded (flash_of d').
Proof.
  intros H B T. revert d m H B T. induction t as [|[e0 d0] t IH]; intros d m H B T.
  - cbn [app] in T. inversion T as [|? ? ? ? S _]; subst. exact (step_bounded _ _ _ _ H S B).
  - cbn [app] in T. inversion T as [|? ? ? ? S T']; subst. destruct (step_holds _ _ _ _ H S) as (m' & _ & X).
    exact (IH _ _ X (step_bounded _ _ _ _ H S B) T').
Qed.
Lemma reachable_bounded d : reachable F d -> bounded (flash_of d).
Proof.
  assert (B0 : bounded (flash_of (Off blank_flash))) by (intros p _; cbn; split; intros; lia).
  intros [->|(t & e & T)]; [exact B0|]. exact (history_bounded _ _ _ _ _ blank_holds B0 T).
Qed.

End HISTORY.
