(** Recovery of an interrupted transaction: it is committed, or rolled back. *)
From Coq Require Import Permutation.
From Verif Require Import Base Facts.
From Verif.Kv Require Import Model.
From Verif.Store Require Import Format Bits Words Geom Model Wp Entries Layout Scan Steps Ents Window Shapes Compact Room Finish Oper Redo.
Open Scope nat_scope.
Ltac Zify.zify_post_hook ::= idtac.

Section UNDO.
Variable F : format.
Hypothesis G : wff F.
Notation Q := (virt_page_size F).
Notation NP := (num_pages F).
Notation MP := (max_prefix F).
Notation W := (window_size F).
Notation V := (virt_size F).
Notation C := (capacity_of F).
Notation EN := (max_page_erases F).

(** No update starts here. *)
Definition stops (f : flash) (p : nat) : Prop :=
  exists e p', parse_entry F f p = Ok (e, p') /\
    match e with ETail | EPadding | EPartial | EPartialUser => True | _ => False end.

Lemma keys_spec f e : forall us p fuel keys prev,
  seg F f p (flat us) -> Forall (eok F) us -> Forall isupd us -> NoDup (keys ++ map ukey us) ->
  p + plen us < e -> e <= p + fuel -> stops f (p + plen us) ->
  keys_loop F f fuel p e keys prev =
    Ok (keys ++ map ukey us, match us with [] => prev | _ => p + plen (removelast us) end).
Proof.
  induction us as [|x us IH]; intros p fuel keys prev Hs Ho Hu Hn He Hf Hst.
  - cbn [map]. rewrite app_nil_r. change (plen []) with 0 in *. rewrite Nat.add_0_r in *.
    destruct fuel as [|fuel]; [lia|]. cbn [keys_loop].
    replace (e <=? p) with false by (symmetry; apply Nat.leb_gt; lia).
    destruct Hst as (r & p' & E & Hr). rewrite E. cbn [bind]. destruct r; try (destruct Hr; fail); reflexivity.
  - inversion_clear Ho as [|? ? Ox Ous]. inversion_clear Hu as [|? ? Ux Uus].
    rewrite plen_cons in He, Hst. rewrite flat_cons in Hs. apply seg_app in Hs as [Hs1 Hs2]. fold (elen x) in Hs2.
    destruct fuel as [|fuel]; [lia|]. cbn [keys_loop].
    replace (e <=? p) with false by (symmetry; apply Nat.leb_gt; lia).
    pose proof (eok_len F G x Ox) as Lx.
    rewrite (parse_ent F G f p x Ox ltac:(destruct x; try (destruct Ux; fail); discriminate) Hs1). cbn [bind].
    rewrite map_cons in Hn |- *.
    assert (Ne : existsb (N.eqb (ukey x)) keys = false).
    { destruct (existsb (N.eqb (ukey x)) keys) eqn:E; [|reflexivity]. apply existsb_in in E.
      destruct (NoDup_remove_2 _ _ _ Hn). apply in_app_iff. left. exact E. }
    assert (REC : keys_loop F f fuel (p + elen x) e (keys ++ [ukey x]) p =
      Ok (keys ++ ukey x :: map ukey us, p + plen (removelast (x :: us)))).
    { rewrite IH; try assumption.
      - rewrite <- app_assoc. cbn [app]. f_equal. f_equal. destruct us as [|y us].
        + cbn [removelast]. change (plen []) with 0. lia.
        + change (removelast (x :: y :: us)) with (x :: removelast (y :: us)). rewrite plen_cons. lia.
      - rewrite <- app_assoc. exact Hn.
      - lia.
      - lia.
      - rewrite <- Nat.add_assoc. exact Hst. }
    destruct x as [k v|ws|[]|n]; try (destruct Ux; fail); cbn [pent h_key ukey rbind] in *; cbv beta iota zeta; rewrite Ne; exact REC.
Qed.

Section RUN.
Variable R : flash -> Prop.
Variable m : kv.
Variable P : res store_error unit -> st -> Prop.
Hypothesis HR : forall f', Crash F m f' -> R f'.
Hypothesis HP : forall s', On F s' m -> P (Ok tt) s'.

(** Deleted entries are skipped when rolling back. *)
Lemma wp_rollback_skip e : forall ds s p fuel (P0 : res store_error unit -> st -> Prop),
  seg F (fl s) p (flat ds) -> Forall (eok F) ds -> Forall is_dead ds -> p + plen ds < e -> e <= p + fuel ->
  (forall fuel', e <= p + plen ds + fuel' -> wp F R (rollback_loop F fuel' (p + plen ds) e) s P0) ->
  wp F R (rollback_loop F fuel p e) s P0.
Proof.
  induction ds as [|d ds IH]; intros s p fuel P0 Hs Ho Hd He Hf H.
  - change (plen []) with 0 in H. rewrite Nat.add_0_r in H. apply H, Hf.
  - inversion_clear Ho as [|? ? Ox Ous]. inversion_clear Hd as [|? ? Ux Uus].
    rewrite flat_cons in Hs. apply seg_app in Hs as [Hs1 Hs2]. fold (elen d) in Hs2.
    rewrite plen_cons in He. setoid_rewrite plen_cons in H. pose proof (eok_len F G d Ox) as Ld.
    destruct fuel as [|fuel]; [lia|]. cbn [rollback_loop].
    replace (e <=? p) with false by (symmetry; apply Nat.leb_gt; lia).
    destruct d as [|ws| |]; try (destruct Ux; fail).
    eapply wp_bind_reads; [apply (parse_ent F G); [exact Ox|discriminate|exact Hs1]|]. cbn [pent]. cbn beta iota.
    apply IH; try assumption; [lia|lia|]. intros fuel' Hf'. rewrite <- Nat.add_assoc. apply H. lia.
Qed.

(** What is left of the transaction once it is rolled back. *)
Lemma wp_rollback h pre A n : Forall plain A -> NoDup (keys A) -> Permutation (lives A) m ->
  let mk := Intl (IMarker n) in 0 < n ->
  forall us D J fuel s (P0 : res store_error unit -> st -> Prop),
  lay F (fl s) h (h + NP) pre (A ++ mk :: D ++ us) J ERASED ->
  Forall is_dead D -> Forall isupd us -> NoDup (map ukey us) -> D <> [] \/ length us < n ->
  J = [] \/ jg_ok F J \/ ju_ok F J ->
  plen (A ++ mk :: D ++ us) + length J <= V -> live_len A + live_len us <= C ->
  W <= plen (A ++ mk :: D) + fuel ->
  (forall f' D', lay F f' h (h + NP) pre (A ++ mk :: D') [] ERASED -> Forall is_dead D' ->
     plen (A ++ mk :: D') <= V -> P0 (Ok tt) (set_fl s f')) ->
  wp F R (rollback_loop F fuel (h * Q + pre + plen (A ++ mk :: D)) (h * Q + pre + W)) s P0.
Proof.
  intros Hpl Hnd Hm mk Hn0. pose proof (virt_win F G) as VW. pose proof (plain_soft _ Hpl) as Hso.
  assert (CRJ : forall f' D us J, lay F f' h (h + NP) pre (A ++ mk :: D ++ us) J ERASED ->
    Forall is_dead D -> Forall isupd us -> NoDup (map ukey us) -> D <> [] \/ length us < n ->
    J = [] \/ jg_ok F J \/ ju_ok F J ->
    plen (A ++ mk :: D ++ us) + length J <= V -> live_len A + live_len us <= C -> R f').
  { intros f' D us J L Hd Hu Hk Hc HJ Hv Hl. apply HR. right. left. exists h, pre, (A ++ mk :: D ++ us), J.
    split; [exact L|].
    assert (Hll : live_len (A ++ mk :: D ++ us) <= C).
    { destruct (dead_copies D Hd) as (_ & _ & X & _). rewrite live_len_app. change (live_len (mk :: D ++ us)) with (live_len (D ++ us)). rewrite live_len_app, X. lia. }
    split; [right; intros E; apply app_eq_nil in E as [_ E]; discriminate|]. split.
    - split; [|split; [exact Hll|right; exact Hv]].
      apply (iw_reset F G); [lia|exact Hll|apply (b_pre _ _ _ _ _ _ _ _ L)].
    - do 5 right. exists A, n, D, us. repeat (split; [first [reflexivity|assumption]|]). split.
      + destruct HJ as [->|HJ].
        * right. exists us. split; [left; split; reflexivity|]. repeat (split; [assumption|]).
          destruct Hc as [Hc|Hc]; [left; split; [exact Hc|reflexivity]|].
          destruct D; [right; split; [reflexivity|exact Hc]|left; split; [discriminate|reflexivity]].
        * left. split; assumption.
      + repeat (split; [assumption|]). exact Hm. }
  induction us as [|x us IH]; intros D J fuel s P0 L Hd Hu Hk Hc HJ Hv Hl Hf HP0.
  - rewrite app_nil_r in L, Hv. assert (L0 := L). assert (Hv0 := Hv).
    rewrite <- (app_nil_r D) in L0, Hv0.
    destruct fuel as [|fuel]; [lia|]. cbn [rollback_loop].
    replace (h * Q + pre + W <=? h * Q + pre + plen (A ++ mk :: D)) with false by (symmetry; apply Nat.leb_gt; lia).
    assert (FINR : forall f2 ds, J <> [] -> lay F f2 h (h + NP) pre ((A ++ mk :: D) ++ ds) [] ERASED -> Forall is_dead ds ->
      plen ds = length J -> lay F f2 h (h + NP) pre (A ++ mk :: D ++ ds) [] ERASED /\
      Forall is_dead (D ++ ds) /\ plen (A ++ mk :: D ++ ds) <= V /\ D ++ ds <> []).
    { intros f2 ds Jn L2 Hd2 E2. rewrite <- app_assoc in L2. cbn [app] in L2. split; [exact L2|].
      split; [apply Forall_app; split; assumption|]. split.
      - rewrite app_comm_cons, app_assoc, plen_app, E2. exact Hv.
      - intros E. apply app_eq_nil in E as [_ ->]. change (plen []) with 0 in E2. destruct J; [auto|discriminate]. }
    destruct HJ as [->|[HJ|HJ]].
    + eapply wp_bind_reads.
      { eapply (lay_parse_end F G); [exact L|].
        pose proof (win_pages F G h pre (plen (A ++ mk :: D)) (b_pre _ _ _ _ _ _ _ _ L) ltac:(lia)).
        pose proof (g_M F G). lia. }
      apply wp_ret. rewrite <- (set_fl_same s). apply (HP0 (fl s) D); [exact L|exact Hd|cbn [length] in Hv; lia].
    + assert (Jn : J <> []) by apply HJ. pose proof (jg_len F _ HJ) as Lj.
      eapply wp_bind_reads.
      { apply (parse_jg F G); [exact HJ|eapply seg_J; exact L|].
        eapply blank_mono; [eapply (lay_blank F G (fl s) h pre _ J ERASED (MP + 1)); [exact L|lia|lia]|lia|lia]. }
      cbn beta iota.
      replace (h * Q + pre + plen (A ++ mk :: D) + length J - (h * Q + pre + plen (A ++ mk :: D)) - 1) with (length J - 1) by lia.
      eapply (wp_wipe_partial F G); [exact L|exact HJ| | |].
      * intros f2 J' L2 J2 E2. apply (CRJ f2 D [] J'); try assumption; try (rewrite app_nil_r); try assumption.
        -- right. left. exact J2.
        -- lia.
      * intros f2 ds L2 Hd2 E2. destruct (FINR f2 ds Jn L2 Hd2 E2) as (X1 & X2 & X3 & X4).
        apply (CRJ f2 (D ++ ds) [] []); try assumption; try (rewrite app_nil_r); try assumption; try (left; reflexivity).
        -- left. exact X4.
        -- cbn [length]. lia.
      * intros f2 ds L2 Hd2 E2. destruct (FINR f2 ds Jn L2 Hd2 E2) as (X1 & X2 & X3 & X4).
        apply (HP0 f2 (D ++ ds)); assumption.
    + pose proof (ju_len F G _ HJ) as Lj. assert (Jn : J <> []) by (intros ->; cbn [length] in Lj; lia).
      eapply wp_bind_reads; [apply (parse_ju F); [exact HJ|eapply seg_J; exact L]|].
      cbn beta iota.
      replace (h * Q + pre + plen (A ++ mk :: D) + length J - (h * Q + pre + plen (A ++ mk :: D)) - 1) with (length J - 1) by lia.
      eapply (wp_delete_user F G); [exact L|exact HJ| | |].
      * intros f2 J' L2 J2 E2. apply (CRJ f2 D [] J'); try assumption; try (rewrite app_nil_r); try assumption.
        -- right. right. exact J2.
        -- lia.
      * intros f2 ds L2 Hd2 E2. destruct (FINR f2 ds Jn L2 Hd2 E2) as (X1 & X2 & X3 & X4).
        apply (CRJ f2 (D ++ ds) [] []); try assumption; try (rewrite app_nil_r); try assumption; try (left; reflexivity).
        -- left. exact X4.
        -- cbn [length]. lia.
      * intros f2 ds L2 Hd2 E2. destruct (FINR f2 ds Jn L2 Hd2 E2) as (X1 & X2 & X3 & X4).
        apply (HP0 f2 (D ++ ds)); assumption.
  - inversion_clear Hu as [|? ? Ux Uus]. rewrite map_cons in Hk. inversion_clear Hk as [|? ? Kx Kus].
    assert (L1 : lay F (fl s) h (h + NP) pre ((A ++ mk :: D) ++ x :: us) J ERASED)
      by (rewrite <- app_assoc; exact L).
    pose proof (lay_ok_at F _ _ _ _ _ _ _ _ _ L1) as Ox. pose proof (eok_len F G x Ox) as Lx.
    assert (Hv1 := Hv). rewrite app_comm_cons, app_assoc, plen_app, plen_cons in Hv1.
    destruct fuel as [|fuel]; [lia|]. cbn [rollback_loop].
    replace (h * Q + pre + W <=? h * Q + pre + plen (A ++ mk :: D)) with false by (symmetry; apply Nat.leb_gt; lia).
    assert (Gx : no_gap x) by (destruct x; try exact Logic.I; destruct Ux).
    eapply wp_bind_reads; [eapply (lay_parse F G); [exact L1|exact Gx]|].
    assert (SAME : forall f', lay F f' h (h + NP) pre ((A ++ mk :: D) ++ x :: us) J ERASED -> R f').
    { intros f' L'. rewrite <- app_assoc in L'. apply (CRJ f' D (x :: us) J); try assumption; constructor; assumption. }
    assert (DEAD : forall f' d, is_dead d -> elen d = elen x ->
      lay F f' h (h + NP) pre ((A ++ mk :: D) ++ d :: us) J ERASED ->
      lay F f' h (h + NP) pre (A ++ mk :: (D ++ [d]) ++ us) J ERASED /\
      Forall is_dead (D ++ [d]) /\ D ++ [d] <> [] /\
      plen (A ++ mk :: (D ++ [d]) ++ us) + length J <= V /\ live_len A + live_len us <= C /\
      plen (A ++ mk :: D ++ [d]) = plen (A ++ mk :: D) + elen x).
    { intros f' d Dd Ed L'.
      assert (Eq : A ++ mk :: (D ++ [d]) ++ us = (A ++ mk :: D) ++ d :: us).
      { rewrite <- !app_assoc. reflexivity. }
      rewrite Eq. split; [exact L'|].
      split; [apply Forall_app; split; [assumption|repeat constructor; exact Dd]|].
      split; [intros E; apply app_eq_nil in E as [_ E]; discriminate|]. split; [|split].
      - rewrite plen_app, plen_cons, Ed. lia.
      - rewrite live_len_cons in Hl. lia.
      - rewrite app_comm_cons, app_assoc, plen_app, plen_one, Ed. reflexivity. }
    assert (NEXT : forall f' d, is_dead d -> elen d = elen x ->
      lay F f' h (h + NP) pre ((A ++ mk :: D) ++ d :: us) J ERASED ->
      wp F R (rollback_loop F fuel (h * Q + pre + plen (A ++ mk :: D) + elen x) (h * Q + pre + W)) (set_fl s f') P0).
    { intros f' d Dd Ed L'. destruct (DEAD f' d Dd Ed L') as (X1 & X2 & X3 & X4 & X5 & X6).
      rewrite <- Nat.add_assoc, <- X6. eapply IH; try eassumption.
      - left. exact X3.
      - lia. }
    assert (DEADR : forall f' d, is_dead d -> elen d = elen x ->
      lay F f' h (h + NP) pre ((A ++ mk :: D) ++ d :: us) J ERASED -> R f').
    { intros f' d Dd Ed L'. destruct (DEAD f' d Dd Ed L') as (X1 & X2 & X3 & X4 & X5 & X6).
      eapply CRJ; try eassumption. left. exact X3. }
    destruct x as [k v|ws|[]|g]; try (destruct Ux; fail); cbn [pent]; cbn beta iota.
    + destruct (live_elen F G k v Ox) as [El Em]. apply wp_bind.
      replace (h * Q + pre + plen (A ++ mk :: D) + elen (Live k v) - (h * Q + pre + plen (A ++ mk :: D)) - 1)
        with (to_words (length v)) by lia.
      eapply (wp_delete_pos F G); [exact L1|exact SAME| |].
      * intros f' ws E L'. apply (DEADR f' (Dead ws)); [exact Logic.I|exact E|exact L'].
      * intros f' ws E L'. apply (NEXT f' (Dead ws)); [exact Logic.I|exact E|exact L'].
    + apply wp_bind. eapply (wp_set_padding F G); [exact L1|reflexivity|intros []|exact SAME| |].
      * intros f' w _ L'. apply (DEADR f' (Dead [w])); [exact Logic.I|reflexivity|exact L'].
      * intros f' w _ L'. apply (NEXT f' (Dead [w])); [exact Logic.I|reflexivity|exact L'].
Qed.

(** The keys of the updates which are written. *)
Lemma init_pos p q : p = q -> forall n n', n = n' -> init_page F p (p + n) = init_page F q (q + n').
Proof. intros -> n n' ->. reflexivity. Qed.

Lemma wp_keys_settled s h pre A mk us T J (P0 : res store_error (list N) -> st -> Prop) :
  lay F (fl s) h (h + NP) pre (A ++ mk :: us ++ T) J ERASED -> elen mk = 1 ->
  Forall isupd us -> NoDup (map ukey us) -> plen (A ++ mk :: us) < W ->
  stops (fl s) (h * Q + pre + plen (A ++ mk :: us)) ->
  P0 (Ok (map ukey us)) s ->
  wp F R (recover_transaction_keys F (h * Q + pre + plen A + 1) (h * Q + pre + W)) s P0.
Proof.
  intros L Em Hu Hn Hw Hst HP0. pose proof (b_seg _ _ _ _ _ _ _ _ L) as Sg. pose proof (b_ents _ _ _ _ _ _ _ _ L) as Oe.
  rewrite flat_app, flat_cons, flat_app in Sg. rewrite <- !app_assoc in Sg.
  apply seg_app in Sg as [_ Sg]. fold (plen A) in Sg. apply seg_app in Sg as [_ Sg]. fold (elen mk) in Sg. rewrite Em in Sg.
  apply seg_app in Sg as [Sg _].
  apply Forall_app in Oe as [_ Oe]. inversion_clear Oe as [|? ? _ Oe1]. apply Forall_app in Oe1 as [Ous _].
  rewrite plen_app, plen_cons, Em in Hw, Hst.
  replace (h * Q + pre + (plen A + (1 + plen us))) with (h * Q + pre + plen A + 1 + plen us) in Hst by lia.
  unfold recover_transaction_keys. eapply wp_bind_reads.
  { apply (keys_spec (fl s) (h * Q + pre + W) us); try assumption; lia. }
  cbn beta iota. cbn [app]. destruct us as [|x0 us0] eqn:Eus.
  - change (plen []) with 0 in Hst. rewrite Nat.add_0_r in Hst. destruct Hst as (r & p' & E & Hr).
    eapply wp_bind_reads; [exact E|]. apply wp_bind.
    destruct r; try (destruct Hr; fail); apply wp_ret, wp_ret, HP0.
  - destruct (exists_last (l := x0 :: us0)) as (us1 & x & E); [discriminate|]. rewrite E in *. clear E Eus x0 us0 us.
    assert (E : h * Q + pre + plen A + 1 + plen (removelast (us1 ++ [x])) = h * Q + pre + plen (A ++ mk :: us1)).
    { rewrite List.removelast_last. rewrite plen_app, plen_cons, Em. lia. }
    rewrite E. clear E.
    assert (L1 : lay F (fl s) h (h + NP) pre ((A ++ mk :: us1) ++ x :: T) J ERASED).
    { rewrite <- !app_assoc in L |- *. exact L. }
    apply Forall_app in Hu as [_ Hx]. inversion_clear Hx as [|? ? Ux _].
    assert (Gx : no_gap x) by (destruct x; try exact Logic.I; destruct Ux).
    eapply wp_bind_reads; [eapply (lay_parse F G); [exact L1|exact Gx]|]. apply wp_bind.
    assert (IN : wp F R (init_page F (h * Q + pre + plen (A ++ mk :: us1))
        (h * Q + pre + plen (A ++ mk :: us1) + (h * Q + pre + plen (A ++ mk :: us1) + elen x - (h * Q + pre + plen (A ++ mk :: us1)) - 1))) s
      (fun r s' => match r with Ok a => wp F R (ret (map ukey (us1 ++ [x]))) s' P0 | Err e => P0 (Err e) s' end)).
    { rewrite (init_pos _ _ eq_refl _ (elen x - 1)) by lia.
      eapply (wp_init_settled F G); [exact L1|]. apply wp_ret, HP0. }
    destruct x as [k v|ws|[]|g]; try (destruct Ux; fail); cbn [pent]; exact IN.
Qed.

Lemma wp_keys_pending s h pre A mk us x (P0 : res store_error (list N) -> st -> Prop) :
  lay F (fl s) h (h + NP) pre (A ++ mk :: us) (ewords x) ERASED -> eok F x -> elen mk = 1 ->
  Forall isupd (us ++ [x]) -> NoDup (map ukey (us ++ [x])) -> plen (A ++ mk :: us) + elen x < W ->
  (forall f', lay F f' h (h + NP) pre (A ++ mk :: us) (ewords x) ERASED -> R f') ->
  (forall f', lay F f' h (h + NP) pre (A ++ mk :: us ++ [x]) [] ERASED -> P0 (Ok (map ukey (us ++ [x]))) (set_fl s f')) ->
  wp F R (recover_transaction_keys F (h * Q + pre + plen A + 1) (h * Q + pre + W)) s P0.
Proof.
  intros L Ox Em Hu Hn Hw HRx HP0. pose proof (b_seg _ _ _ _ _ _ _ _ L) as Sg. pose proof (b_ents _ _ _ _ _ _ _ _ L) as Oe.
  assert (Sx := seg_J F _ _ _ _ _ _ _ L).
  rewrite flat_app, flat_cons in Sg. rewrite <- !app_assoc in Sg.
  apply seg_app in Sg as [_ Sg]. fold (plen A) in Sg. apply seg_app in Sg as [_ Sg]. fold (elen mk) in Sg. rewrite Em in Sg.
  apply Forall_app in Oe as [_ Oe]. inversion_clear Oe as [|? ? _ Ous].
  assert (Ep : plen (A ++ mk :: us) = plen A + (1 + plen us)) by (rewrite plen_app, plen_cons, Em; reflexivity).
  unfold recover_transaction_keys. eapply wp_bind_reads.
  { apply (keys_spec (fl s) (h * Q + pre + W) (us ++ [x])).
    - rewrite flat_app, flat_cons. cbn [flat map concat]. rewrite app_nil_r. exact Sg.
    - apply Forall_app. split; [exact Ous|repeat constructor; exact Ox].
    - exact Hu.
    - exact Hn.
    - rewrite plen_app, plen_one. lia.
    - lia.
    - exists ETail. eexists. split; [|exact Logic.I]. apply (parse_tail F G). rewrite plen_app, plen_one.
      eapply blank_mono; [eapply (lay_blank F G _ _ _ _ _ _ MP L); [lia|fold (elen x); lia]|fold (elen x); lia|fold (elen x); lia]. }
  cbn beta iota. cbn [app].
  assert (E : match us ++ [x] with [] => h * Q + pre + plen A + 1 | _ :: _ => h * Q + pre + plen A + 1 + plen (removelast (us ++ [x])) end
       = h * Q + pre + plen (A ++ mk :: us)).
  { rewrite List.removelast_last, Ep. destruct us; cbn [app]; lia. }
  rewrite E. clear E. apply Forall_app in Hu as [_ Hx]. inversion_clear Hx as [|? ? Ux _].
  assert (Gx : no_gap x) by (destruct x; try exact Logic.I; destruct Ux).
  eapply wp_bind_reads; [apply (parse_ent F G); [exact Ox|apply no_gap_ne, Gx|exact Sx]|]. apply wp_bind.
  assert (IN : wp F R (init_page F (h * Q + pre + plen (A ++ mk :: us))
        (h * Q + pre + plen (A ++ mk :: us) + (h * Q + pre + plen (A ++ mk :: us) + elen x - (h * Q + pre + plen (A ++ mk :: us)) - 1))) s
      (fun r s' => match r with Ok a => wp F R (ret (map ukey (us ++ [x]))) s' P0 | Err e => P0 (Err e) s' end)).
  { rewrite (init_pos _ _ eq_refl _ (elen x - 1)) by lia.
    eapply (wp_settle F G); [left; split; [exact L|exact HRx]|exact Ox|].
    intros f' L'. apply wp_ret, HP0. rewrite <- app_assoc in L'. exact L'. }
  destruct x as [k v|ws|[]|g]; try (destruct Ux; fail); cbn [pent]; exact IN.
Qed.

Lemma stops_J f h pre es J : lay F f h (h + NP) pre es J ERASED -> J = [] \/ jg_ok F J \/ ju_ok F J ->
  plen es + length J <= W -> stops f (h * Q + pre + plen es).
Proof.
  intros L HJ Hw. destruct HJ as [->|[HJ|HJ]].
  - exists ETail. eexists. split; [|exact Logic.I]. apply (parse_tail F G).
    pose proof (lay_blank F G f h pre es [] ERASED MP L ltac:(lia) Hw) as X. cbn [length] in X.
    rewrite Nat.add_0_r in X. exact X.
  - exists EPartial. eexists. split; [|exact Logic.I]. apply (parse_jg F G); [exact HJ|eapply seg_J; exact L|].
    pose proof (jg_len F _ HJ).
    eapply blank_mono; [eapply (lay_blank F G f h pre _ J ERASED (MP + 1)); [exact L|lia|lia]|lia|lia].
  - exists EPartialUser. eexists. split; [|exact Logic.I]. apply (parse_ju F); [exact HJ|eapply seg_J; exact L].
Qed.

Section AT.
Variables (h pre : nat) (A : list ent) (n : nat).
Hypothesis Hpl : Forall plain A.
Hypothesis Hnd : NoDup (keys A).
Hypothesis Hm : Permutation (lives A) m.
Notation mk := (Intl (IMarker n)).
Hypothesis Hn0 : 0 < n.

Lemma crash_undo f' D us J : lay F f' h (h + NP) pre (A ++ mk :: D ++ us) J ERASED ->
  Forall is_dead D -> Forall isupd us -> NoDup (map ukey us) -> D <> [] \/ length us < n ->
  J = [] \/ jg_ok F J \/ ju_ok F J ->
  plen (A ++ mk :: D ++ us) + length J <= V -> live_len A + live_len us <= C -> Crash F m f'.
Proof.
  intros L Hd Hu Hk Hc HJ Hv Hl. right. left. exists h, pre, (A ++ mk :: D ++ us), J.
  split; [exact L|].
  assert (Hll : live_len (A ++ mk :: D ++ us) <= C).
  { destruct (dead_copies D Hd) as (_ & _ & X & _). rewrite live_len_app. change (live_len (mk :: D ++ us)) with (live_len (D ++ us)). rewrite live_len_app, X. lia. }
  split; [right; intros E; apply app_eq_nil in E as [_ E]; discriminate|]. split.
  - split; [|split; [exact Hll|right; exact Hv]].
    apply (iw_reset F G); [lia|exact Hll|apply (b_pre _ _ _ _ _ _ _ _ L)].
  - do 5 right. exists A, n, D, us. pose proof (plain_soft _ Hpl) as Hso.
    repeat (split; [first [reflexivity|assumption]|]). split.
    + destruct HJ as [->|HJ].
      * right. exists us. split; [left; split; reflexivity|]. repeat (split; [assumption|]).
        destruct Hc as [Hc|Hc]; [left; split; [exact Hc|reflexivity]|].
        destruct D; [right; split; [reflexivity|exact Hc]|left; split; [discriminate|reflexivity]].
      * left. split; assumption.
    + repeat (split; [assumption|]). exact Hm.
Qed.

(** The marker goes last. *)
Lemma wp_unmark s D : lay F (fl s) h (h + NP) pre (A ++ mk :: D) [] ERASED ->
  Forall is_dead D -> plen (A ++ mk :: D) <= V -> live_len A <= C ->
  st_head s = Some (h * Q + pre) -> st_ents s = Some (offs (h * Q + pre) A) ->
  wp F R (set_padding F (h * Q + pre + plen A)) s P.
Proof.
  intros L Hd Hv Hc Hh He.
  assert (FIN : forall f' w, lay F f' h (h + NP) pre (A ++ Dead [w] :: D) [] ERASED ->
    rest F f' h pre (A ++ Dead [w] :: D) m).
  { intros f' w L'. apply (rest_end F G); try assumption.
    - constructor; [exact Logic.I|exact Hd].
    - right. intros E. apply app_eq_nil in E as [_ E]. discriminate.
    - rewrite plen_app, plen_cons in *. exact Hv. }
  eapply (wp_set_padding F G); [exact L|reflexivity|intros []| | |].
  - intros f' L'. rewrite <- (app_nil_r D) in L'. apply HR, (crash_undo f' D [] []); try assumption; try solve [constructor|left; reflexivity].
    + right. exact Hn0.
    + rewrite app_nil_r. cbn [length]. lia.
    + change (live_len []) with 0. lia.
  - intros f' w _ L'. apply HR. eapply (rest_crash F). apply FIN, L'.
  - intros f' w _ L'. apply HP. eapply (on_end F); [apply FIN, L'|constructor; [exact Logic.I|exact Hd]|exact Hh|exact He].
Qed.

Lemma wp_undo s ds us J :
  lay F (fl s) h (h + NP) pre (A ++ mk :: ds ++ us) J ERASED ->
  Forall is_dead ds -> Forall isupd us -> NoDup (map ukey us) -> ds <> [] \/ length us < n ->
  J = [] \/ jg_ok F J \/ ju_ok F J ->
  plen (A ++ mk :: ds ++ us) + length J <= V -> live_len A + live_len us <= C ->
  st_head s = Some (h * Q + pre) -> st_ents s = Some (offs (h * Q + pre) A) ->
  wp F R (bind (rollback_loop F W (h * Q + pre + plen A + 1) (h * Q + pre + W)) (fun _ =>
          bind (init_page F (h * Q + pre + plen A) (h * Q + pre + plen A)) (fun _ =>
          set_padding F (h * Q + pre + plen A)))) s P.
Proof.
  intros L Hd Hu Hk Hc HJ Hv Hl Hh He. pose proof (virt_win F G) as VW.
  assert (Ep : forall D, plen (A ++ mk :: D) = plen A + (1 + plen D)).
  { intros D. rewrite plen_app, plen_cons. reflexivity. }
  pose proof (b_seg _ _ _ _ _ _ _ _ L) as Sg. pose proof (b_ents _ _ _ _ _ _ _ _ L) as Oe.
  rewrite flat_app, flat_cons, flat_app in Sg. rewrite <- !app_assoc in Sg.
  apply seg_app in Sg as [_ Sg]. fold (plen A) in Sg. apply seg_app in Sg as [_ Sg].
  change (length (ewords mk)) with 1 in Sg. apply seg_app in Sg as [Sg _].
  apply Forall_app in Oe as [_ Oe]. inversion_clear Oe as [|? ? _ Oe1]. apply Forall_app in Oe1 as [Ods _].
  assert (Hv' := Hv). rewrite Ep, plen_app in Hv'.
  apply wp_bind. apply (wp_rollback_skip (h * Q + pre + W) ds); try assumption; try lia.
  intros fuel Hf.
  replace (h * Q + pre + plen A + 1 + plen ds) with (h * Q + pre + plen (A ++ mk :: ds)) by (rewrite Ep; lia).
  eapply (wp_rollback h pre A n Hpl Hnd Hm Hn0 us ds J); try eassumption.
  - rewrite Ep. lia.
  - intros f' D' L' Hd' Hv2. apply wp_bind.
    replace (init_page F (h * Q + pre + plen A) (h * Q + pre + plen A))
      with (init_page F (h * Q + pre + plen A) (h * Q + pre + plen A + (elen mk - 1)))
      by (f_equal; change (elen mk) with 1; lia).
    eapply (wp_init_settled F G); [exact L'|].
    eapply wp_unmark; try eassumption. lia.
Qed.

Lemma wp_trans_abort s ds us J :
  lay F (fl s) h (h + NP) pre (A ++ mk :: ds ++ us) J ERASED ->
  Forall is_dead ds -> Forall isupd us -> NoDup (map ukey us) ->
  ((jg_ok F J \/ ju_ok F J) /\ (ds <> [] \/ length us < n) \/
     exists us', upds F us J us' /\ Forall isupd us' /\ NoDup (map ukey us') /\
       live_len A + live_len us' <= C /\
       (ds <> [] /\ J = [] \/ ds = [] /\ length us' < n)) ->
  plen (A ++ mk :: ds ++ us) + length J <= V -> live_len A + live_len us <= C ->
  st_head s = Some (h * Q + pre) -> st_ents s = Some (offs (h * Q + pre) A) ->
  wp F R (recover_transaction F (h * Q + pre + plen A) (h * Q + pre + W)) s P.
Proof.
  intros L Hd Hu Hk HC Hv Hl Hh He. pose proof (virt_win F G) as VW.
  assert (Ep : forall D, plen (A ++ mk :: D) = plen A + (1 + plen D)).
  { intros D. rewrite plen_app, plen_cons. reflexivity. }
  unfold recover_transaction. eapply wp_bind_reads; [eapply (lay_parse F G); [exact L|exact Logic.I]|].
  change (elen mk) with 1. cbn [pent]. cbn beta iota.
  assert (SHORT : forall (ks : list N) s2, length ks < n ->
    wp F R (bind (rollback_loop F W (h * Q + pre + plen A + 1) (h * Q + pre + W)) (fun _ =>
          bind (init_page F (h * Q + pre + plen A) (h * Q + pre + plen A)) (fun _ =>
          set_padding F (h * Q + pre + plen A)))) s2 P ->
    wp F R (if length ks =? n then transaction_apply F ks (h * Q + pre + plen A)
      else if n <? length ks then fail InvalidStorage
      else bind (rollback_loop F W (h * Q + pre + plen A + 1) (h * Q + pre + W)) (fun _ =>
          bind (init_page F (h * Q + pre + plen A) (h * Q + pre + plen A)) (fun _ =>
          set_padding F (h * Q + pre + plen A)))) s2 P).
  { intros ks s2 Hks H. replace (length ks =? n) with false by (symmetry; apply Nat.eqb_neq; lia).
    replace (n <? length ks) with false by (symmetry; apply Nat.ltb_ge; lia). exact H. }
  assert (CASE : (J = [] \/ jg_ok F J \/ ju_ok F J) /\ (ds <> [] \/ length us < n) \/
    exists x, ds = [] /\ J = ewords x /\ eok F x /\ Forall isupd (us ++ [x]) /\ NoDup (map ukey (us ++ [x])) /\
      live_len A + live_len (us ++ [x]) <= C /\ length (us ++ [x]) < n).
  { destruct HC as [[H1 H2]|(us' & [[-> HJ]|(x & -> & HJ & Ox)] & H1 & H2 & H3 & H4)].
    - left. auto.
    - left. split; [auto|]. destruct H4 as [[H4 _]|[_ H4]]; auto.
    - right. exists x. destruct H4 as [[_ H4]|[H4 H5]].
      + pose proof (eok_len F G x Ox) as X. unfold elen in X. rewrite <- HJ, H4 in X. cbn [length] in X. lia.
      + repeat (split; [assumption|]). exact H5. }
  clear HC. apply wp_bind. destruct CASE as [[HJ Hc]|(x & -> & -> & Ox & H1 & H2 & H3 & H4)].
  - destruct ds as [|d ds].
    + destruct Hc as [Hc|Hc]; [destruct (Hc eq_refl)|]. cbn [app] in L, Hv.
      eapply (wp_keys_settled s h pre A mk us [] J); rewrite ?app_nil_r; try assumption; try reflexivity.
      * lia.
      * eapply stops_J; [exact L|exact HJ|lia].
      * apply SHORT; [rewrite map_length; exact Hc|].
        eapply (wp_undo s [] us J); try eassumption. right. exact Hc.
    + eapply (wp_keys_settled s h pre A mk [] ((d :: ds) ++ us) J); try assumption; try reflexivity; try solve [constructor|left; reflexivity].
      * rewrite Ep in Hv |- *. change (plen []) with 0. lia.
      * inversion_clear Hd as [|? ? Dd _].
        exists EPadding. eexists. split; [|exact Logic.I].
        assert (L1 : lay F (fl s) h (h + NP) pre ((A ++ [mk]) ++ d :: ds ++ us) J ERASED)
          by (rewrite <- app_assoc; exact L).
        destruct d; try (destruct Dd; fail). apply (lay_parse F G _ _ _ _ _ _ _ _ _ L1 Logic.I).
      * apply SHORT; [exact Hn0|]. eapply (wp_undo s (d :: ds) us J); eassumption.
  - cbn [app] in L, Hv. eapply (wp_keys_pending s h pre A mk us x); try assumption; try reflexivity.
    + fold (elen x) in Hv. lia.
    + intros f' L'. apply HR. right. left. exists h, pre, (A ++ mk :: us), (ewords x). split; [exact L'|].
      assert (Hll : live_len (A ++ mk :: us) <= C).
      { rewrite live_len_app. change (live_len (mk :: us)) with (live_len us). exact Hl. }
      split; [right; intros E; apply app_eq_nil in E as [_ E]; discriminate|]. split.
      * split; [|split; [exact Hll|right; exact Hv]].
        apply (iw_reset F G); [lia|exact Hll|apply (b_pre _ _ _ _ _ _ _ _ L)].
      * do 5 right. exists A, n, [], us. split; [reflexivity|]. split; [constructor|].
        repeat (split; [assumption|]). split.
        -- right. exists (us ++ [x]). split; [right; exists x; auto|]. repeat (split; [assumption|]). right. auto.
        -- split; [apply plain_soft, Hpl|]. repeat (split; [assumption|]). exact Hm.
    + intros f' L'. apply SHORT; [rewrite map_length; exact H4|].
      eapply (wp_undo (set_fl s f') [] (us ++ [x]) []); try eassumption; try solve [constructor|left; reflexivity].
      * right. exact H4.
      * cbn [app length]. rewrite Ep, plen_app, plen_one. rewrite Ep in Hv. fold (elen x) in Hv. lia.
Qed.

End AT.

Lemma wp_trans_commit s h pre A us J us' :
  let mk := Intl (IMarker (length us')) in
  lay F (fl s) h (h + NP) pre (A ++ mk :: us) J ERASED -> upds F us J us' ->
  Forall isupd us' -> NoDup (map ukey us') -> Forall plain A -> NoDup (keys A) ->
  plen (A ++ mk :: us) + length J <= V -> live_len A + live_len us' <= C ->
  Permutation (filter (fun p => negb (existsb (N.eqb (fst p)) (map ukey us'))) (lives A) ++ lives us') m ->
  st_head s = Some (h * Q + pre) -> st_ents s = Some (offs (h * Q + pre) A) ->
  wp F R (recover_transaction F (h * Q + pre + plen A) (h * Q + pre + W)) s P.
Proof.
  intros mk L HU Hu Hk Hpl Hnd Hv Hl Hm Hh He. pose proof (virt_win F G) as VW.
  assert (Ep : forall D, plen (A ++ mk :: D) = plen A + (1 + plen D)).
  { intros D. rewrite plen_app, plen_cons. reflexivity. }
  unfold recover_transaction. eapply wp_bind_reads; [eapply (lay_parse F G); [exact L|exact Logic.I]|].
  change (elen mk) with 1. cbn [pent mk]. cbn beta iota. fold mk.
  assert (GO : forall f', lay F f' h (h + NP) pre (A ++ mk :: us') [] ERASED -> plen (A ++ mk :: us') <= V ->
    wp F R (if length (map ukey us') =? length us' then transaction_apply F (map ukey us') (h * Q + pre + plen A)
      else if length us' <? length (map ukey us') then fail InvalidStorage
      else bind (rollback_loop F W (h * Q + pre + plen A + 1) (h * Q + pre + W)) (fun _ =>
          bind (init_page F (h * Q + pre + plen A) (h * Q + pre + plen A)) (fun _ =>
          set_padding F (h * Q + pre + plen A)))) (set_fl s f') P).
  { intros f' L' Hv'. rewrite map_length, Nat.eqb_refl.
    eapply (wp_transaction_apply F G R _ h pre A us' (map ukey us') (offs (h * Q + pre) A) m); try eassumption; try reflexivity.
    rewrite offs_perm. apply Permutation_refl. }
  apply wp_bind. destruct HU as [[-> ->]|(x & -> & -> & Ox)].
  - cbn [length] in Hv. eapply (wp_keys_settled s h pre A mk us [] []); rewrite ?app_nil_r; try assumption; try reflexivity.
    + lia.
    + eapply stops_J; [exact L|left; reflexivity|cbn [length]; lia].
    + rewrite <- (set_fl_same s). apply GO; [exact L|lia].
  - fold (elen x) in Hv. eapply (wp_keys_pending s h pre A mk us x); try assumption; try reflexivity.
    + lia.
    + intros f' L'. apply HR. right. left. exists h, pre, (A ++ mk :: us), (ewords x). split; [exact L'|].
      assert (Hll : live_len (A ++ mk :: us) <= C).
      { rewrite live_len_app. change (live_len (mk :: us)) with (live_len us). rewrite live_len_app in Hl. lia. }
      split; [right; intros E; apply app_eq_nil in E as [_ E]; discriminate|]. split.
      * split; [|split; [exact Hll|right; exact Hv]].
        apply (iw_reset F G); [lia|exact Hll|apply (b_pre _ _ _ _ _ _ _ _ L)].
      * do 4 right. left. exists A, (length (us ++ [x])), us, (us ++ [x]). split; [reflexivity|].
        split; [right; exists x; auto|]. repeat (split; [first [assumption|reflexivity]|]).
        split; [apply plain_soft, Hpl|]. repeat (split; [assumption|]). exact Hm.
    + intros f' L'. apply GO; [exact L'|]. rewrite Ep, plen_app, plen_one. rewrite Ep in Hv. lia.
Qed.

(** The marker alone. *)
Lemma wp_trans_marker s h pre A n :
  lay F (fl s) h (h + NP) pre A [int_word (IMarker n)] ERASED -> eok F (Intl (IMarker n)) -> 0 < n ->
  based h pre A -> room F h pre A [int_word (IMarker n)] ->
  Forall plain A -> NoDup (keys A) -> Permutation (lives A) m ->
  st_head s = Some (h * Q + pre) -> st_ents s = Some (offs (h * Q + pre) A) ->
  wp F R (recover_transaction F (h * Q + pre + plen A) (h * Q + pre + W)) s P.
Proof.
  intros L Ox Hn0 Hb Hr Hpl Hnd Hm Hh He. pose proof (virt_win F G) as VW.
  assert (Hv : plen A + 1 <= V) by (destruct Hr as (_ & _ & [X|X]); [discriminate|exact X]).
  assert (Hc : live_len A <= C) by apply Hr.
  unfold recover_transaction.
  eapply wp_bind_reads; [apply (parse_ent F G _ _ (Intl (IMarker n)) Ox); [discriminate|eapply (seg_J F); exact L]|].
  change (elen (Intl (IMarker n))) with 1. cbn [pent]. cbn beta iota.
  assert (Bl : blank F (fl s) (h * Q + pre + plen A + 1) (h * Q + pre + plen A + 1 + MP)).
  { apply (lay_blank F G _ _ _ _ _ _ MP L); [lia|cbn [length]; lia]. }
  assert (Pt := parse_tail F G _ _ Bl).
  apply wp_bind. unfold recover_transaction_keys. eapply wp_bind_reads.
  { apply (keys_spec (fl s) (h * Q + pre + W) []); try constructor.
    - intros i Hi. cbn [flat map concat length] in Hi. lia.
    - change (plen []) with 0. lia.
    - lia.
    - change (plen []) with 0. rewrite Nat.add_0_r. exists ETail. eexists. split; [exact Pt|exact Logic.I]. }
  cbn beta iota. eapply wp_bind_reads; [exact Pt|]. apply wp_bind, wp_ret. apply wp_ret.
  cbn [app map length].
  replace (0 =? n) with false by (symmetry; apply Nat.eqb_neq; lia).
  replace (n <? 0) with false by (symmetry; apply Nat.ltb_ge; lia).
  apply wp_bind. destruct W as [|w] eqn:EW; [lia|]. cbn [rollback_loop]. rewrite <- EW in *.
  replace (h * Q + pre + W <=? h * Q + pre + plen A + 1) with false by (symmetry; apply Nat.leb_gt; lia).
  eapply wp_bind_reads; [exact Pt|]. apply wp_ret. apply wp_bind.
  replace (init_page F (h * Q + pre + plen A) (h * Q + pre + plen A))
      with (init_page F (h * Q + pre + plen A) (h * Q + pre + plen A + (elen (Intl (IMarker n)) - 1)))
      by (f_equal; change (elen (Intl (IMarker n))) with 1; lia).
  eapply (wp_settle F G); [left; split; [exact L|]|exact Ox|].
  - intros f' L'. apply HR. right. left. exists h, pre, A, [int_word (IMarker n)].
    repeat (split; [assumption|]). do 3 right. left. exists n. repeat (split; [first [assumption|reflexivity]|]).
    split; [apply plain_soft, Hpl|]. split; assumption.
  - intros f' L'. eapply (wp_unmark h pre A n Hpl Hnd Hm Hn0 _ []); try eassumption.
    + constructor.
    + rewrite plen_app, plen_one. exact Hv.
Qed.

Lemma wp_op_marker s h pre es J :
  lay F (fl s) h (h + NP) pre es J ERASED -> based h pre es -> room F h pre es J -> op_marker F es J m ->
  st_head s = Some (h * Q + pre) -> st_ents s = Some [] ->
  wp F R (operation_loop F W (h * Q + pre) (h * Q + pre + W) (h * Q + pre)) s P.
Proof.
  intros L Hb Hr (n & Hn0 & Ox & -> & Hs & Hn & Hm) Hh He. pose proof (virt_win F G) as VW.
  pose proof (room_plen F G _ _ _ _ Hr) as Hw. cbn [length] in Hw.
  rewrite <- (Nat.add_0_r (h * Q + pre)) at 1. change 0 with (plen []).
  apply (wp_walk F G R h pre [] [int_word (IMarker n)] es []); rewrite ?app_nil_r; try assumption.
  - cbn [app]. lia.
  - cbn [plen]. lia.
  - left. split; reflexivity.
  - cbn [app]. intros f' S' H1 H2 H3 L'. rewrite app_nil_r in L'. apply HR. right. left. eexists h, pre, S', _.
    split; [exact L'|]. split; [eapply based_leq; eassumption|]. split; [eapply room_leq; eassumption|].
    do 3 right. left. exists n. repeat (split; [first [assumption|reflexivity]|]).
    rewrite (leq_keys _ _ H2), H2. split; assumption.
  - cbn [app]. intros f' A fuel prev H1 H2 H3 L' Hf Hl. rewrite app_nil_r in L'. pose proof (leq_plen _ _ H1) as Hp.
    eapply (wp_loop_at F G R m P HP _ _ _ _ _ (Intl (IMarker n))); [exact Ox|exact Logic.I|eapply (seg_J F); exact L'|lia|exact Hf|].
    intros fuel' Hf'. cbn [pent].
    eapply (wp_trans_marker _ h pre A n); try eassumption; try reflexivity.
    + eapply based_leq; eassumption.
    + eapply room_leq; eassumption.
    + rewrite (leq_keys _ _ H2). exact Hn.
    + rewrite H2. exact Hm.
Qed.

Lemma wp_op_commit s h pre es J :
  lay F (fl s) h (h + NP) pre es J ERASED -> based h pre es -> room F h pre es J -> op_commit F es J m ->
  st_head s = Some (h * Q + pre) -> st_ents s = Some [] ->
  wp F R (operation_loop F W (h * Q + pre) (h * Q + pre + W) (h * Q + pre)) s P.
Proof.
  intros L Hb Hr (es0 & n & us & us' & -> & HU & Hu & Hk & <- & Hs & Hn & Hv & Hc & Hm) Hh He.
  pose proof (virt_win F G) as VW. set (mk := Intl (IMarker (length us'))) in *.
  assert (Ep : forall A D, plen (A ++ mk :: D) = plen A + (1 + plen D)).
  { intros A D. rewrite plen_app, plen_cons. reflexivity. }
  assert (Hv' := Hv). rewrite Ep in Hv'.
  rewrite <- (Nat.add_0_r (h * Q + pre)) at 1. change 0 with (plen []).
  apply (wp_walk F G R h pre (mk :: us) J es0 []); try assumption.
  - cbn [app]. lia.
  - cbn [plen]. lia.
  - left. split; reflexivity.
  - cbn [app]. intros f' S' H1 H2 H3 L'. apply HR. right. left. exists h, pre, (S' ++ mk :: us), J.
    assert (Hq : leq (es0 ++ mk :: us) (S' ++ mk :: us)) by (apply leq_app; [exact H1|apply leq_refl]).
    split; [exact L'|]. split; [eapply based_leq; eassumption|]. split; [eapply room_leq; eassumption|].
    do 4 right. left. exists S', (length us'), us, us'. repeat (split; [first [assumption|reflexivity]|]).
    rewrite (leq_keys _ _ H2), H2, (leq_plen _ _ Hq). pose proof (leq_live _ _ H1).
    split; [assumption|]. split; [assumption|]. split; [lia|assumption].
  - cbn [app]. intros f' A fuel prev H1 H2 H3 L' Hf Hl. pose proof (leq_plen _ _ H1) as Hp. pose proof (leq_live _ _ H1) as Hll.
    eapply (wp_loop_at F G R m P HP _ _ _ _ _ mk); [eapply lay_ok_at; exact L'|exact Logic.I|eapply lay_seg_at; exact L'|lia|exact Hf|].
    intros fuel' Hf'. cbn [pent mk].
    eapply (wp_trans_commit _ h pre A us J us'); try eassumption; try reflexivity.
    + rewrite (leq_keys _ _ H2). exact Hn.
    + change (plen (A ++ mk :: us) + length J <= V). rewrite Ep. lia.
    + lia.
    + rewrite H2. exact Hm.
Qed.

Lemma wp_op_abort s h pre es J :
  lay F (fl s) h (h + NP) pre es J ERASED -> based h pre es -> room F h pre es J -> op_abort F es J m ->
  st_head s = Some (h * Q + pre) -> st_ents s = Some [] ->
  wp F R (operation_loop F W (h * Q + pre) (h * Q + pre + W) (h * Q + pre)) s P.
Proof.
  intros L Hb Hr (es0 & n & ds & us & -> & Hd & Hu & Hk & Hn0 & HC & Hs & Hn & Hv & Hm) Hh He.
  pose proof (virt_win F G) as VW. set (mk := Intl (IMarker n)) in *.
  assert (Ep : forall A D, plen (A ++ mk :: D) = plen A + (1 + plen D)).
  { intros A D. rewrite plen_app, plen_cons. reflexivity. }
  assert (Hv' := Hv). rewrite Ep in Hv'.
  assert (HC' : forall A, live_len A <= live_len es0 ->
    ((jg_ok F J \/ ju_ok F J) /\ (ds <> [] \/ length us < n) \/
     exists us', upds F us J us' /\ Forall isupd us' /\ NoDup (map ukey us') /\
       live_len A + live_len us' <= C /\
       (ds <> [] /\ J = [] \/ ds = [] /\ length us' < n))).
  { intros A Hll. destruct HC as [HC|(us' & X1 & X2 & X3 & X4 & X5)]; [left; exact HC|]. right. exists us'.
    repeat (split; [assumption|]). split; [lia|exact X5]. }
  assert (Hcl : live_len es0 + live_len us <= C).
  { destruct Hr as (_ & X & _). rewrite live_len_app in X. change (live_len (mk :: ds ++ us)) with (live_len (ds ++ us)) in X.
    rewrite live_len_app in X. lia. }
  rewrite <- (Nat.add_0_r (h * Q + pre)) at 1. change 0 with (plen []).
  apply (wp_walk F G R h pre (mk :: ds ++ us) J es0 []); try assumption.
  - cbn [app]. lia.
  - cbn [plen]. lia.
  - left. split; reflexivity.
  - cbn [app]. intros f' S' H1 H2 H3 L'. apply HR. right. left. exists h, pre, (S' ++ mk :: ds ++ us), J.
    assert (Hq : leq (es0 ++ mk :: ds ++ us) (S' ++ mk :: ds ++ us)) by (apply leq_app; [exact H1|apply leq_refl]).
    split; [exact L'|]. split; [eapply based_leq; eassumption|]. split; [eapply room_leq; eassumption|].
    do 5 right. exists S', n, ds, us. split; [reflexivity|]. split; [exact Hd|]. split; [exact Hu|]. split; [exact Hk|].
    split; [exact Hn0|]. split; [apply HC', leq_live, H1|]. split; [exact H3|].
    rewrite (leq_keys _ _ H2), H2, (leq_plen _ _ Hq). split; [assumption|]. split; assumption.
  - cbn [app]. intros f' A fuel prev H1 H2 H3 L' Hf Hl. pose proof (leq_plen _ _ H1) as Hp. pose proof (leq_live _ _ H1) as Hll.
    eapply (wp_loop_at F G R m P HP _ _ _ _ _ mk); [eapply lay_ok_at; exact L'|exact Logic.I|eapply lay_seg_at; exact L'|lia|exact Hf|].
    intros fuel' Hf'. cbn [pent mk].
    eapply (wp_trans_abort h pre A n); try eassumption; try reflexivity.
    + rewrite (leq_keys _ _ H2). exact Hn.
    + rewrite H2. exact Hm.
    + apply HC', Hll.
    + change (plen (A ++ mk :: ds ++ us) + length J <= V). rewrite Ep. lia.
    + lia.
Qed.

(** The last step of recovery. *)
Lemma wp_recover_operation s h pre es J :
  lay F (fl s) h (h + NP) pre es J ERASED -> based h pre es -> room F h pre es J -> opc F es J m ->
  st_head s = Some (h * Q + pre) -> wp F R (recover_operation F) s P.
Proof.
  intros L Hb Hr Ho Hh. unfold recover_operation. apply wp_put_ents.
  eapply wp_the_head; [exact Hh|].
  assert (L' : lay F (fl (set_ents s (Some []))) h (h + NP) pre es J ERASED) by exact L.
  assert (Hh' : st_head (set_ents s (Some [])) = Some (h * Q + pre)) by exact Hh.
  destruct Ho as [Ho|[Ho|[Ho|[Ho|[Ho|Ho]]]]].
  - eapply (wp_op_none F G R m P HR HP); try eassumption; reflexivity.
  - eapply (wp_op_insert F G R m P HR HP); try eassumption; reflexivity.
  - eapply (wp_op_clear F G R m P HR HP); try eassumption; reflexivity.
  - eapply wp_op_marker; try eassumption; reflexivity.
  - eapply wp_op_commit; try eassumption; reflexivity.
  - eapply wp_op_abort; try eassumption; reflexivity.
Qed.

End RUN.
End UNDO.
