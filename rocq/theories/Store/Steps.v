(** The elementary writes of the store on a layout. *)
From Verif Require Import Base Facts.
From Verif.Kv Require Import Model.
From Verif.Store Require Import Format Bits Words Geom Model Wp Entries Layout Scan.
Open Scope nat_scope.
Ltac Zify.zify_post_hook ::= idtac.

(** [ws] written over the words [old] from index [o]. *)
Definition upd (o : nat) (ws old : list N) : list N :=
  firstn o old ++ ws ++ skipn (o + length ws) old.
Lemma upd_length o ws old : o + length ws <= length old -> length (upd o ws old) = length old.
Proof.
  intros H. unfold upd. rewrite !app_length, firstn_length, skipn_length. lia.
Qed.
Lemma upd_nth o ws old i : o + length ws <= length old -> i < length old ->
  nth i (upd o ws old) 0%N = if in_range o (length ws) i then nth (i - o) ws 0%N else nth i old 0%N.
Proof.
  intros H Hi. unfold upd. destruct (in_range o (length ws) i) eqn:E.
  - apply in_range_spec in E. rewrite app_nth2 by (rewrite firstn_length; lia).
    rewrite firstn_length, Nat.min_l by lia. apply app_nth1. lia.
  - apply in_range_false in E. destruct (Nat.lt_ge_cases i o) as [L|L].
    + rewrite app_nth1 by (rewrite firstn_length; lia). apply nth_firstn, L.
    + rewrite app_nth2 by (rewrite firstn_length; lia).
      rewrite firstn_length, Nat.min_l by lia. rewrite app_nth2 by lia.
      rewrite nth_skipn. f_equal. lia.
Qed.
Lemma upd_all ws old : length ws = length old -> upd 0 ws old = ws.
Proof. intros H. unfold upd. cbn [firstn app]. rewrite skipn_all2 by lia. apply app_nil_r. Qed.
Lemma upd_head w old : 0 < length old -> upd 0 [w] old = w :: tl old.
Proof. intros H. unfold upd. destruct old; [cbn in H; lia|]. reflexivity. Qed.
Lemma upd_tail ws w r : length ws = length r -> upd 1 ws (w :: r) = w :: ws.
Proof.
  intros H. unfold upd. cbn [firstn app]. rewrite skipn_all2 by (cbn [length]; lia).
  rewrite app_nil_r. reflexivity.
Qed.
Lemma Forall_upd o ws old : Forall w32 ws -> Forall w32 old -> Forall w32 (upd o ws old).
Proof.
  intros H1 H2. unfold upd. apply Forall_app. split; [apply Forall_firstn, H2|].
  apply Forall_app. split; [exact H1|]. apply Forall_skipn, H2.
Qed.
Lemma repeat_w32 n w : w32 w -> Forall w32 (repeat w n).
Proof. intros H. apply Forall_forall. intros x Hx. apply repeat_spec in Hx. subst x. exact H. Qed.
Lemma nth_repeat_0 i n : nth i (repeat 0%N n) 0%N = 0%N.
Proof. revert i. induction n; intros [|i]; cbn; auto. Qed.

Section STEPS.
Variable F : format.
Hypothesis G : wff F.
Notation Q := (virt_page_size F).
Notation NP := (num_pages F).
Notation MP := (max_prefix F).

(** The words in between: the list of what is read where [ws] is being written. *)
Lemma writing_words pos ws f f' : writing F pos ws f f' ->
  (forall i, i < length ws -> near F pos (length ws) (pos + i)) ->
  exists ys, length ys = length ws /\ Forall w32 ys /\
    (forall i, i < length ws -> nth i ys 0%N = read_word F f' (pos + i)) /\
    (forall i, i < length ws -> btw (read_word F f (pos + i)) (nth i ws 0%N) (nth i ys 0%N)).
Proof.
  intros (Hf & Hh & _ & H) Hn. exists (read_words F f' pos (length ws)).
  assert (L : length (read_words F f' pos (length ws)) = length ws).
  { unfold read_words. rewrite map_length, seq_length. reflexivity. }
  assert (E : forall i, i < length ws ->
            nth i (read_words F f' pos (length ws)) 0%N = read_word F f' (pos + i)).
  { intros i Hi. unfold read_words.
    rewrite (nth_indep _ 0%N (read_word F f' (pos + 0))) by (rewrite map_length, seq_length; exact Hi).
    rewrite (map_nth (fun i => read_word F f' (pos + i)) (seq 0 (length ws)) 0).
    rewrite seq_nth by exact Hi. reflexivity. }
  split; [exact L|]. split; [|split; [exact E|]].
  - unfold read_words. apply Forall_forall. intros x Hx. apply in_map_iff in Hx as (i & <- & _).
    apply Hf.
  - intros i Hi. rewrite E by exact Hi. specialize (H (pos + i) (Hn i Hi)).
    replace (in_range pos (length ws) (pos + i)) with true in H
      by (symmetry; apply in_range_spec; lia).
    replace (pos + i - pos) with i in H by lia. exact H.
Qed.

(** A word in a slice, before and after. *)
Lemma worn_at pos ws f f' i : worn F pos ws f f' -> i < length ws ->
  near F pos (length ws) (pos + i) ->
  read_wear F f' (pos + i) =
  if ((read_word F f' (pos + i) =? nth i ws 0) && negb (read_word F f (pos + i) =? nth i ws 0))%N
  then S (read_wear F f (pos + i)) else read_wear F f (pos + i).
Proof.
  intros W Hi Hn. rewrite (W _ Hn).
  replace (in_range pos (length ws) (pos + i)) with true by (symmetry; apply in_range_spec; lia).
  replace (pos + i - pos) with i by lia. reflexivity.
Qed.
Lemma worn_out pos ws f f' p : worn F pos ws f f' -> near F pos (length ws) p ->
  in_range pos (length ws) p = false -> read_wear F f' p = read_wear F f p.
Proof. intros W Hn Hr. rewrite (W _ Hn), Hr. reflexivity. Qed.
(** Words before the end of the entries that start no deleted entry. *)
Lemma lay_budget f h e pre es J c p : lay F f h e pre es J c -> h * Q <= p < e * Q ->
  ~ exempt F es J (h * Q + pre) p -> read_wear F f p <= budget (read_word F f p).
Proof.
  intros L Hp N. destruct (b_wear _ _ _ _ _ _ _ _ L p Hp) as [X|[_ X]]; [exact X|contradiction].
Qed.
Lemma exempt_inside A x B J hpos o : Forall (eok F) (A ++ x :: B) -> o < elen x ->
  exempt F (A ++ x :: B) J hpos (hpos + plen A + o) -> o = 0 /\ is_dead x.
Proof.
  intros O Ho [(A' & ws & R & Ees & E)|(E & _)].
  2:{ rewrite plen_app, plen_cons in E. lia. }
  assert (OD : forall l1 y l2, A ++ x :: B = l1 ++ y :: l2 -> 0 < elen y).
  { intros l1 y l2 X. rewrite X in O. apply Forall_app in O as [_ O]. inversion O as [|? ? Oy _].
    apply (eok_len F G y Oy). }
  pose proof (OD _ _ _ Ees) as Lw.
  apply app_inj_mid in Ees as [(r & -> & ->)|(r & -> & Er)].
  - exfalso. rewrite plen_app, plen_cons in E. lia.
  - destruct r as [|z r]; cbn in Er; injection Er as <- ->.
    + rewrite app_nil_r in E. split; [lia|exact Logic.I].
    + exfalso. rewrite plen_app, plen_cons in E. lia.
Qed.
Lemma exempt_J es J hpos o : Forall (eok F) es ->
  exempt F es J hpos (hpos + plen es + o) ->
  o = 0 /\ exists w r, J = w :: r /\ is_pad F w = true.
Proof.
  intros O [(A & ws & R & -> & E)|(E & w & r & -> & X)].
  - exfalso. rewrite plen_app, plen_cons in E. apply Forall_app in O as [_ O].
    inversion O as [|? ? Oy _]. pose proof (eok_len F G _ Oy). lia.
  - split; [lia|]. eauto.
Qed.

(** Writing inside an entry. *)
Lemma wp_write_ent (R : flash -> Prop) s h e pre A x B J c o ws (P : res store_error unit -> st -> Prop) :
  lay F (fl s) h e pre (A ++ x :: B) J c -> Forall w32 ws -> o + length ws <= elen x ->
  (forall i, i < length ws -> sub (nth i ws 0%N) (nth (o + i) (ewords x) 0%N)) ->
  (forall i, i < length ws -> o + i = 0 -> is_dead x -> nth i ws 0%N = nth 0 (ewords x) 0%N) ->
  (forall i, i < length ws -> o + i = 0 \/ nth i ws 0%N = 0%N \/
     nth i ws 0%N = nth (o + i) (ewords x) 0%N) ->
  (forall f' ys, length ys = length ws -> Forall w32 ys ->
     (forall i, i < length ws -> btw (nth (o + i) (ewords x) 0%N) (nth i ws 0%N) (nth i ys 0%N)) ->
     (forall x', ewords x' = upd o ys (ewords x) -> eok F x' -> (is_dead x -> is_dead x') ->
        (o = 0 -> x' = x \/ is_dead x') ->
        lay F f' h e pre (A ++ x' :: B) J c) ->
     R f') ->
  (forall f', 
     (forall x', ewords x' = upd o ws (ewords x) -> eok F x' -> (is_dead x -> is_dead x') ->
        (o = 0 -> x' = x \/ is_dead x') ->
        lay F f' h e pre (A ++ x' :: B) J c) ->
     P (Ok tt) (set_fl s f')) ->
  wp F R (write_slice F (h * Q + pre + plen A + o) ws) s P.
Proof.
  intros L Hw Ho Hs Hx Hc HR HP.
  pose proof (lay_seg_at F _ _ _ _ _ _ _ _ _ L) as Sx.
  pose proof (lay_ok_at F _ _ _ _ _ _ _ _ _ L) as Ox. pose proof (eok_len F G x Ox) as Lx.
  pose proof (b_fit _ _ _ _ _ _ _ _ L) as Bf. rewrite plen_app, plen_cons in Bf.
  pose proof (lay_win F _ _ _ _ _ _ _ L) as Win.
  assert (Res : forall f' ys, fok f' -> hdr_same (fl s) f' -> length ys = length ws ->
    (forall i, i < length ws -> read_word F f' (h * Q + pre + plen A + o + i) = nth i ys 0%N) ->
    (forall p, h * Q <= p < e * Q -> in_range (h * Q + pre + plen A + o) (length ws) p = false ->
       read_word F f' p = read_word F (fl s) p) ->
    worn F (h * Q + pre + plen A + o) ws (fl s) f' ->
    (forall i, i < length ws -> sub (nth i ys 0%N) (nth (o + i) (ewords x) 0%N)) ->
    forall x', ewords x' = upd o ys (ewords x) -> eok F x' -> (is_dead x -> is_dead x') ->
      (o = 0 -> x' = x \/ is_dead x') ->
      lay F f' h e pre (A ++ x' :: B) J c).
  { intros f' ys Hf Hh Ly Hy Hr Wn Hys x' Ex' Ok' Hd Hx'.
    assert (Lx' : elen x' = elen x).
    { unfold elen. rewrite Ex'. apply upd_length. unfold elen in Ho. lia. }
    eapply (lay_set F G (fl s) f' h e pre A x x' B J c); try assumption.
    - intros E0. subst x. destruct x' as [| ws' | |]; try (exfalso; exact (Hd Logic.I)).
      cbn [ewords] in Ex'. f_equal. rewrite Ex'. unfold elen in Ho. cbn [ewords length] in Ho.
      destruct o as [|o].
      + destruct ys as [|y ys]; [reflexivity|]. destruct ys; [|cbn [length] in Ly; lia].
        rewrite upd_all by reflexivity. f_equal. apply sub_antisym; [|apply sub_0].
        apply (Hys 0). cbn [length] in Ly. lia.
      + destruct ys; [|cbn [length] in Ly; lia]. unfold upd. cbn [length]. rewrite Nat.add_0_r.
        rewrite app_nil_l. apply firstn_skipn.
    - intros i Hi. rewrite Ex'. fold (elen x') in Hi. rewrite Lx' in Hi.
      rewrite upd_nth by (unfold elen in *; lia).
      destruct (in_range o (length ys) i) eqn:E.
      + apply in_range_spec in E. rewrite <- Hy by lia. f_equal. lia.
      + rewrite Hr.
        * apply Sx. exact Hi.
        * lia.
        * apply in_range_false in E. apply in_range_false. lia.
    - intros p Hp Hpx. split; [apply Hr; [exact Hp|]; apply in_range_false; lia|].
      apply (worn_out _ _ _ _ _ Wn); [apply Win; lia|]. apply in_range_false. lia.
    - intros p Hp. set (q := p - (h * Q + pre + plen A)).
      assert (Ep : p = h * Q + pre + plen A + q) by (unfold q; lia).
      assert (Hq : q < elen x) by (unfold q; lia). clearbody q. subst p.
      assert (Old : read_word F (fl s) (h * Q + pre + plen A + q) = nth q (ewords x) 0%N) by (apply Sx; exact Hq).
      assert (WX : w32 (read_word F (fl s) (h * Q + pre + plen A + q))) by apply (b_ok _ _ _ _ _ _ _ _ L).
      assert (Hpe : h * Q <= h * Q + pre + plen A + q < e * Q) by lia.
      destruct (in_range o (length ws) q) eqn:E.
      + apply in_range_spec in E. set (i := q - o). assert (Eq : q = o + i) by (unfold i; lia).
        assert (Hi : i < length ws) by (unfold i; lia). clearbody i. subst q.
        rewrite (Nat.add_assoc (h * Q + pre + plen A) o i) in *.
        pose proof (worn_at _ _ _ _ i Wn Hi ltac:(apply Win; lia)) as Wi.
        rewrite (Hy i Hi) in Wi. rewrite (Hy i Hi).
        destruct (b_wear _ _ _ _ _ _ _ _ L _ Hpe) as [Bu|[Bu X]].
        * assert (S1 : sub (nth i ws 0%N) (read_word F (fl s) (h * Q + pre + plen A + o + i))) by (rewrite Old; apply Hs, Hi).
          assert (S2 : sub (nth i ys 0%N) (read_word F (fl s) (h * Q + pre + plen A + o + i))) by (rewrite Old; apply Hys, Hi).
          destruct (budget_write _ _ _ _ _ WX S1 S2 Bu Wi) as [K1 K2].
          destruct (Hc i Hi) as [Z|Z].
          -- assert (o = 0) by lia. destruct (Hx' H) as [->|Dx'].
             ++ left. assert (i = 0) by lia. subst i o.
                assert (Y : nth 0 ys 0%N = nth 0 (ewords x) 0%N).
                { rewrite Ex' at 1. rewrite upd_nth by (unfold elen in *; lia).
                  replace (in_range 0 (length ys) 0) with true by (symmetry; apply in_range_spec; lia).
                  reflexivity. }
                cbn [Nat.add] in *. rewrite Y in Wi |- *. rewrite Old in Wi.
                destruct (nth 0 (ewords x) 0 =? nth 0 ws 0)%N; cbn [negb andb] in Wi;
                  rewrite Wi, <- Old; exact Bu.
             ++ right. split; [exact K1|]. split; [lia|exact Dx'].
          -- left. apply K2. rewrite Old. destruct Z as [Z|Z]; auto.
        * rewrite <- Nat.add_assoc in X. apply exempt_inside in X as [Z Dx];
            [|apply (b_ents _ _ _ _ _ _ _ _ L)|exact Hq].
          right. assert (i = 0) by lia. assert (o = 0) by lia. subst i o.
          rewrite (Hx 0 Hi eq_refl Dx) in Wi. rewrite Old in Wi. cbn [Nat.add] in Wi.
          rewrite (N.eqb_refl (nth 0 (ewords x) 0%N)), andb_false_r in Wi. rewrite Wi.
          split; [exact Bu|]. split; [lia|exact (Hd Dx)].
      + rewrite Hr; [|exact Hpe|apply in_range_false; apply in_range_false in E; lia].
        rewrite (worn_out _ _ _ _ _ Wn); [|apply Win; lia|apply in_range_false; apply in_range_false in E; lia].
        destruct (b_wear _ _ _ _ _ _ _ _ L _ Hpe) as [Bu|[Bu X]]; [left; exact Bu|right].
        apply exempt_inside in X as [-> Dx]; [|apply (b_ents _ _ _ _ _ _ _ _ L)|exact Hq].
        split; [exact Bu|]. split; [lia|exact (Hd Dx)]. }
  apply wp_write.
  - exact G.
  - apply (b_ok _ _ _ _ _ _ _ _ L).
  - exact Hw.
  - lia.
  - intros i Hi. rewrite <- Nat.add_assoc. rewrite Sx by (fold (elen x); lia). apply Hs, Hi.
  - intros i Hi Hn. rewrite <- (Nat.add_assoc (h * Q + pre + plen A) o i) in *. rewrite Sx in Hn by (fold (elen x); lia).
    assert (Hpe : h * Q <= h * Q + pre + plen A + (o + i) < e * Q) by lia.
    destruct (b_wear _ _ _ _ _ _ _ _ L _ Hpe) as [Bu|[Bu X]].
    + rewrite Sx in Bu by (fold (elen x); lia).
      assert (nth (o + i) (ewords x) 0%N <> 0%N).
      { intros Z. apply Hn. pose proof (Hs i Hi) as S0. rewrite Z in S0 |- *. symmetry.
        apply sub_antisym; [exact S0|apply sub_0]. }
      pose proof (budget_1 _ H). lia.
    + apply exempt_inside in X as [Z Dx]; [|apply (b_ents _ _ _ _ _ _ _ _ L)|lia].
      exfalso. apply Hn. rewrite Z. symmetry. apply Hx; assumption.
  - intros f' Wf.
    destruct (writing_words _ _ _ _ Wf) as (ys & Ly & Wy & Ey & By).
    { intros i Hi. apply Win; lia. }
    apply (HR f' ys Ly Wy).
    + intros i Hi. specialize (By i Hi). rewrite <- Nat.add_assoc in By.
      rewrite Sx in By by (fold (elen x); lia). exact By.
    + destruct Wf as (Hf & Hh & Hwn & Hr). intros x' Ex' Okx Hd Hx'.
      apply (Res f' ys Hf Hh Ly); try assumption.
      * intros i Hi. symmetry. apply Ey, Hi.
      * intros p Hp Hin. specialize (Hr p). rewrite Hin in Hr. apply Hr. apply Win; lia.
      * intros i Hi. specialize (By i Hi) as [_ By]. rewrite <- Nat.add_assoc in By.
        rewrite Sx in By by (fold (elen x); lia). exact By.
  - intros f' (Hf & Hh & Hwn & Hr). apply HP. apply (Res f' ws Hf Hh eq_refl).
    + intros i Hi. rewrite Hr by (apply Win; lia).
      replace (in_range (h * Q + pre + plen A + o) (length ws) (h * Q + pre + plen A + o + i)) with true
        by (symmetry; apply in_range_spec; lia). f_equal. lia.
    + intros p Hp Hin. rewrite Hr by (apply Win; lia). rewrite Hin. reflexivity.
    + exact Hwn.
    + exact Hs.
Qed.

(** Writing inside the entry being written. *)
Lemma wp_write_J (R : flash -> Prop) s h e pre es J c o ws (P : res store_error unit -> st -> Prop) :
  lay F (fl s) h e pre es J c -> Forall w32 ws -> o + length ws <= length J ->
  (forall i, i < length ws -> sub (nth i ws 0%N) (nth (o + i) J 0%N)) ->
  (forall i, i < length ws -> o + i = 0 -> is_pad F (nth 0 J 0%N) = true ->
     nth i ws 0%N = nth 0 J 0%N) ->
  (forall i, i < length ws ->
     nth (o + i) J 0%N = ERASED \/ read_wear F (fl s) (h * Q + pre + plen es + o + i) = 0 \/
     nth i ws 0%N = 0%N \/ nth i ws 0%N = nth (o + i) J 0%N \/
     (o + i = 0 /\ is_pad F (nth i ws 0%N) = true)) ->
  (forall f' ys, length ys = length ws -> Forall w32 ys ->
     (forall i, i < length ws -> btw (nth (o + i) J 0%N) (nth i ws 0%N) (nth i ys 0%N)) ->
     hdr_same (fl s) f' -> worn F (h * Q + pre + plen es + o) ws (fl s) f' ->
     lay F f' h e pre es (upd o ys J) c -> R f') ->
  (forall f', hdr_same (fl s) f' -> worn F (h * Q + pre + plen es + o) ws (fl s) f' ->
     lay F f' h e pre es (upd o ws J) c -> P (Ok tt) (set_fl s f')) ->
  wp F R (write_slice F (h * Q + pre + plen es + o) ws) s P.
Proof.
  intros L Hw Ho Hs Hx Hc HR HP.
  pose proof (b_seg _ _ _ _ _ _ _ _ L) as Sx. apply seg_app in Sx as [_ Sx]. fold (plen es) in Sx.
  pose proof (b_len _ _ _ _ _ _ _ _ L) as BJ. pose proof (g_M F G) as HM.
  pose proof (b_fit _ _ _ _ _ _ _ _ L) as Bf. pose proof (b_w32 _ _ _ _ _ _ _ _ L) as Bw.
  pose proof (lay_win F _ _ _ _ _ _ _ L) as Win.
  assert (Res : forall f' ys, fok f' -> hdr_same (fl s) f' -> length ys = length ws -> Forall w32 ys ->
    (forall i, i < length ws -> read_word F f' (h * Q + pre + plen es + o + i) = nth i ys 0%N) ->
    (forall p, h * Q <= p < e * Q -> in_range (h * Q + pre + plen es + o) (length ws) p = false ->
       read_word F f' p = read_word F (fl s) p) ->
    worn F (h * Q + pre + plen es + o) ws (fl s) f' ->
    (forall i, i < length ws -> btw (nth (o + i) J 0%N) (nth i ws 0%N) (nth i ys 0%N)) ->
    lay F f' h e pre es (upd o ys J) c).
  { intros f' ys Hf Hh Ly Wy Hy Hr Wn Hys.
    assert (LJ : length (upd o ys J) = length J) by (apply upd_length; lia).
    eapply (lay_J F G (fl s) f' h e pre es J (upd o ys J) c); try assumption.
    - right. exact LJ.
    - rewrite LJ. exact Bf.
    - rewrite LJ. exact BJ.
    - apply Forall_upd; assumption.
    - intros p Hp. split; [apply Hr; [lia|]; apply in_range_false; lia|].
      apply (worn_out _ _ _ _ _ Wn); [apply Win; lia|]. apply in_range_false. lia.
    - intros p Hp. set (q := p - (h * Q + pre + plen es)).
      assert (Ep : p = h * Q + pre + plen es + q) by (unfold q; lia).
      clearbody q. subst p.
      assert (WX : w32 (read_word F (fl s) (h * Q + pre + plen es + q))) by apply (b_ok _ _ _ _ _ _ _ _ L).
      assert (Hpe : h * Q <= h * Q + pre + plen es + q < e * Q) by lia.
      destruct (in_range o (length ws) q) eqn:E.
      + apply in_range_spec in E.
        assert (Old : read_word F (fl s) (h * Q + pre + plen es + q) = nth q J 0%N) by (apply Sx; lia).
        set (i := q - o). assert (Eq : q = o + i) by (unfold i; lia).
        assert (Hi : i < length ws) by (unfold i; lia). clearbody i. subst q.
        rewrite (Nat.add_assoc (h * Q + pre + plen es) o i) in *.
        pose proof (worn_at _ _ _ _ i Wn Hi ltac:(apply Win; lia)) as Wi.
        rewrite (Hy i Hi) in Wi. rewrite (Hy i Hi).
        destruct (b_wear _ _ _ _ _ _ _ _ L _ Hpe) as [Bu|[Bu X]].
        * assert (S1 : sub (nth i ws 0%N) (read_word F (fl s) (h * Q + pre + plen es + o + i))) by (rewrite Old; apply Hs, Hi).
          assert (S2 : sub (nth i ys 0%N) (read_word F (fl s) (h * Q + pre + plen es + o + i))) by (rewrite Old; apply (Hys i Hi)).
          destruct (budget_write _ _ _ _ _ WX S1 S2 Bu Wi) as [K1 K2].
          rewrite Old in K2.
          destruct (Hc i Hi) as [Z|[Z|[Z|[Z|[Z Z']]]]].
          -- left. apply K2. left. rewrite Old, Z, budget_erased in Bu. lia.
          -- left. apply K2. left. exact Z.
          -- left. apply K2. auto.
          -- left. apply K2. auto.
          -- destruct (N.eq_dec (nth i ys 0%N) (nth i ws 0%N)) as [Y|Y].
             ++ right. split; [exact K1|]. right. split; [lia|].
                assert (i = 0) by lia. assert (o = 0) by lia. subst i o.
                destruct ys as [|y ys]; [cbn [length] in Ly; lia|]. cbn [nth] in Y. subst y.
                unfold upd. cbn [firstn app]. eexists _, _. split; [reflexivity|exact Z'].
             ++ left. apply N.eqb_neq in Y. rewrite Y in Wi. cbn [andb] in Wi. rewrite Wi.
                etransitivity; [exact Bu|]. apply budget_mono; [exact WX|]. rewrite Old. apply (Hys i Hi).
        * rewrite <- Nat.add_assoc in X. apply exempt_J in X as [Z (w & r & EJ & Dx)];
            [|apply (b_ents _ _ _ _ _ _ _ _ L)]. subst J.
          right. assert (i = 0) by lia. assert (o = 0) by lia. subst i o.
          pose proof (Hx 0 Hi eq_refl Dx) as Z0. rewrite Z0 in Wi. rewrite Old in Wi.
          cbn [Nat.add nth] in Wi. rewrite (N.eqb_refl w), andb_false_r in Wi. rewrite Wi.
          split; [exact Bu|]. right. split; [lia|]. 
          destruct ys as [|y ys]; [cbn [length] in Ly; lia|].
          unfold upd. cbn [firstn app]. eexists _, _. split; [reflexivity|].
          replace y with w; [exact Dx|]. specialize (Hys 0 Hi) as [Y1 Y2]. rewrite Z0 in Y1.
          cbn [nth Nat.add] in Y1, Y2. apply sub_antisym; assumption.
      + rewrite Hr; [|exact Hpe|apply in_range_false; apply in_range_false in E; lia].
        rewrite (worn_out _ _ _ _ _ Wn); [|apply Win; lia|apply in_range_false; apply in_range_false in E; lia].
        destruct (b_wear _ _ _ _ _ _ _ _ L _ Hpe) as [Bu|[Bu X]]; [left; exact Bu|right].
        split; [exact Bu|].
        apply exempt_J in X as [-> (w & r & EJ & Dx)]; [|apply (b_ents _ _ _ _ _ _ _ _ L)].
        right. split; [lia|]. rewrite EJ. apply in_range_false in E.
        destruct o as [|o]; [|unfold upd; cbn [firstn app]; eauto].
        destruct ys; [|cbn [length] in Ly; lia]. unfold upd. cbn [firstn app length Nat.add skipn]. eauto.
    - intros i Hi. rewrite LJ in Hi. rewrite upd_nth by lia.
      destruct (in_range o (length ys) i) eqn:E.
      + apply in_range_spec in E. rewrite <- Hy by lia. f_equal. lia.
      + rewrite Hr.
        * apply Sx. exact Hi.
        * lia.
        * apply in_range_false in E. apply in_range_false. lia.
    - rewrite LJ. intros p Hp. rewrite Hr.
      + apply (b_blank _ _ _ _ _ _ _ _ L), Hp.
      + lia.
      + apply in_range_false. lia. }
  apply wp_write.
  - exact G.
  - apply (b_ok _ _ _ _ _ _ _ _ L).
  - exact Hw.
  - lia.
  - intros i Hi. rewrite <- Nat.add_assoc. rewrite Sx by lia. apply Hs, Hi.
  - intros i Hi Hn. rewrite <- (Nat.add_assoc (h * Q + pre + plen es) o i) in *. rewrite Sx in Hn by lia.
    assert (Hpe : h * Q <= h * Q + pre + plen es + (o + i) < e * Q) by lia.
    destruct (b_wear _ _ _ _ _ _ _ _ L _ Hpe) as [Bu|[Bu X]].
    + rewrite Sx in Bu by lia.
      assert (nth (o + i) J 0%N <> 0%N).
      { intros Z. apply Hn. pose proof (Hs i Hi) as S0. rewrite Z in S0 |- *. symmetry.
        apply sub_antisym; [exact S0|apply sub_0]. }
      pose proof (budget_1 _ H). lia.
    + apply exempt_J in X as [Z (w & r & EJ & Dx)]; [|apply (b_ents _ _ _ _ _ _ _ _ L)].
      exfalso. apply Hn. rewrite Z. symmetry. apply Hx; [assumption|assumption|]. rewrite EJ. exact Dx.
  - intros f' Wf.
    destruct (writing_words _ _ _ _ Wf) as (ys & Ly & Wy & Ey & By).
    { intros i Hi. apply Win; lia. }
    destruct Wf as (Hf & Hh & Hwn & Hr).
    apply (HR f' ys Ly Wy).
    + intros i Hi. specialize (By i Hi). rewrite <- Nat.add_assoc in By.
      rewrite Sx in By by lia. exact By.
    + exact Hh.
    + exact Hwn.
    + apply (Res f' ys Hf Hh Ly Wy).
      * intros i Hi. symmetry. apply Ey, Hi.
      * intros p Hp Hin. specialize (Hr p). rewrite Hin in Hr. apply Hr. apply Win; lia.
      * exact Hwn.
      * intros i Hi. specialize (By i Hi). rewrite <- Nat.add_assoc in By.
        rewrite Sx in By by lia. exact By.
  - intros f' (Hf & Hh & Hwn & Hr). apply HP; [exact Hh|exact Hwn|]. apply (Res f' ws Hf Hh eq_refl Hw).
    + intros i Hi. rewrite Hr by (apply Win; lia).
      replace (in_range (h * Q + pre + plen es + o) (length ws) (h * Q + pre + plen es + o + i)) with true
        by (symmetry; apply in_range_spec; lia). f_equal. lia.
    + intros p Hp Hin. rewrite Hr by (apply Win; lia). rewrite Hin. reflexivity.
    + exact Hwn.
    + intros i Hi. apply btw_new, Hs, Hi.
Qed.

(** Erased words at the end can be seen as an entry being written, and back. *)
Lemma lay_open f h e pre es c n : lay F f h e pre es [] c -> n <= MP + 1 ->
  h * Q + pre + plen es + n <= e * Q -> lay F f h e pre es (repeat ERASED n) c.
Proof.
  intros L Hn Hf. pose proof (b_blank _ _ _ _ _ _ _ _ L) as Bb. cbn [length] in Bb.
  rewrite Nat.add_0_r in Bb.
  eapply (lay_J F G f f); try exact L.
  - apply (b_ok _ _ _ _ _ _ _ _ L).
  - intros p. repeat split; reflexivity.
  - left. reflexivity.
  - rewrite repeat_length. exact Hf.
  - rewrite repeat_length. exact Hn.
  - apply repeat_w32, w32_erased.
  - intros p Hp. split; reflexivity.
  - intros p Hp. left. apply (lay_budget _ _ _ _ _ _ _ _ L).
    + lia.
    + replace p with (h * Q + pre + plen es + (p - (h * Q + pre + plen es))) by lia. intros X.
      apply exempt_J in X as [_ (w & r & X & _)]; [discriminate|apply (b_ents _ _ _ _ _ _ _ _ L)].
  - apply blank_seg. eapply blank_mono; [exact Bb|lia|lia].
  - rewrite repeat_length. eapply blank_mono; [exact Bb|lia|lia].
Qed.
Definition fresh (f : flash) (h e t : nat) : Prop :=
  forall j, h < j < e -> t <= j * Q -> vini F f j = ERASED.
Lemma lay_fresh f h e pre es c : lay F f h e pre es [] c -> fresh f h e (h * Q + pre + plen es).
Proof. intros L j Hj Ht. apply (b_inits3 _ _ _ _ _ _ _ _ L j Hj). cbn [length]. lia. Qed.
Lemma fresh_same f f' h e t : fresh f h e t -> hdr_same f f' -> fresh f' h e t.
Proof.
  intros H Hh j Hj Ht. unfold vini. destruct (Hh (j mod NP)) as [-> _]. apply (H j Hj Ht).
Qed.
Lemma lay_trim f h e pre es gs n c : lay F f h e pre es (gs ++ repeat ERASED n) c ->
  fresh f h e (h * Q + pre + plen es) -> lay F f h e pre es gs c.
Proof.
  intros L Hfr. destruct L as [B1 B2 B3 B4 B5 B6 B7 B8 B9 B10 B11 B12 B13 B14 B15 B16 C1 C2 C3 C4 C5].
  rewrite app_length, repeat_length in *.
  pose proof B6 as S. rewrite app_assoc in S. apply seg_app in S as [S1 S2].
  rewrite app_length in S2. fold (plen es) in S2. rewrite Nat.add_assoc in S2.
  apply blank_seg in S2. apply Forall_app in B9 as [W1 W2].
  split; try assumption.
  - lia.
  - lia.
  - eapply blank_join; [exact S2|]. eapply blank_mono; [exact B10|lia|lia].
  - intros j Hj Hjt. rewrite (Hfr j Hj) by lia. apply sub_erased.
    destruct (iword_facts F G h j (target F (h * Q + pre + plen es) (length gs) j)) as (_ & W & _);
      [assumption|lia| |exact W].
    pose proof (target_ok F _ _ _ Hjt ltac:(lia)). lia.
  - intros j Hj Hjt. apply Hfr; [exact Hj|lia].
  - intros p Hp. destruct (C1 p Hp) as [X|[X Y]]; [left; exact X|]. right. split; [exact X|].
    destruct Y as [Y|(Y & w & r & EJ & Z)]; [left; exact Y|]. right. split; [exact Y|].
    destruct gs as [|g gs].
    + exfalso. destruct n; [discriminate|]. cbn [repeat app] in EJ. injection EJ as <- _.
      apply pad_not_erased in Z. congruence.
    + cbn [app] in EJ. injection EJ as -> _. eauto.
  - intros j Hj Hjt. destruct (C2 j Hj Hjt) as [X|[X Y]]; [left; exact X|]. exfalso.
    rewrite (Hfr j Hj Hjt) in Y.
    destruct (iword_facts F G h j (target F (h * Q + pre + plen es) (length gs + n) j)) as (_ & _ & W & _);
      [assumption|lia| |symmetry in Y; contradiction].
    pose proof (target_ok F _ _ _ (conj Hjt X) ltac:(lia)). lia.
Qed.
Lemma lay_close f h e pre es n c : lay F f h e pre es (repeat ERASED n) c ->
  fresh f h e (h * Q + pre + plen es) -> lay F f h e pre es [] c.
Proof. intros L. apply (lay_trim f h e pre es [] n c L). Qed.

Lemma nth_erased_w32 i n w : w32 w -> i < n -> sub w (nth i (repeat ERASED n) 0%N).
Proof.
  intros W Hi. rewrite (nth_indep _ 0%N ERASED) by (rewrite repeat_length; exact Hi).
  rewrite nth_repeat_erased. apply sub_erased, W.
Qed.
Lemma nth_erased i n : i < n -> nth i (repeat ERASED n) 0%N = ERASED.
Proof.
  intros Hi. rewrite (nth_indep _ 0%N ERASED) by (rewrite repeat_length; exact Hi).
  apply nth_repeat_erased.
Qed.
Lemma Forall_nth_w32 ws i : Forall w32 ws -> w32 (nth i ws 0%N).
Proof.
  intros H. destruct (Nat.lt_ge_cases i (length ws)) as [L|L].
  - rewrite Forall_forall in H. apply H. apply nth_In, L.
  - rewrite nth_overflow by exact L. reflexivity.
Qed.

(** Writing an entry with a value: the footer comes last. *)
Lemma wp_write_entry (R : flash -> Prop) s h e pre es c k v (P : res store_error unit -> st -> Prop) :
  lay F (fl s) h e pre es [] c -> eok F (Live k v) ->
  h * Q + pre + plen es + elen (Live k v) <= e * Q ->
  (forall f' gs, lay F f' h e pre es gs c -> length gs <= elen (Live k v) ->
     gs = [] \/ jg_ok F gs \/ ju_ok F gs \/ gs = user_words k v -> R f') ->
  (forall f', lay F f' h e pre es (user_words k v) c -> P (Ok tt) (set_fl s f')) ->
  wp F R (write_entry F (h * Q + pre + plen es) (user_words k v)) s P.
Proof.
  intros L Hok Hfit HR HP. set (ws := user_words k v) in *.
  assert (Ew : ws = ewords (Live k v)) by reflexivity.
  pose proof (eok_w32 F G _ Hok) as Ww. rewrite <- Ew in Ww.
  destruct (live_elen F G k v Hok) as [El Em].
  assert (Ln : length ws = 1 + to_words (length v)) by (rewrite <- El; reflexivity).
  set (m := length ws - 1).
  assert (L1 : length (firstn m ws) = m) by (rewrite firstn_length; unfold m; lia).
  assert (L2 : length (skipn m ws) = 1) by (rewrite skipn_length; unfold m; lia).
  pose proof (lay_fresh _ _ _ _ _ _ L) as Fr.
  assert (LO : lay F (fl s) h e pre es (repeat ERASED (length ws)) c).
  { apply lay_open; [exact L|lia|]. unfold elen in Hfit. rewrite <- Ew in Hfit. exact Hfit. }
  assert (End : forall f' xs, lay F f' h e pre es xs c -> hdr_same (fl s) f' -> length xs = length ws ->
            (forall i, i < length xs -> sub (nth i ws 0%N) (nth i xs 0%N)) ->
            last xs 0%N = ERASED \/ (forall i, i < length xs - 1 -> nth i xs 0%N = nth i ws 0%N) ->
            R f').
  { intros f' xs Lx Hh Lxs Hs Hl.
    destruct (user_left_over F G k v xs Hok (b_w32 _ _ _ _ _ _ _ _ Lx)) as (gs & n & Ex & C).
    - rewrite Lxs, Ew. reflexivity.
    - exact Hs.
    - exact Hl.
    - apply (HR f' gs).
      + rewrite Ex in Lx. eapply lay_trim; [exact Lx|]. eapply fresh_same; [exact Fr|exact Hh].
      + rewrite El, <- Ln, <- Lxs, Ex, app_length. lia.
      + destruct C as [C|[C|[C|[C _]]]]; auto. }
  unfold write_entry. fold m. apply wp_bind.
  rewrite <- (Nat.add_0_r (h * Q + pre + plen es)) at 1.
  apply (wp_write_J R s h e pre es (repeat ERASED (length ws)) c 0).
  - exact LO.
  - apply Forall_firstn, Ww.
  - rewrite L1, repeat_length. unfold m. lia.
  - intros i Hi. rewrite L1 in Hi. cbn [Nat.add]. rewrite nth_firstn by exact Hi.
    apply nth_erased_w32; [apply Forall_nth_w32, Ww|unfold m in Hi; lia].
  - intros i _ _ X. exfalso. rewrite nth_erased in X by lia. apply pad_not_erased in X. congruence.
  - intros i Hi. rewrite L1 in Hi. left. apply nth_erased. unfold m in Hi. cbn [Nat.add]. lia.
  - intros f' ys Ly Wy By Hh _ Lf. rewrite L1 in Ly, By.
    apply (End f' _ Lf Hh).
    + rewrite upd_length; rewrite repeat_length; [reflexivity|rewrite Ly; unfold m; lia].
    + intros i Hi. rewrite upd_length in Hi by (rewrite repeat_length, Ly; unfold m; lia).
      rewrite upd_nth by (rewrite ?repeat_length, ?Ly in *; unfold m; lia).
      rewrite Ly. destruct (in_range 0 m i) eqn:E.
      * apply in_range_spec in E. rewrite Nat.sub_0_r. specialize (By i ltac:(lia)) as [By _].
        rewrite nth_firstn in By by lia. exact By.
      * rewrite repeat_length in Hi. apply nth_erased_w32; [apply Forall_nth_w32, Ww|exact Hi].
    + left. rewrite <- nth_last, upd_length by (rewrite repeat_length, Ly; unfold m; lia).
      rewrite repeat_length. fold m. rewrite upd_nth by (rewrite ?repeat_length, ?Ly; unfold m; lia).
      replace (in_range 0 (length ys) m) with false by (symmetry; apply in_range_false; lia).
      rewrite (nth_indep _ 0%N ERASED) by (rewrite repeat_length; unfold m; lia).
      apply nth_repeat_erased.
  - intros f1 Hh1 _ Lf1.
    apply (wp_write_J R (set_fl s f1) h e pre es (upd 0 (firstn m ws) (repeat ERASED (length ws))) c m).
    + exact Lf1.
    + apply Forall_skipn, Ww.
    + rewrite upd_length; rewrite repeat_length; rewrite ?L1, ?L2; unfold m; lia.
    + intros i Hi. rewrite L2 in Hi. assert (i = 0) by lia. subst i.
      rewrite upd_nth by (rewrite ?repeat_length, ?L1; unfold m; lia). rewrite L1.
      replace (in_range 0 m (m + 0)) with false by (symmetry; apply in_range_false; lia).
      rewrite nth_skipn. apply nth_erased_w32; [apply Forall_nth_w32, Ww|unfold m; lia].
    + intros i Hi Z. rewrite L2 in Hi. assert (i = 0) by lia. assert (Em0 : m = 0) by lia. subst i.
      replace (firstn m ws) with (@nil N) by (rewrite Em0; reflexivity).
      unfold upd. cbn [length firstn app Nat.add skipn]. intros X. exfalso.
      rewrite nth_erased in X by lia. apply pad_not_erased in X. congruence.
    + intros i Hi. rewrite L2 in Hi. assert (i = 0) by lia. subst i. left.
      rewrite upd_nth by (rewrite ?repeat_length, ?L1; unfold m; lia). rewrite L1.
      replace (in_range 0 m (m + 0)) with false by (symmetry; apply in_range_false; lia).
      apply nth_erased. unfold m. lia.
    + cbn [fl set_fl]. intros f' ys Ly Wy By Hh _ Lf. rewrite L2 in Ly, By.
      assert (Lu : length (upd 0 (firstn m ws) (repeat ERASED (length ws))) = length ws).
      { rewrite upd_length; rewrite repeat_length; [reflexivity|rewrite L1; unfold m; lia]. }
      assert (Nu : forall i, i < length ws ->
                nth i (upd m ys (upd 0 (firstn m ws) (repeat ERASED (length ws)))) 0%N =
                if i =? m then nth 0 ys 0%N else nth i ws 0%N).
      { intros i Hi. rewrite upd_nth by (rewrite ?Lu, ?Ly; unfold m; lia). rewrite Ly, in_range_1.
        destruct (i =? m) eqn:E; [apply Nat.eqb_eq in E; f_equal; lia|]. apply Nat.eqb_neq in E.
        rewrite upd_nth by (rewrite ?repeat_length, ?L1; unfold m; lia). rewrite L1.
        replace (in_range 0 m i) with true by (symmetry; apply in_range_spec; unfold m in *; lia).
        rewrite Nat.sub_0_r. apply nth_firstn. unfold m in *. lia. }
      assert (Lv : length (upd m ys (upd 0 (firstn m ws) (repeat ERASED (length ws)))) = length ws).
      { rewrite upd_length; rewrite Lu; [reflexivity|rewrite Ly; unfold m; lia]. }
      apply (End f' _ Lf).
      * intros p. destruct (Hh1 p) as (X1 & X2 & X3 & X4 & X5).
        destruct (Hh p) as (Y1 & Y2 & Y3 & Y4 & Y5). repeat split; congruence.
      * exact Lv.
      * rewrite Lv. intros i Hi. rewrite Nu by exact Hi.
        destruct (i =? m) eqn:E; [|apply sub_refl]. apply Nat.eqb_eq in E. subst i.
        specialize (By 0 ltac:(lia)) as [By _]. rewrite nth_skipn, Nat.add_0_r in By. exact By.
      * right. rewrite Lv. intros i Hi. rewrite Nu by lia.
        replace (i =? m) with false by (symmetry; apply Nat.eqb_neq; unfold m; lia). reflexivity.
    + cbn [fl set_fl]. intros f' Hh _ Lf. apply HP.
      replace ws with (upd m (skipn m ws) (upd 0 (firstn m ws) (repeat ERASED (length ws)))); [exact Lf|].
      unfold upd at 2. cbn [firstn app]. rewrite L1. cbn [Nat.add].
      unfold upd. rewrite L2. rewrite firstn_app, L1, Nat.sub_diag. cbn [firstn].
      rewrite app_nil_r, firstn_firstn, Nat.min_id.
      rewrite skipn_all2 with (n := m + 1).
      * rewrite app_nil_r. apply firstn_skipn.
      * rewrite app_length, L1, skipn_length, repeat_length. unfold m. lia.
Qed.
(** Writing an internal entry. *)
Lemma wp_write_int (R : flash -> Prop) s h e pre es c i (P : res store_error unit -> st -> Prop) :
  lay F (fl s) h e pre es [] c -> eok F (Intl i) ->
  h * Q + pre + plen es + 1 <= e * Q ->
  (forall f' gs, lay F f' h e pre es gs c -> length gs <= 1 ->
     gs = [] \/ jg_ok F gs \/ ju_ok F gs \/ gs = [int_word i] -> R f') ->
  (forall f', lay F f' h e pre es [int_word i] c -> P (Ok tt) (set_fl s f')) ->
  wp F R (write_slice F (h * Q + pre + plen es) [int_word i]) s P.
Proof.
  intros L Hok Hfit HR HP.
  pose proof (intl_facts F i Hok) as (_ & Wi & _).
  pose proof (lay_fresh _ _ _ _ _ _ L) as Fr.
  assert (LO : lay F (fl s) h e pre es (repeat ERASED 1) c) by (apply lay_open; [exact L|lia|lia]).
  rewrite <- (Nat.add_0_r (h * Q + pre + plen es)).
  apply (wp_write_J R s h e pre es (repeat ERASED 1) c 0).
  - exact LO.
  - constructor; [exact Wi|constructor].
  - cbn [length repeat]. lia.
  - cbn [length]. intros j Hj. assert (j = 0) by lia. subst j. cbn [nth repeat Nat.add].
    apply sub_erased, Wi.
  - intros j _ _ X. exfalso. apply pad_not_erased in X. apply X. reflexivity.
  - cbn [length]. intros j Hj. assert (j = 0) by lia. subst j. left. reflexivity.
  - cbn [length]. intros f' ys Ly Wy By Hh _ Lf. rewrite upd_all in Lf by exact Ly.
    destruct ys as [|y [|? ?]]; try discriminate.
    specialize (By 0 ltac:(lia)) as [By _]. cbn [nth] in By.
    destruct (intl_left_over F G i y Hok) as (gs & n & Ex & C).
    + inversion Wy; assumption.
    + exact By.
    + apply (HR f' gs).
      * rewrite Ex in Lf. eapply lay_trim; [exact Lf|]. eapply fresh_same; [exact Fr|exact Hh].
      * apply (f_equal (@length N)) in Ex. rewrite app_length in Ex. cbn [length] in Ex. lia.
      * destruct C as [C|[C|[C|[C _]]]]; auto.
  - intros f' Hh _ Lf. apply HP. exact Lf.
Qed.

(* ------------------------------------------------------ padding and deleting *)

(** An entry of one word becomes padding. *)
Lemma wp_set_padding (R : flash -> Prop) s h e pre A x B J c (P : res store_error unit -> st -> Prop) :
  lay F (fl s) h e pre (A ++ x :: B) J c -> elen x = 1 -> ~ is_dead x ->
  (forall f', lay F f' h e pre (A ++ x :: B) J c -> R f') ->
  (forall f' w, eok F (Dead [w]) -> lay F f' h e pre (A ++ Dead [w] :: B) J c -> R f') ->
  (forall f' w, eok F (Dead [w]) -> lay F f' h e pre (A ++ Dead [w] :: B) J c ->
     P (Ok tt) (set_fl s f')) ->
  wp F R (set_padding F (h * Q + pre + plen A)) s P.
Proof.
  intros L Hl Hnd HR1 HR2 HP. unfold set_padding.
  pose proof (lay_seg_at F _ _ _ _ _ _ _ _ _ L) as Sx.
  pose proof (lay_ok_at F _ _ _ _ _ _ _ _ _ L) as Ox.
  destruct (ewords x) as [|w [|? ?]] eqn:Ex; try (unfold elen in Hl; rewrite Ex in Hl; discriminate).
  apply seg_one in Sx.
  assert (Ww : w32 w) by (pose proof (eok_w32 F G x Ox) as X; rewrite Ex in X; inversion X; assumption).
  destruct (pad_facts F w Ww) as (w' & E & W' & S' & Ok' & At).
  eapply wp_bind_reads; [rewrite Sx; exact E|].
  rewrite <- (Nat.add_0_r (h * Q + pre + plen A)).
  apply (wp_write_ent R s h e pre A x B J c 0 [w']).
  - exact L.
  - constructor; [exact W'|constructor].
  - cbn [length]. lia.
  - cbn [length]. intros i Hi. assert (i = 0) by lia. subst i. rewrite Ex. exact S'.
  - intros i Hi _ X. contradiction.
  - cbn [length]. intros i Hi. left. lia.
  - cbn [length]. intros f' ys Ly Wy By Lf. destruct ys as [|y [|? ?]]; try discriminate.
    specialize (By 0 ltac:(lia)). rewrite Ex in By. cbn [nth Nat.add] in By. destruct By as [By1 By2].
    rewrite Ex in Lf. rewrite upd_all in Lf by reflexivity.
    destruct (At y By1 By2) as [->| ->].
    + apply HR1. apply Lf; [exact Ex|exact Ox|auto|auto].
    + apply (HR2 f' w' Ok').
      apply Lf; [reflexivity|exact Ok'|intros _; exact Logic.I|intros _; right; exact Logic.I].
  - intros f' Lf. apply (HP f' w' Ok'). apply Lf.
    + rewrite Ex. symmetry. apply upd_all. reflexivity.
    + exact Ok'.
    + intros _. exact Logic.I.
    + intros _. right. exact Logic.I.
Qed.

(** A deleted entry is wiped. *)
Lemma wp_wipe_dead (R : flash -> Prop) s h e pre A w r B J c (P : res store_error unit -> st -> Prop) :
  lay F (fl s) h e pre (A ++ Dead (w :: r) :: B) J c ->
  (forall f' r', eok F (Dead (w :: r')) -> length r' = length r ->
     lay F f' h e pre (A ++ Dead (w :: r') :: B) J c -> R f') ->
  (forall f' r', eok F (Dead (w :: r')) -> length r' = length r ->
     lay F f' h e pre (A ++ Dead (w :: r') :: B) J c -> P (Ok tt) (set_fl s f')) ->
  wp F R (wipe_span F (h * Q + pre + plen A + 1) (length r)) s P.
Proof.
  intros L HR HP. pose proof (lay_ok_at F _ _ _ _ _ _ _ _ _ L) as Ox.
  assert (Okr : forall r', length r' = length r -> Forall w32 r' -> eok F (Dead (w :: r'))).
  { intros r' Lr Wr. destruct Ox as (Wx & w0 & r0 & E & L0 & P0). injection E as <- <-. split.
    - constructor; [inversion Wx; assumption|exact Wr].
    - exists w, r'. rewrite Lr. auto. }
  unfold wipe_span. apply (wp_write_ent R s h e pre A (Dead (w :: r)) B J c 1).
  - exact L.
  - apply repeat_w32. reflexivity.
  - rewrite repeat_length. unfold elen. cbn [ewords length]. lia.
  - intros i Hi. rewrite nth_repeat_0. apply sub_0.
  - intros i Hi X. lia.
  - intros i Hi. right. left. apply nth_repeat_0.
  - intros f' ys Ly Wy By Lf. rewrite repeat_length in Ly.
    apply (HR f' ys); [apply Okr; assumption|exact Ly|]. apply Lf.
    + cbn [ewords]. symmetry. apply upd_tail. exact Ly.
    + apply Okr; assumption.
    + auto.
    + intros X. lia.
  - intros f' Lf. apply (HP f' (repeat 0%N (length r))).
    + apply Okr; [apply repeat_length|apply repeat_w32; reflexivity].
    + apply repeat_length.
    + apply Lf.
      * cbn [ewords]. symmetry. apply upd_tail. apply repeat_length.
      * apply Okr; [apply repeat_length|apply repeat_w32; reflexivity].
      * auto.
      * intros X. lia.
Qed.
(** An entry with a value is deleted, then wiped. *)
Lemma wp_delete_pos (R : flash -> Prop) s h e pre A k v B J c (P : res store_error unit -> st -> Prop) :
  lay F (fl s) h e pre (A ++ Live k v :: B) J c ->
  (forall f', lay F f' h e pre (A ++ Live k v :: B) J c -> R f') ->
  (forall f' ws, length ws = elen (Live k v) ->
     lay F f' h e pre (A ++ Dead ws :: B) J c -> R f') ->
  (forall f' ws, length ws = elen (Live k v) ->
     lay F f' h e pre (A ++ Dead ws :: B) J c -> P (Ok tt) (set_fl s f')) ->
  wp F R (delete_pos F (h * Q + pre + plen A) (to_words (length v))) s P.
Proof.
  intros L HR1 HR2 HP. pose proof (lay_ok_at F _ _ _ _ _ _ _ _ _ L) as Ox.
  pose proof (lay_seg_at F _ _ _ _ _ _ _ _ _ L) as Sx. cbn [ewords] in Sx.
  destruct (live_elen F G k v Ox) as [El Em].
  pose proof (live_facts F G k v Ox) as (_ & Eu & Wh & _ & _ & _).
  assert (Lv : length (value_words v) = to_words (length v)) by apply value_words_length.
  assert (Wv : Forall w32 (value_words v)) by (apply value_words_w32; apply Ox).
  assert (OkD : eok F (Dead (del_word (head_word k v) :: value_words v)))
    by (apply del_live_ok; assumption).
  rewrite Eu in Sx. apply seg_cons in Sx as [R0 _].
  destruct (del_facts _ Wh) as (Wd & Sd & At).
  unfold delete_pos, set_deleted. apply wp_bind_assoc. eapply wp_bind_reads; [reflexivity|].
  rewrite R0. apply wp_bind. rewrite <- (Nat.add_0_r (h * Q + pre + plen A)) at 1.
  apply (wp_write_ent R s h e pre A (Live k v) B J c 0).
  - exact L.
  - constructor; [exact Wd|constructor].
  - cbn [length]. lia.
  - cbn [length]. intros i Hi. assert (i = 0) by lia. subst i. cbn [ewords]. rewrite Eu. exact Sd.
  - intros i Hi _ [].
  - cbn [length]. intros i Hi. left. lia.
  - cbn [length]. intros f' ys Ly Wy By Lf. destruct ys as [|y [|? ?]]; try discriminate.
    specialize (By 0 ltac:(lia)). cbn [ewords] in By, Lf. rewrite Eu in By, Lf.
    cbn [nth Nat.add] in By. destruct By as [By1 By2].
    rewrite upd_head in Lf by (cbn [length]; lia). cbn [tl] in Lf.
    destruct (At y By1 By2) as [->| ->].
    + apply HR1. apply Lf; [exact Eu|exact Ox|auto|auto].
    + apply (HR2 f' (del_word (head_word k v) :: value_words v)).
      * rewrite El. cbn [length]. lia.
      * apply Lf; [reflexivity|exact OkD|intros []|intros _; right; exact Logic.I].
  - intros f' Lf.
    assert (Lf' : lay F f' h e pre (A ++ Dead (del_word (head_word k v) :: value_words v) :: B) J c).
    { apply Lf; [|exact OkD|intros []|intros _; right; exact Logic.I]. cbn [ewords]. rewrite Eu. rewrite upd_head by (cbn [length]; lia).
      reflexivity. }
    rewrite <- Lv.
    apply (wp_wipe_dead R (set_fl s f') h e pre A (del_word (head_word k v)) (value_words v) B J c).
    + exact Lf'.
    + intros f2 r' _ Lr L2. apply (HR2 f2 (del_word (head_word k v) :: r')); [|exact L2].
      rewrite El. cbn [length]. lia.
    + intros f2 r' _ Lr L2. apply (HP f2 (del_word (head_word k v) :: r')); [|exact L2].
      rewrite El. cbn [length]. lia.
Qed.

End STEPS.
