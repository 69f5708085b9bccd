(** Reading the page headers, and finding the tail. *)
From Verif Require Import Base Facts.
From Verif.Kv Require Import Model.
From Verif.Store Require Import Format Bits Words Geom Model Wp Entries Layout.
Open Scope nat_scope.
Ltac Zify.zify_post_hook ::= idtac.

Section SCAN.
Variable F : format.
Hypothesis G : wff F.
Notation Q := (virt_page_size F).
Notation NP := (num_pages F).
Notation MP := (max_prefix F).

Lemma lay_valid0 f h e pre es J c : lay F f h e pre es J c ->
  parse_init F f (h mod NP) = Ok (Valid (h / NP, pre)).
Proof.
  intros L. pose proof (b_page _ _ _ _ _ _ _ _ L). pose proof (g_N F G).
  destruct (iword_facts F G h h (h * Q + pre)) as (_ & _ & _ & I & _).
  - apply (b_life _ _ _ _ _ _ _ _ L).
  - lia.
  - pose proof (b_pre _ _ _ _ _ _ _ _ L). lia.
  - unfold parse_init. fold (vini F f h). rewrite (b_init0 _ _ _ _ _ _ _ _ L), I.
    do 3 f_equal. lia.
Qed.
Lemma lay_valid f h e pre es J c j : lay F f h e pre es J c -> h < j < e ->
  j * Q < h * Q + pre + plen es ->
  exists b, ibound F es (h * Q + pre) j b /\
    parse_init F f (j mod NP) = Ok (Valid (j / NP, b - j * Q)).
Proof.
  intros L Hj Ht. pose proof (b_page _ _ _ _ _ _ _ _ L).
  destruct (b_inits1 _ _ _ _ _ _ _ _ L j Hj Ht) as (b & I & V). exists b. split; [exact I|].
  destruct I as (A & R & _ & _ & Hb & _).
  destruct (iword_facts F G h j b) as (_ & _ & _ & I & _).
  - apply (b_life _ _ _ _ _ _ _ _ L).
  - lia.
  - lia.
  - unfold parse_init. fold (vini F f j). rewrite V, I. reflexivity.
Qed.

(** The init words of the pages of a settled entry are complete. *)
Lemma wp_init_settled (R : flash -> Prop) s h e pre A x B J c (P : res store_error unit -> st -> Prop) :
  lay F (fl s) h e pre (A ++ x :: B) J c ->
  P (Ok tt) s ->
  wp F R (init_page F (h * Q + pre + plen A) (h * Q + pre + plen A + (elen x - 1))) s P.
Proof.
  intros L HP. set (t := h * Q + pre + plen A) in *.
  pose proof (b_page _ _ _ _ _ _ _ _ L) as Bp. pose proof (b_fit _ _ _ _ _ _ _ _ L) as Bf.
  pose proof (b_ents _ _ _ _ _ _ _ _ L) as Be. pose proof (b_pre _ _ _ _ _ _ _ _ L) as Bq.
  pose proof (g_N F G) as HN. pose proof (g_M F G) as HM.
  assert (Ox : 0 < elen x <= Q).
  { apply (eok_len F G). apply Forall_app in Be as [_ Be]. inversion Be; assumption. }
  rewrite plen_app, plen_cons in Bf.
  destruct (pos_ex F G t) as [a Ha].
  assert (Hah : h <= a).
  { apply Nat.lt_succ_r. apply (mul_lt_inv F G). cbn [Nat.mul]. unfold t in *. lia. }
  assert (Hae : a < e) by (apply (mul_lt_inv F G); unfold t in *; lia).
  assert (V : forall j b, h <= j < e -> j * Q < t + elen x -> j * Q <= b < j * Q + Q ->
    wp F R (init <~ reads (fun f => parse_init F f (pos_page F b)) ;;
            match init with
            | Valid _ => ret tt
            | _ => w <~ lift (build_init (pos_cycle F b) (pos_word F b)) ;;
                   storage_write (pos_page F b) INIT_WORD [w]
            end) s P).
  { intros j b Hj Hjt Hb. rewrite (pos_page_in F j b Hb).
    destruct (Nat.eq_dec j h) as [->|Hn].
    - eapply wp_bind_reads; [apply (lay_valid0 _ _ _ _ _ _ _ L)|]. apply wp_ret, HP.
    - destruct (lay_valid _ _ _ _ _ _ _ j L) as (b' & _ & V); [lia| |].
      + rewrite plen_app, plen_cons. unfold t in *. lia.
      + eapply wp_bind_reads; [exact V|]. apply wp_ret, HP. }
  unfold init_page. cbn zeta. unfold pos_word at 1. destruct (pos_in F a t Ha) as [_ ->].
  destruct (t - a * Q =? 0) eqn:E0.
  - apply Nat.eqb_eq in E0. apply (V a t); lia.
  - apply Nat.eqb_neq in E0.
    destruct (Nat.le_gt_cases (t + elen x) (a * Q + Q)) as [Hin|Hout].
    + assert (Hl : a * Q <= t + (elen x - 1) < a * Q + Q) by lia.
      rewrite (pos_page_in F a t Ha), (pos_page_in F a _ Hl), Nat.eqb_refl.
      apply wp_ret, HP.
    + assert (Hl : (a + 1) * Q <= t + (elen x - 1) < (a + 1) * Q + Q) by lia.
      assert (Hb : (a + 1) * Q <= t + (elen x - 1) + 1 < (a + 1) * Q + Q) by lia.
      assert (Ha1 : a + 1 < e) by (apply (mul_lt_inv F G); unfold t in *; lia).
      rewrite (pos_page_in F a t Ha), (pos_page_in F _ _ Hl).
      replace (a mod NP =? (a + 1) mod NP) with false.
      2:{ symmetry. apply Nat.eqb_neq. intros X. apply (mod_inj F G) in X; lia. }
      apply (V (a + 1)); lia.
Qed.

(* ---------------------------------------------------------------- extremum *)

Lemma extremum_unique f better x0 : better x0 x0 = false -> forall pages best,
  (forall page, In page pages -> exists i, parse_init F f page = Ok i /\
     forall c p, i = Valid (c, p) ->
       position F c page p = x0 \/
       (better x0 (position F c page p) = true /\ better (position F c page p) x0 = false)) ->
  (best = Some x0 \/
   ((forall y, best = Some y -> y = x0 \/ (better x0 y = true /\ better y x0 = false)) /\
    exists page c p, In page pages /\ parse_init F f page = Ok (Valid (c, p)) /\
      position F c page p = x0)) ->
  extremum_from F f better pages best = Ok (Some x0).
Proof.
  intros Hr. induction pages as [|page pages IH]; intros best Hp Hb.
  - destruct Hb as [->|(_ & page & c & p & [] & _)]. reflexivity.
  - cbn [extremum_from].
    destruct (Hp page (or_introl eq_refl)) as (i & Ei & Hi). rewrite Ei. cbn [rbind].
    assert (Hp' : forall q, In q pages -> exists i, parse_init F f q = Ok i /\
     forall c p, i = Valid (c, p) ->
       position F c q p = x0 \/
       (better x0 (position F c q p) = true /\ better (position F c q p) x0 = false))
      by (intros q Hq; apply Hp; right; exact Hq).
    assert (Hnv : (forall c p, i <> Valid (c, p)) -> extremum_from F f better pages best = Ok (Some x0)).
    { intros Hn. apply IH; [exact Hp'|].
      destruct Hb as [Hb|(Hb & page' & c & p & Hin & E1 & E2)]; [left; exact Hb|right].
      split; [exact Hb|]. exists page', c, p. split; [|split; assumption].
      destruct Hin as [->|Hin]; [|exact Hin]. exfalso. rewrite E1 in Ei. injection Ei as <-.
      apply (Hn c p). reflexivity. }
    destruct i as [| |[c p]]; [apply Hnv; discriminate|apply Hnv; discriminate|].
    specialize (Hi c p eq_refl). clear Hnv.
    set (x := position F c page p) in *.
    assert (Hx : x = x0 \/ x <> x0) by lia. apply IH; [exact Hp'|].
    destruct Hx as [Hx|Hx].
    + left. rewrite Hx. destruct Hb as [->|(Hb & _)]; [rewrite Hr; reflexivity|].
      destruct best as [y|]; [|reflexivity].
      destruct (Hb y eq_refl) as [->|[B1 B2]]; [rewrite Hr; reflexivity|rewrite B1; reflexivity].
    + destruct Hi as [Hi|[Hi1 Hi2]]; [congruence|].
      destruct Hb as [->|(Hb & page' & c' & p' & Hin & E1 & E2)].
      * left. rewrite Hi2. reflexivity.
      * right. split.
        -- intros y Hy. destruct best as [z|].
           ++ destruct (better x z); [injection Hy as <-; auto|]. injection Hy as <-. apply Hb. reflexivity.
           ++ injection Hy as <-. auto.
        -- exists page', c', p'. split; [|split; assumption].
           destruct Hin as [->|Hin]; [|exact Hin]. exfalso.
           rewrite E1 in Ei. injection Ei as -> ->. unfold x in Hx. congruence.
Qed.
Lemma extremum_pages f (better : nat -> nat -> bool) lo L x :
  (forall y, better y y = false) ->
  lo <= L < lo + NP -> L * Q <= x < L * Q + Q ->
  parse_init F f (L mod NP) = Ok (Valid (L / NP, x - L * Q)) ->
  (forall j, lo <= j < lo + NP -> j <> L ->
     parse_init F f (j mod NP) = Ok Erased \/ parse_init F f (j mod NP) = Ok Partial \/
     exists p, parse_init F f (j mod NP) = Ok (Valid (j / NP, p)) /\
       better x (j * Q + p) = true /\ better (j * Q + p) x = false) ->
  extremum F better f = Ok x.
Proof.
  intros Hr HL Hx Hv Ho. unfold extremum.
  rewrite (extremum_unique f better x (Hr x)); [reflexivity| |].
  - intros page Hin. apply in_seq in Hin. destruct (mod_cover F G lo page) as (j & Hj & Ej); [lia|].
    rewrite <- Ej. destruct (Nat.eq_dec j L) as [->|Hn].
    + eexists. split; [exact Hv|]. intros c p E. injection E as <- <-. left.
      rewrite (position_of F G). lia.
    + destruct (Ho j Hj Hn) as [E|[E|(p & E & B1 & B2)]].
      * eexists. split; [exact E|]. discriminate.
      * eexists. split; [exact E|]. discriminate.
      * eexists. split; [exact E|]. intros c' p' E'. injection E' as <- <-. right.
        rewrite (position_of F G). auto.
  - right. split; [discriminate|]. exists (L mod NP), (L / NP), (x - L * Q).
    split; [|split; [exact Hv|rewrite (position_of F G); lia]].
    apply in_seq. pose proof (g_N F G). split; [lia|]. apply Nat.mod_upper_bound. lia.
Qed.

(** The oldest page is the first one. *)
Lemma lay_oldest f h pre es J c : lay F f h (h + NP) pre es J c -> oldest F f = Ok (h * Q + pre).
Proof.
  intros L. pose proof (b_page _ _ _ _ _ _ _ _ L) as Bp. pose proof (b_pre _ _ _ _ _ _ _ _ L) as Bq.
  pose proof (b_life _ _ _ _ _ _ _ _ L) as Bl. pose proof (b_len _ _ _ _ _ _ _ _ L) as BJ.
  pose proof (b_ok _ _ _ _ _ _ _ _ L) as Bo.
  pose proof (g_M F G) as HM.
  apply (extremum_pages f _ h h).
  - intros y. apply Nat.ltb_irrefl.
  - lia.
  - lia.
  - rewrite (lay_valid0 _ _ _ _ _ _ _ L). do 3 f_equal. lia.
  - intros j Hj Hn.
    assert (Hlt : h * Q + Q <= j * Q) by (apply (mul_lt F); lia).
    assert (Better : forall p, (h * Q + pre <? j * Q + p) = true /\
              (j * Q + p <? h * Q + pre) = false).
    { intros p. rewrite Nat.ltb_lt, Nat.ltb_ge. lia. }
    set (t := h * Q + pre + plen es) in *.
    destruct (Nat.lt_ge_cases (j * Q) t) as [C|C].
    + destruct (lay_valid _ _ _ _ _ _ _ j L) as (b & _ & V); [lia|exact C|].
      right. right. exists (b - j * Q). split; [exact V|]. apply Better.
    + destruct (Nat.lt_ge_cases (j * Q) (t + length J)) as [C'|C'].
      * pose proof (b_inits2 _ _ _ _ _ _ _ _ L j ltac:(lia)) as S. fold t in S.
        specialize (S ltac:(lia)).
        destruct (iword_facts F G h j (target F t (length J) j)) as (_ & _ & _ & I4 & I5);
          [exact Bl|lia|pose proof (target_ok F t (length J) j ltac:(lia) BJ); lia|].
        destruct (N.eq_dec (vini F f j) (iword F j (target F t (length J) j))) as [E|E].
        -- right. right. eexists. split; [|apply Better]. unfold parse_init.
           fold (vini F f j). rewrite E. exact I4.
        -- destruct (I5 (vini F f j)) as [X|X].
           ++ apply Bo.
           ++ exact S.
           ++ exact E.
           ++ left. exact X.
           ++ right. left. exact X.
      * left. unfold parse_init. fold (vini F f j).
        rewrite (b_inits3 _ _ _ _ _ _ _ _ L j ltac:(lia) C'). apply erased_init_parse.
Qed.

(** The latest page is the last one which is initialised. [lo] is the page the window of the
    storage starts with if it is not the first page. *)
Definition older (f : flash) (h e : nat) : Prop :=
  forall j, e <= j + NP -> j < h ->
    parse_init F f (j mod NP) = Ok Erased \/ parse_init F f (j mod NP) = Ok Partial \/
    exists p, p <= MP /\ parse_init F f (j mod NP) = Ok (Valid (j / NP, p)).
Lemma older_full f h : older f h (h + NP).
Proof. intros j H1 H2. lia. Qed.
Lemma lay_latest f h e pre es J c : lay F f h e pre es J c -> NP <= e -> older f h e ->
  exists L b, h <= L < e /\ latest F f = Ok b /\ L * Q <= b < L * Q + Q /\
    ((exists A B, es = A ++ B /\ b = h * Q + pre + plen A /\ h * Q + pre + plen es <= (L + 1) * Q /\
        (L = h \/ (h < L /\ L * Q < h * Q + pre + plen es)) /\
        (forall A1 x A2, A = A1 ++ x :: A2 -> L * Q <= h * Q + pre + plen A1 -> is_dead x) /\
        (forall j, h < j < e ->
           h * Q + pre + plen es <= j * Q < h * Q + pre + plen es + length J ->
           vini F f j <> iword F j (target F (h * Q + pre + plen es) (length J) j))) \/
     (h < L /\ h * Q + pre + plen es <= L * Q < h * Q + pre + plen es + length J /\
      b = target F (h * Q + pre + plen es) (length J) L /\ vini F f L = iword F L b)).
Proof.
  intros L He Ho. pose proof (b_page _ _ _ _ _ _ _ _ L) as Bp.
  pose proof (b_pre _ _ _ _ _ _ _ _ L) as Bq.
  pose proof (b_life _ _ _ _ _ _ _ _ L) as Bl. pose proof (b_len _ _ _ _ _ _ _ _ L) as BJ.
  pose proof (b_ok _ _ _ _ _ _ _ _ L) as Bo. pose proof (b_fit _ _ _ _ _ _ _ _ L) as Bf.
  pose proof (g_M F G) as HM. pose proof (g_N F G) as HN.
  set (t := h * Q + pre + plen es) in *.
  (* a general criterion *)
  assert (Crit : forall K x, h <= K < e -> K * Q <= x < K * Q + Q ->
    parse_init F f (K mod NP) = Ok (Valid (K / NP, x - K * Q)) ->
    (forall j, K < j < e -> parse_init F f (j mod NP) = Ok Erased \/
                            parse_init F f (j mod NP) = Ok Partial) ->
    (forall j, h < j < K -> j * Q < t) ->
    latest F f = Ok x).
  { intros K x HK Hx Hv Hhi Hlo. apply (extremum_pages f _ (e - NP) K).
    - intros y. apply Nat.ltb_irrefl.
    - lia.
    - exact Hx.
    - exact Hv.
    - intros j Hj Hn.
      assert (Better : forall p, p <= MP -> j < K -> (j * Q + p <? x) = true /\
                (x <? j * Q + p) = false).
      { intros p Hp HjK. rewrite Nat.ltb_lt, Nat.ltb_ge. pose proof (mul_lt F j K HjK). lia. }
      destruct (Nat.lt_ge_cases K j) as [C|C].
      + destruct (Hhi j ltac:(lia)) as [X|X]; [left; exact X|right; left; exact X].
      + destruct (Nat.lt_ge_cases j h) as [C1|C1].
        * destruct (Ho j ltac:(lia) C1) as [X|[X|(p & Hp & X)]]; [left; exact X|right; left; exact X|].
          right. right. exists p. split; [exact X|]. apply Better; lia.
        * right. right. destruct (Nat.eq_dec j h) as [->|C2].
          -- exists pre. split; [apply (lay_valid0 _ _ _ _ _ _ _ L)|]. apply Better; lia.
          -- destruct (lay_valid _ _ _ _ _ _ _ j L) as (b & I & V); [lia|apply Hlo; lia|].
             destruct I as (A & B & _ & _ & Hb & _).
             exists (b - j * Q). split; [exact V|]. apply Better; lia. }
  (* the last page with a settled init word *)
  assert (HK : exists K, h <= K < e /\ t <= (K + 1) * Q /\ (K = h \/ (h < K /\ K * Q < t))).
  { destruct (Nat.eq_dec t (h * Q)) as [Et|Et].
    - exists h. split; [lia|]. split; [lia|left; reflexivity].
    - destruct (pos_ex F G (t - 1)) as [K HK]. exists K.
      assert (h <= K).
      { apply Nat.lt_succ_r. apply (mul_lt_inv F G). cbn [Nat.mul]. unfold t in *. lia. }
      assert (K < e) by (apply (mul_lt_inv F G); unfold t in *; lia).
      split; [lia|]. split; [lia|]. destruct (Nat.eq_dec K h); [left; assumption|right; lia]. }
  destruct HK as (K & HK & HtK & HKc).
  assert (Bnd : exists b A B, es = A ++ B /\ b = h * Q + pre + plen A /\ K * Q <= b < K * Q + Q /\
      (forall A1 x A2, A = A1 ++ x :: A2 -> K * Q <= h * Q + pre + plen A1 -> is_dead x) /\
      parse_init F f (K mod NP) = Ok (Valid (K / NP, b - K * Q))).
  { destruct HKc as [->|[HhK HKt]].
    - exists (h * Q + pre), [], es. split; [reflexivity|]. split; [rewrite plen_nil; lia|].
      split; [lia|]. split; [intros [|? A1] x A2 X _; discriminate X|].
      rewrite (lay_valid0 _ _ _ _ _ _ _ L). do 3 f_equal. lia.
    - destruct (lay_valid _ _ _ _ _ _ _ K L) as (b & (A & B & E1 & E2 & E3 & E4) & V); [lia|exact HKt|].
      exists b, A, B. split; [exact E1|]. split; [exact E2|]. split; [lia|]. split; [|assumption].
      intros A1 x A2 X Y. rewrite (E4 A1 x A2 X Y). exact Logic.I. }
  destruct Bnd as (b & A & B & EA & Eb & Hb & Hdd & Vb).
  assert (Lo : forall K', K' <= K + 1 -> forall j, h < j < K' -> j * Q < t).
  { intros K' HK' j Hj. destruct (Nat.eq_dec j K) as [->|Hn]; [destruct HKc; lia|].
    pose proof (mul_lt F j K ltac:(lia)). destruct HKc; lia. }
  assert (Beyond : forall j, K + 1 < j < e -> vini F f j = ERASED).
  { intros j Hj. apply (b_inits3 _ _ _ _ _ _ _ _ L j); [lia|]. fold t.
    pose proof (mul_lt F (K + 1) j ltac:(lia)). lia. }
  (* whether the init word being written is complete *)
  assert (Dec : (exists j, h < j < e /\ t <= j * Q < t + length J /\
                   vini F f j = iword F j (target F t (length J) j)) \/
                (forall j, h < j < e -> t <= j * Q < t + length J ->
                   vini F f j <> iword F j (target F t (length J) j))).
  { destruct (Nat.lt_ge_cases (K + 1) e) as [C|C].
    - destruct (Nat.lt_ge_cases ((K + 1) * Q) (t + length J)) as [C'|C'].
      + destruct (N.eq_dec (vini F f (K + 1)) (iword F (K + 1) (target F t (length J) (K + 1)))) as [E|E].
        * left. exists (K + 1). split; [lia|]. split; [lia|exact E].
        * right. intros j Hj Hjt. replace j with (K + 1); [exact E|].
          assert (K < j).
          { destruct (Nat.lt_ge_cases K j) as [X|X]; [exact X|exfalso].
            pose proof (Lo (K + 1) ltac:(lia) j ltac:(lia)). lia. }
          destruct (Nat.eq_dec j (K + 1)) as [X|X]; [lia|exfalso].
          pose proof (mul_lt F (K + 1) j ltac:(lia)). lia.
      + right. intros j Hj Hjt. exfalso.
        assert (K < j).
        { destruct (Nat.lt_ge_cases K j) as [X|X]; [exact X|exfalso].
          pose proof (Lo (K + 1) ltac:(lia) j ltac:(lia)). lia. }
        assert ((K + 1) * Q <= j * Q) by (apply Nat.mul_le_mono_r; lia). lia.
    - right. intros j Hj Hjt. exfalso. pose proof (Lo (K + 1) ltac:(lia) j ltac:(lia)). lia. }
  destruct Dec as [(j & Hj & Hjt & Ej)|Dec].
  - assert (EjK : j = K + 1).
    { assert (K < j).
      { destruct (Nat.lt_ge_cases K j) as [X|X]; [exact X|exfalso].
        pose proof (Lo (K + 1) ltac:(lia) j ltac:(lia)). lia. }
      destruct (Nat.eq_dec j (K + 1)) as [X|X]; [lia|exfalso].
      pose proof (mul_lt F (K + 1) j ltac:(lia)). lia. }
    subst j. pose proof (target_ok F t (length J) (K + 1) Hjt BJ) as Tk.
    exists (K + 1), (target F t (length J) (K + 1)). split; [lia|]. split; [|split; [lia|]].
    + apply (Crit (K + 1)).
      * lia.
      * lia.
      * destruct (iword_facts F G h (K + 1) (target F t (length J) (K + 1))) as (_ & _ & _ & I4 & _);
          [exact Bl|lia|lia|]. unfold parse_init. fold (vini F f (K + 1)). rewrite Ej. exact I4.
      * intros j Hj'. left. unfold parse_init. fold (vini F f j). rewrite (Beyond j) by lia.
        apply erased_init_parse.
      * apply Lo. lia.
    + right. split; [lia|]. split; [exact Hjt|]. split; [reflexivity|exact Ej].
  - exists K, b. split; [exact HK|]. split; [|split; [exact Hb|]].
    + apply (Crit K).
      * lia.
      * exact Hb.
      * exact Vb.
      * intros j Hj'. destruct (Nat.lt_ge_cases (j * Q) (t + length J)) as [C|C].
        -- assert (t <= j * Q).
           { assert ((K + 1) * Q <= j * Q) by (apply Nat.mul_le_mono_r; lia). lia. }
           pose proof (b_inits2 _ _ _ _ _ _ _ _ L j ltac:(lia)) as S. fold t in S.
           specialize (S ltac:(lia)). specialize (Dec j ltac:(lia) ltac:(lia)).
           destruct (iword_facts F G h j (target F t (length J) j)) as (_ & _ & _ & I4 & I5);
             [exact Bl|lia|pose proof (target_ok F t (length J) j ltac:(lia) BJ); lia|].
           apply I5; [apply Bo|exact S|exact Dec].
        -- left. unfold parse_init. fold (vini F f j).
           rewrite (b_inits3 _ _ _ _ _ _ _ _ L j ltac:(lia) C). apply erased_init_parse.
      * apply Lo. lia.
    + left. exists A, B. split; [exact EA|]. split; [exact Eb|]. split; [exact HtK|].
      split; [exact HKc|]. split; [exact Hdd|exact Dec].
Qed.

(* --------------------------------------------------------------------- tail *)

Lemma lay_seg_at f h e pre A x B J c : lay F f h e pre (A ++ x :: B) J c ->
  seg F f (h * Q + pre + plen A) (ewords x).
Proof.
  intros L. pose proof (b_seg _ _ _ _ _ _ _ _ L) as S. rewrite flat_app, flat_cons in S.
  rewrite <- !app_assoc in S. apply seg_app in S as [_ S]. apply seg_app in S as [S _]. exact S.
Qed.
Lemma lay_ok_at f h e pre A x B J c : lay F f h e pre (A ++ x :: B) J c -> eok F x.
Proof.
  intros L. pose proof (b_ents _ _ _ _ _ _ _ _ L) as O. apply Forall_app in O as [_ O].
  inversion O; assumption.
Qed.
Lemma lay_parse f h e pre A x B J c : lay F f h e pre (A ++ x :: B) J c -> no_gap x ->
  parse_entry F f (h * Q + pre + plen A) = Ok (pent x, h * Q + pre + plen A + elen x).
Proof.
  intros L Hg. apply (parse_ent F G).
  - eapply lay_ok_at; exact L.
  - apply no_gap_ne, Hg.
  - eapply lay_seg_at; exact L.
Qed.
Lemma lay_parse_end f h e pre es c : lay F f h e pre es [] c ->
  h * Q + pre + plen es + MP <= e * Q ->
  parse_entry F f (h * Q + pre + plen es) = Ok (ETail, h * Q + pre + plen es).
Proof.
  intros L H. apply (parse_tail F G). pose proof (b_blank _ _ _ _ _ _ _ _ L) as Bb.
  cbn [length] in Bb. rewrite Nat.add_0_r in Bb. eapply blank_mono; [exact Bb|lia|exact H].
Qed.

Lemma tail_loop_spec f h e pre c : forall B A fuel nx,
  lay F f h e pre (A ++ B) [] c -> Forall no_gap B ->
  h * Q + pre + plen (A ++ B) + MP <= e * Q ->
  h * Q + pre + plen (A ++ B) <= nx -> nx - (h * Q + pre + plen A) <= fuel ->
  tail_loop F f fuel (h * Q + pre + plen A) nx = Ok (h * Q + pre + plen (A ++ B)).
Proof.
  induction B as [|x B IH]; intros A fuel nx L Hg Hm Hnx Hfuel.
  - rewrite app_nil_r in *. destruct fuel as [|fuel]; cbn [tail_loop].
    + destruct (nx <=? h * Q + pre + plen A) eqn:E; [reflexivity|].
      apply Nat.leb_gt in E. lia.
    + destruct (nx <=? h * Q + pre + plen A) eqn:E; [reflexivity|].
      rewrite (lay_parse_end _ _ _ _ _ _ L Hm). reflexivity.
  - inversion_clear Hg as [|? ? Hx Hg'].
    pose proof (eok_len F G x (lay_ok_at _ _ _ _ _ _ _ _ _ L)) as Ox.
    pose proof (lay_parse _ _ _ _ _ _ _ _ _ L Hx) as Px.
    rewrite plen_app, plen_cons in Hnx, Hm.
    destruct fuel as [|fuel]; [lia|]. cbn [tail_loop].
    replace (nx <=? h * Q + pre + plen A) with false by (symmetry; apply Nat.leb_gt; lia).
    rewrite Px. cbn [rbind].
    replace (A ++ x :: B) with ((A ++ [x]) ++ B) in * by (rewrite <- app_assoc; reflexivity).
    specialize (IH (A ++ [x]) fuel nx L Hg').
    rewrite !plen_app, plen_one in IH. specialize (IH ltac:(lia) ltac:(lia) ltac:(lia)).
    rewrite !plen_app, plen_one.
    replace (h * Q + pre + plen A + elen x) with (h * Q + pre + (plen A + elen x)) by lia.
    destruct x as [k v|ws|i|n]; cbn [pent]; try exact IH. contradiction.
Qed.
Lemma lay_tail f h pre es c : lay F f h (h + NP) pre es [] c -> Forall no_gap es ->
  h * Q + pre + plen es + MP <= (h + NP) * Q -> tail F f = Ok (h * Q + pre + plen es).
Proof.
  intros L Hg Hm. destruct (lay_latest f h _ pre es [] c L ltac:(lia) (older_full f h))
    as (K & b & HK & E & Hb & [(A & B & EA & Eb & Ht & _)|(_ & Hx & _)]).
  2:{ cbn [length] in Hx. lia. }
  unfold tail. rewrite E. cbn [rbind]. rewrite (next_page_in F K b Hb). rewrite Eb, EA.
  subst es. apply Forall_app in Hg as [_ Hg]. eapply tail_loop_spec.
  - exact L.
  - exact Hg.
  - exact Hm.
  - exact Ht.
  - lia.
Qed.

End SCAN.
