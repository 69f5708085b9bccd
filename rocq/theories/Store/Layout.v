(** The layout of the storage: pages in use, their headers, and the entries in them. *)
From Verif Require Import Base Facts.
From Verif.Kv Require Import Model.
From Verif.Store Require Import Format Bits Words Geom Model Wp Entries.
Open Scope nat_scope.
Ltac Zify.zify_post_hook ::= idtac.

Definition is_dead (e : ent) : Prop := match e with Dead _ => True | _ => False end.
Definition no_gap (e : ent) : Prop := match e with Gap _ => False | _ => True end.
Lemma no_gap_ne e : no_gap e -> forall n, e <> Gap n.
Proof. intros H n ->. exact H. Qed.

Section LAYOUT.
Variable F : format.
Hypothesis G : wff F.
Notation Q := (virt_page_size F).
Notation NP := (num_pages F).
Notation MP := (max_prefix F).
Notation EN := (max_page_erases F).

(** The headers of page [j] (counting erased and reused pages). *)
Definition vini (f : flash) (j : nat) : N := f (j mod NP) INIT_WORD.
Definition vcmp (f : flash) (j : nat) : N := f (j mod NP) COMPACT_WORD.
(** The init word of page [j] if its first entry starts at position [b]. *)
Definition iword (j b : nat) : N := init_word (j / NP) (b - j * Q).
(** [b] is the start of an entry, not far from the start of page [j], and only wiped words
    are between them. *)
Definition ibound (es : list ent) (hpos j b : nat) : Prop :=
  exists A B, es = A ++ B /\ b = hpos + plen A /\ j * Q <= b <= j * Q + MP /\
    forall A1 e A2, A = A1 ++ e :: A2 -> j * Q <= hpos + plen A1 -> e = Dead [0%N].
Definition target (t n j : nat) : nat := if t =? j * Q then j * Q else t + n.

(** How often a word may have been written, given its value. *)
Definition budget (w : N) : nat := if (w =? ERASED)%N then 0 else if (w =? 0)%N then 2 else 1.
(** A word which deletes an entry. *)
Definition is_pad (w : N) : bool :=
  match parse_word F w with Ok (Valid (PPadding _)) => true | _ => false end.
(** The first words of deleted entries: they are never written again. *)
Definition exempt (es : list ent) (J : list N) (hpos p : nat) : Prop :=
  (exists A ws B, es = A ++ Dead ws :: B /\ p = hpos + plen A) \/
  (p = hpos + plen es /\ exists w r, J = w :: r /\ is_pad w = true).
Definition cmp_done (c : N) : Prop := exists t, parse_compact_word F c = Ok (Valid t).

(** Pages [h, e) are in use; the first entry starts [pre] words in page [h]; the entries are [es],
    then the words [J] of an entry being written, then erased words. The init words of pages where
    [J] has words may not be complete yet. *)
Record lay (f : flash) (h e pre : nat) (es : list ent) (J : list N) (c : N) : Prop := mkLay {
  b_ok : fok f;
  b_page : h < e <= h + NP;
  b_pre : pre <= MP;
  b_life : h <= EN * NP;
  b_ents : Forall (eok F) es;
  b_seg : seg F f (h * Q + pre) (flat es ++ J);
  b_fit : h * Q + pre + plen es + length J <= e * Q;
  b_len : length J <= MP + 1;
  b_w32 : Forall w32 J;
  b_blank : blank F f (h * Q + pre + plen es + length J) (e * Q);
  b_init0 : vini f h = iword h (h * Q + pre);
  b_inits1 : forall j, h < j < e -> j * Q < h * Q + pre + plen es ->
    exists b, ibound es (h * Q + pre) j b /\ vini f j = iword j b;
  b_inits2 : forall j, h < j < e ->
    h * Q + pre + plen es <= j * Q < h * Q + pre + plen es + length J ->
    sub (iword j (target (h * Q + pre + plen es) (length J) j)) (vini f j);
  b_inits3 : forall j, h < j < e -> h * Q + pre + plen es + length J <= j * Q ->
    vini f j = ERASED;
  b_cmp0 : vcmp f h = c;
  b_cmps : forall j, h < j < e -> vcmp f j = ERASED;
  b_wear : forall p, h * Q <= p < e * Q ->
    read_wear F f p <= budget (read_word F f p) \/
    (read_wear F f p <= 2 /\ exempt es J (h * Q + pre) p);
  b_winit : forall j, h < j < e -> h * Q + pre + plen es <= j * Q ->
    writes f (j mod NP) INIT_WORD = 0 \/
    (j * Q < h * Q + pre + plen es + length J /\
     vini f j = iword j (target (h * Q + pre + plen es) (length J) j));
  b_wcmp0 : writes f (h mod NP) COMPACT_WORD = 0 \/ cmp_done c;
  b_wcmps : forall j, h < j < e -> writes f (j mod NP) COMPACT_WORD = 0;
  b_er : forall j, h <= j < e -> erases f (j mod NP) = j / NP }.
(** The init words of the pages of [J] are complete. *)
Definition inited (f : flash) (h e pre : nat) (es : list ent) (J : list N) : Prop :=
  forall j, h < j < e -> h * Q + pre + plen es <= j * Q < h * Q + pre + plen es + length J ->
    vini f j = iword j (target (h * Q + pre + plen es) (length J) j).

(* --------------------------------------------------------------- counters *)

Lemma budget_erased : budget ERASED = 0. Proof. reflexivity. Qed.
Lemma budget_2 w : budget w <= 2.
Proof. unfold budget. destruct (w =? ERASED)%N; [lia|]. destruct (w =? 0)%N; lia. Qed.
Lemma budget_pos w : w <> ERASED -> 1 <= budget w.
Proof.
  intros H. unfold budget. apply N.eqb_neq in H. rewrite H. destruct (w =? 0)%N; lia.
Qed.
Lemma budget_1 w : w <> 0%N -> budget w <= 1.
Proof.
  intros H. unfold budget. apply N.eqb_neq in H. rewrite H. destruct (w =? ERASED)%N; lia.
Qed.
Lemma sub_of_erased w : w32 w -> sub ERASED w -> w = ERASED.
Proof. intros W H. apply sub_antisym; [apply sub_erased, W|exact H]. Qed.
Lemma budget_mono old y : w32 old -> sub y old -> budget old <= budget y.
Proof.
  intros W H. destruct (N.eq_dec old ERASED) as [->|N1]; [apply Nat.le_0_l|].
  destruct (N.eq_dec old 0) as [->|N2].
  - replace y with 0%N; [lia|]. apply sub_antisym; [apply sub_0|exact H].
  - pose proof (budget_1 old N2). assert (y <> ERASED); [|pose proof (budget_pos y); lia].
    intros ->. apply N1. apply sub_of_erased; assumption.
Qed.
(** A word that can still be written, while and after it is written. *)
Lemma budget_write old new y k k' :
  w32 old -> sub new old -> sub y old -> k <= budget old ->
  k' = (if (y =? new)%N && negb (old =? new)%N then S k else k) ->
  k' <= 2 /\ (k = 0 \/ new = 0%N \/ new = old -> k' <= budget y).
Proof.
  intros W Hn Hy Hk ->. pose proof (budget_mono old y W Hy). pose proof (budget_2 old).
  destruct ((y =? new)%N && negb (old =? new)%N) eqn:E; [|lia].
  apply andb_true_iff in E as [E1 E2]. apply N.eqb_eq in E1. subst y.
  apply negb_true_iff, N.eqb_neq in E2.
  assert (N0 : old <> 0%N).
  { intros ->. apply E2. symmetry. apply sub_antisym; [exact Hn|apply sub_0]. }
  pose proof (budget_1 old N0). split; [lia|].
  intros [->|[->|X]]; [|change (budget 0) with 2; lia|congruence].
  apply budget_pos. intros ->. apply E2. apply sub_of_erased; assumption.
Qed.
Lemma pad_dead d w r : eok F d -> ewords d = w :: r -> is_pad w = true -> exists ws, d = Dead ws.
Proof.
  intros O E H. unfold is_pad in H. destruct d as [k v|ws|i|n].
  - exfalso. destruct (live_facts F G k v O) as (_ & U & _ & _ & P & _). cbn [ewords] in E.
    rewrite U in E. injection E as <- _. rewrite P in H. discriminate.
  - eauto.
  - exfalso. destruct (intl_facts F i O) as (_ & _ & _ & P & _). cbn [ewords] in E.
    injection E as <- _. rewrite P in H. discriminate.
  - exfalso. cbn [ewords] in E. destruct n; [discriminate|]. cbn [repeat] in E.
    injection E as <- _. rewrite erased_parse in H. discriminate.
Qed.
Lemma pad_not_erased w : is_pad w = true -> w <> ERASED.
Proof. intros H ->. unfold is_pad in H. rewrite erased_parse in H. discriminate. Qed.

(* ------------------------------------------------------------ arithmetic *)

Lemma Qp : 0 < Q. Proof. pose proof (g_Q F G). lia. Qed.
Lemma NPp : 0 < NP. Proof. pose proof (g_N F G). lia. Qed.
Lemma mul_lt a b : a < b -> a * Q + Q <= b * Q.
Proof. intros H. replace (a * Q + Q) with (S a * Q) by (cbn [length Nat.mul]; lia). apply Nat.mul_le_mono_r. lia. Qed.
Lemma mul_lt_inv a b : a * Q < b * Q -> a < b.
Proof. intros H. apply Nat.mul_lt_mono_pos_r with Q; [apply Qp|exact H]. Qed.
Lemma mul_le_inv a b : a * Q <= b * Q -> a <= b.
Proof. intros H. apply Nat.mul_le_mono_pos_r with Q; [apply Qp|exact H]. Qed.
Lemma pos_in j p : j * Q <= p < j * Q + Q -> p / Q = j /\ p mod Q = p - j * Q.
Proof.
  intros H. split.
  - symmetry. apply Nat.div_unique with (p - j * Q); lia.
  - symmetry. apply Nat.mod_unique with j; lia.
Qed.
Lemma pos_ex p : exists j, j * Q <= p < j * Q + Q.
Proof.
  exists (p / Q). pose proof Qp. pose proof (Nat.div_mod p Q ltac:(lia)).
  pose proof (Nat.mod_upper_bound p Q ltac:(lia)). rewrite (Nat.mul_comm (p / Q)). lia.
Qed.
Lemma next_page_in j p : j * Q <= p < j * Q + Q -> next_page F p = (j + 1) * Q.
Proof. intros H. unfold next_page. destruct (pos_in j p H) as [-> _]. reflexivity. Qed.
Lemma page_begin_in j p : j * Q <= p < j * Q + Q -> page_begin F p = j * Q.
Proof. intros H. unfold page_begin. destruct (pos_in j p H) as [-> _]. reflexivity. Qed.
Lemma pos_page_in j p : j * Q <= p < j * Q + Q -> pos_page F p = j mod NP.
Proof. intros H. unfold pos_page. destruct (pos_in j p H) as [-> _]. reflexivity. Qed.
Lemma pos_cycle_in j p : j * Q <= p < j * Q + Q -> pos_cycle F p = j / NP.
Proof. intros H. unfold pos_cycle. destruct (pos_in j p H) as [-> _]. reflexivity. Qed.
Lemma position_of j p : position F (j / NP) (j mod NP) p = j * Q + p.
Proof.
  unfold position. pose proof NPp. pose proof (Nat.div_mod j NP ltac:(lia)) as D.
  rewrite (Nat.mul_comm (j / NP)). rewrite <- D. reflexivity.
Qed.
Lemma mod_inj i j : i < j + NP -> j < i + NP -> i mod NP = j mod NP -> i = j.
Proof.
  intros H1 H2 E. pose proof NPp as Np.
  pose proof (Nat.div_mod i NP ltac:(lia)) as Di. pose proof (Nat.div_mod j NP ltac:(lia)) as Dj.
  rewrite E in Di. destruct (Nat.lt_trichotomy (i / NP) (j / NP)) as [L|[L|L]].
  - exfalso. assert (NP * S (i / NP) <= NP * (j / NP)) by (apply Nat.mul_le_mono_l; lia).
    rewrite Nat.mul_succ_r in *. lia.
  - rewrite L in Di. lia.
  - exfalso. assert (NP * S (j / NP) <= NP * (i / NP)) by (apply Nat.mul_le_mono_l; lia).
    rewrite Nat.mul_succ_r in *. lia.
Qed.
Lemma mod_succ j : (j mod NP + 1) mod NP = (j + 1) mod NP.
Proof. pose proof NPp. rewrite Nat.add_mod_idemp_l by lia. reflexivity. Qed.
Lemma mod_cover lo page : page < NP -> exists j, lo <= j < lo + NP /\ j mod NP = page.
Proof.
  intros H. pose proof NPp as Np. pose proof (Nat.div_mod lo NP ltac:(lia)) as D.
  pose proof (Nat.mod_upper_bound lo NP ltac:(lia)) as U.
  destruct (Nat.le_gt_cases (lo mod NP) page) as [L|L].
  - exists (NP * (lo / NP) + page). split; [lia|]. symmetry. apply Nat.mod_unique with (lo / NP); lia.
  - exists (NP * (lo / NP) + NP + page). split; [lia|].
    symmetry. apply Nat.mod_unique with (lo / NP + 1); lia.
Qed.
Lemma cycle_ok h j : h <= EN * NP -> j < h + NP -> j / NP <= EN.
Proof.
  intros H1 H2. pose proof NPp.
  assert (j < (EN + 1) * NP) by lia.
  apply Nat.lt_succ_r. apply Nat.div_lt_upper_bound; [lia|]. rewrite Nat.mul_comm. lia.
Qed.
Lemma cycle_ge h : EN <= h / NP <-> EN * NP <= h.
Proof.
  pose proof NPp. split; intros H0.
  - pose proof (Nat.div_mod h NP ltac:(lia)).
    assert (NP * EN <= NP * (h / NP)) by (apply Nat.mul_le_mono_l; exact H0). lia.
  - apply Nat.div_le_lower_bound; lia.
Qed.
Lemma iword_facts h j b : h <= EN * NP -> j < h + NP -> b - j * Q <= MP ->
  build_init (j / NP) (b - j * Q) = Ok (iword j b) /\
  w32 (iword j b) /\ iword j b <> ERASED /\
  parse_init_word F (iword j b) = Ok (Valid (j / NP, b - j * Q)) /\
  (forall x, w32 x -> sub (iword j b) x -> x <> iword j b ->
     parse_init_word F x = Ok Erased \/ parse_init_word F x = Ok Partial).
Proof.
  intros H1 H2 H3. pose proof (cycle_ok h j H1 H2) as C. pose proof (g_E F G). pose proof (g_M256 F G).
  apply init_word_parse; [exact C|exact H3|lia|lia].
Qed.

Lemma target_ok t n j : t <= j * Q < t + n -> n <= MP + 1 ->
  j * Q <= target t n j <= j * Q + MP.
Proof.
  intros H1 H2. unfold target. destruct (t =? j * Q) eqn:E; [lia|]. apply Nat.eqb_neq in E. lia.
Qed.

Lemma lay_win f h e pre es J c : lay f h e pre es J c ->
  forall pos n p, h * Q <= pos -> pos + n <= e * Q -> h * Q <= p < e * Q -> near F pos n p.
Proof.
  intros B pos n p H1 H2 H3. destruct (b_page _ _ _ _ _ _ _ B) as [P1 P2].
  assert (e * Q <= (h + NP) * Q) by (apply Nat.mul_le_mono_r; exact P2).
  unfold near. lia.
Qed.

(* ------------------------------------------------------- changes to [J] *)

Lemma lay_J f f' h e pre es J J' c :
  lay f h e pre es J c -> fok f' -> hdr_same f f' ->
  J = [] \/ length J' = length J ->
  h * Q + pre + plen es + length J' <= e * Q -> length J' <= MP + 1 -> Forall w32 J' ->
  (forall p, h * Q <= p < h * Q + pre + plen es ->
     read_word F f' p = read_word F f p /\ read_wear F f' p = read_wear F f p) ->
  (forall p, h * Q + pre + plen es <= p < e * Q ->
     read_wear F f' p <= budget (read_word F f' p) \/
     (read_wear F f' p <= 2 /\ exempt es J' (h * Q + pre) p)) ->
  seg F f' (h * Q + pre + plen es) J' ->
  blank F f' (h * Q + pre + plen es + length J') (e * Q) ->
  lay f' h e pre es J' c.
Proof.
  intros B Hf Hh HJ Hfit Hlen HW Hread Hwear Hseg Hbl.
  assert (EI : forall j, vini f' j = vini f j) by (intros j; apply (Hh (j mod NP))).
  assert (EC : forall j, vcmp f' j = vcmp f j) by (intros j; apply (Hh (j mod NP))).
  destruct B as [B1 B2 B3 B4 B5 B6 B7 B8 B9 B10 B11 B12 B13 B14 B15 B16 C1 C2 C3 C4 C5].
  split; try assumption.
  - apply seg_app. split.
    + apply seg_app in B6 as [S1 _]. intros i Hi.
      destruct (Hread (h * Q + pre + i)) as [-> _]; [unfold plen; lia|]. apply S1, Hi.
    + unfold plen in Hseg. exact Hseg.
  - rewrite EI. exact B11.
  - intros j Hj Hjt. rewrite EI. apply B12; assumption.
  - intros j Hj Hjt. rewrite EI. destruct HJ as [->|HJ].
    + rewrite (B14 j Hj) by (cbn [length Nat.mul]; lia).
      apply sub_erased. destruct (iword_facts h j (target (h * Q + pre + plen es) (length J') j))
        as (_ & W & _); [assumption|lia| |exact W].
      pose proof (target_ok _ _ _ Hjt Hlen). lia.
    + rewrite HJ in *. apply B13; assumption.
  - intros j Hj Hjt. rewrite EI. destruct HJ as [->|HJ]; [apply B14; [exact Hj|cbn [length]; lia]|].
    rewrite HJ in *. apply B14; assumption.
  - rewrite EC. exact B15.
  - intros j Hj. rewrite EC. apply B16, Hj.
  - intros p Hp. destruct (Nat.lt_ge_cases p (h * Q + pre + plen es)) as [L|L]; [|apply Hwear; lia].
    destruct (Hread p) as [-> ->]; [lia|]. destruct (C1 p Hp) as [X|[X [Y|Y]]]; [left; exact X| |lia].
    right. split; [exact X|]. left. exact Y.
  - intros j Hj Hjt. destruct (Hh (j mod NP)) as (_ & _ & -> & _). rewrite EI.
    destruct (C2 j Hj Hjt) as [X|[X Y]]; [left; exact X|].
    destruct HJ as [->|HJ]; [cbn [length] in X; lia|]. rewrite HJ. right. split; assumption.
  - destruct (Hh (h mod NP)) as (_ & _ & _ & -> & _). exact C3.
  - intros j Hj. destruct (Hh (j mod NP)) as (_ & _ & _ & -> & _). apply C4, Hj.
  - intros j Hj. destruct (Hh (j mod NP)) as (_ & _ & _ & _ & ->). apply C5, Hj.
Qed.
Lemma lay_same f f' h e pre es J c :
  lay f h e pre es J c -> fok f' -> hdr_same f f' ->
  (forall p, h * Q <= p < e * Q ->
     read_word F f' p = read_word F f p /\ read_wear F f' p = read_wear F f p) ->
  lay f' h e pre es J c.
Proof.
  intros B Hf Hh Hr. pose proof (b_fit _ _ _ _ _ _ _ B) as Bf.
  apply (lay_J f f' h e pre es J J c B Hf Hh).
  - right. reflexivity.
  - exact Bf.
  - apply (b_len _ _ _ _ _ _ _ B).
  - apply (b_w32 _ _ _ _ _ _ _ B).
  - intros p Hp. apply Hr. lia.
  - intros p Hp. destruct (Hr p) as [-> ->]; [lia|]. apply (b_wear _ _ _ _ _ _ _ B). lia.
  - pose proof (b_seg _ _ _ _ _ _ _ B) as S. apply seg_app in S as [_ S].
    intros i Hi. destruct (Hr (h * Q + pre + plen es + i)) as [-> _]; [lia|]. apply S, Hi.
  - intros p Hp. rewrite (proj1 (Hr p ltac:(lia))). apply (b_blank _ _ _ _ _ _ _ B), Hp.
Qed.

(** An entry, or deleted words, written completely with its init words becomes part of the
    entries. *)
Lemma app_inj_mid {A} (x : A) : forall (a1 a2 b1 b2 : list A), a1 ++ x :: a2 = b1 ++ b2 ->
  (exists r, b1 = a1 ++ x :: r /\ a2 = r ++ b2) \/ (exists r, a1 = b1 ++ r /\ b2 = r ++ x :: a2).
Proof.
  induction a1 as [|y a1 IH]; intros a2 b1 b2 E.
  - destruct b1 as [|z b1]; [right; exists []; auto|].
    cbn in E. injection E as <- ->. left. exists b1. auto.
  - destruct b1 as [|z b1]; [right; exists (y :: a1); auto|].
    cbn in E. injection E as <- E. destruct (IH a2 b1 b2 E) as [(r & -> & ->)|(r & -> & ->)].
    + left. exists r. auto.
    + right. exists r. auto.
Qed.
Lemma plen_pos e es : eok F e -> plen es < plen (es ++ [e]).
Proof. intros H. rewrite plen_app, plen_one. pose proof (eok_len F G e H). lia. Qed.
Lemma lay_settle f h e pre es ds c :
  lay f h e pre es (flat ds) c -> inited f h e pre es (flat ds) ->
  Forall (eok F) ds -> (forall D1 d D2, ds = D1 ++ d :: D2 -> D1 <> [] -> d = Dead [0%N]) ->
  lay f h e pre (es ++ ds) [] c.
Proof.
  intros B I Hok Hd. pose proof B as B0.
  destruct B as [B1 B2 B3 B4 B5 B6 B7 B8 B9 B10 B11 B12 B13 B14 B15 B16 C1 C2 C3 C4 C5].
  fold (plen ds) in *.
  assert (E : h * Q + pre + plen (es ++ ds) = h * Q + pre + plen es + plen ds)
    by (rewrite plen_app; lia).
  split; try assumption.
  - apply Forall_app. split; assumption.
  - rewrite flat_app, app_nil_r. exact B6.
  - rewrite E. cbn [length]. lia.
  - cbn [length]. lia.
  - constructor.
  - rewrite E. cbn [length]. rewrite Nat.add_0_r. exact B10.
  - intros j Hj Hjt. rewrite E in Hjt.
    destruct (Nat.lt_ge_cases (j * Q) (h * Q + pre + plen es)) as [L|L].
    + destruct (B12 j Hj L) as (b & (A & R & Ees & Eb & Hb & Hdd) & V).
      exists b. split; [|exact V]. exists A, (R ++ ds). split; [rewrite Ees, app_assoc; reflexivity|].
      auto.
    + assert (Hr : h * Q + pre + plen es <= j * Q < h * Q + pre + plen es + plen ds) by lia.
      exists (target (h * Q + pre + plen es) (plen ds) j). split; [|apply I; assumption].
      pose proof (target_ok _ _ _ Hr B8) as Tk.
      unfold target in *. destruct (_ =? j * Q) eqn:Et.
      * apply Nat.eqb_eq in Et. exists es, ds. split; [reflexivity|]. split; [lia|]. split; [lia|].
        intros A1 x A2 -> Hx. exfalso.
        rewrite plen_app, plen_cons in Et. apply Forall_app in B5 as [_ B5].
        inversion B5 as [|? ? Ox _]. pose proof (eok_len F G x Ox). lia.
      * apply Nat.eqb_neq in Et. exists (es ++ ds), []. split; [rewrite app_nil_r; reflexivity|].
        split; [rewrite E; reflexivity|]. split; [lia|].
        intros A1 x A2 Ex Hx. symmetry in Ex. apply app_inj_mid in Ex as [(r & -> & ->)|(r & -> & Er)].
        -- exfalso. rewrite plen_app in L, Et. pose proof (Nat.le_0_l (plen (x :: r))). lia.
        -- apply (Hd r x A2 Er). intros ->. rewrite app_nil_r in Hx. lia.
  - intros j Hj Hjt. cbn [length] in Hjt. lia.
  - intros j Hj Hjt. cbn [length] in Hjt. apply B14; [exact Hj|]. lia.
  - intros p Hp. destruct (C1 p Hp) as [X|[X [(A & ws & R & -> & Y)|(Y & w & r & EJ & Z)]]];
      [left; exact X| |]; right; (split; [exact X|]); left.
    + exists A, ws, (R ++ ds). split; [rewrite <- app_assoc; reflexivity|exact Y].
    + destruct ds as [|d ds]; [discriminate|]. inversion Hok as [|? ? Od Ods].
      rewrite flat_cons in EJ. pose proof (eok_len F G d Od) as Ld. unfold elen in Ld.
      destruct (ewords d) as [|w' r'] eqn:Ew; [cbn in Ld; lia|]. cbn in EJ. injection EJ as -> _.
      destruct (pad_dead d w r' Od Ew Z) as [ws ->]. exists es, ws, ds. split; [reflexivity|exact Y].
  - intros j Hj Hjt. cbn [length]. destruct (C2 j Hj) as [X|[X _]]; [lia|left; exact X|]. lia.
Qed.

(** An entry changes without changing its length. *)
Lemma lay_set f f' h e pre A x x' B J c :
  lay f h e pre (A ++ x :: B) J c -> fok f' -> hdr_same f f' ->
  elen x' = elen x -> eok F x' -> (x = Dead [0%N] -> x' = Dead [0%N]) ->
  seg F f' (h * Q + pre + plen A) (ewords x') ->
  (forall p, h * Q <= p < e * Q ->
     p < h * Q + pre + plen A \/ h * Q + pre + plen A + elen x <= p ->
     read_word F f' p = read_word F f p /\ read_wear F f' p = read_wear F f p) ->
  (forall p, h * Q + pre + plen A <= p < h * Q + pre + plen A + elen x ->
     read_wear F f' p <= budget (read_word F f' p) \/
     (read_wear F f' p <= 2 /\ p = h * Q + pre + plen A /\ is_dead x')) ->
  lay f' h e pre (A ++ x' :: B) J c.
Proof.
  intros L Hf Hh Hl Hok Hd Hs Hr Hw.
  assert (EI : forall j, vini f' j = vini f j) by (intros j; apply (Hh (j mod NP))).
  assert (EC : forall j, vcmp f' j = vcmp f j) by (intros j; apply (Hh (j mod NP))).
  assert (EP : plen (A ++ x' :: B) = plen (A ++ x :: B))
    by (rewrite !plen_app, !plen_cons, Hl; reflexivity).
  destruct L as [B1 B2 B3 B4 B5 B6 B7 B8 B9 B10 B11 B12 B13 B14 B15 B16 C1 C2 C3 C4 C5].
  split; rewrite ?EP; try assumption.
  - apply Forall_app in B5 as [O1 O2]. inversion O2. apply Forall_app. split; [assumption|].
    constructor; assumption.
  - rewrite flat_app, flat_cons in *. rewrite <- !app_assoc in *.
    apply seg_app in B6 as [S1 B6]. apply seg_app in B6 as [S2 S3].
    fold (plen A) in *. fold (elen x) in *.
    rewrite plen_app, plen_cons in B7. unfold plen in B7 at 2.
    apply seg_app. split; [|apply seg_app; split].
    + intros i Hi. rewrite (proj1 (Hr (h * Q + pre + i) ltac:(unfold plen in *; lia) ltac:(left; unfold plen; lia))).
      apply S1, Hi.
    + exact Hs.
    + fold (plen A). fold (elen x'). rewrite Hl. intros i Hi. rewrite app_length in Hi.
      destruct (Hr (h * Q + pre + plen A + elen x + i)) as [-> _]; [unfold plen in *; lia|right; lia|].
      apply S3. rewrite app_length. exact Hi.
  - intros p Hp. destruct (Hr p) as [-> _]; [lia| |apply B10, Hp].
    right. rewrite plen_app, plen_cons in Hp. lia.
  - rewrite EI. exact B11.
  - intros j Hj Hjt. rewrite EI. destruct (B12 j Hj Hjt) as (b & (A' & R & Ees & Eb & Hb & Hdd) & V).
    exists b. split; [|exact V].
    apply app_inj_mid in Ees as [(r & -> & ->)|(r & -> & ->)].
    + exists (A ++ x' :: r), R. split; [rewrite <- app_assoc; reflexivity|].
      split; [rewrite Eb, !plen_app, !plen_cons, Hl; reflexivity|]. split; [exact Hb|].
      intros A1 y A2 Ey Hy. symmetry in Ey.
      apply app_inj_mid in Ey as [(q & -> & ->)|(q & -> & Eq)].
      * apply (Hdd A1 y (q ++ x :: r)); [rewrite <- app_assoc; reflexivity|exact Hy].
      * destruct q as [|z q].
        -- cbn in Eq. injection Eq as <- <-. rewrite app_nil_r in Hy.
           apply Hd. apply (Hdd A x r); [reflexivity|exact Hy].
        -- cbn in Eq. injection Eq as <- ->.
           apply (Hdd (A ++ x :: q) y A2); [rewrite <- app_assoc; reflexivity|].
           rewrite plen_app, plen_cons in *. lia.
    + exists A', (r ++ x' :: B). split; [rewrite <- app_assoc; reflexivity|]. auto.
  - intros j Hj Hjt. rewrite EI. apply B13; assumption.
  - intros j Hj Hjt. rewrite EI. apply B14; assumption.
  - rewrite EC. exact B15.
  - intros j Hj. rewrite EC. apply B16, Hj.
  - intros p Hp.
    destruct (Nat.lt_ge_cases p (h * Q + pre + plen A)) as [L1|L1];
      [|destruct (Nat.lt_ge_cases p (h * Q + pre + plen A + elen x)) as [L2|L2]].
    2:{ destruct (Hw p (conj L1 L2)) as [X|(X & Y & Z)]; [left; exact X|].
        right. split; [exact X|]. left. destruct x' as [| ws | |]; try contradiction.
        exists A, ws, B. auto. }
    all: destruct (Hr p Hp) as [-> ->]; [lia|].
    all: destruct (C1 p Hp) as [X|[X Y]]; [left; exact X|]; right; (split; [exact X|]).
    all: destruct Y as [(A' & ws & R & Ees & Y)|Y]; [left|right; rewrite EP; exact Y].
    all: apply app_inj_mid in Ees as [(r & -> & ->)|(r & -> & Er)];
      [exists (A ++ x' :: r), ws, R; split; [rewrite <- app_assoc; reflexivity|];
       rewrite Y, !plen_app, !plen_cons, Hl; reflexivity|].
    all: destruct r as [|z r]; cbn in Er; injection Er as <- ->;
      [exfalso; rewrite app_nil_r in *; apply Forall_app in B5 as [_ B5];
       inversion B5 as [|? ? Ox _]; pose proof (eok_len F G _ Ox); lia|].
    all: exists A', ws, (r ++ x' :: B); split; [rewrite <- app_assoc; reflexivity|exact Y].
  - intros j Hj Hjt. destruct (Hh (j mod NP)) as (_ & _ & -> & _). rewrite EI. apply C2; assumption.
  - destruct (Hh (h mod NP)) as (_ & _ & _ & -> & _). exact C3.
  - intros j Hj. destruct (Hh (j mod NP)) as (_ & _ & _ & -> & _). apply C4, Hj.
  - intros j Hj. destruct (Hh (j mod NP)) as (_ & _ & _ & _ & ->). apply C5, Hj.
Qed.

(** Writing init words. *)
Lemma lay_init f f' h e pre es J c j :
  lay f h e pre es J c -> fok f' -> h < j < e ->
  h * Q + pre + plen es <= j * Q < h * Q + pre + plen es + length J ->
  (forall p x, p <> j mod NP \/ x <> INIT_WORD ->
     f' p x = f p x /\ writes f' p x = writes f p x) ->
  (forall p, erases f' p = erases f p) ->
  sub (iword j (target (h * Q + pre + plen es) (length J) j)) (vini f' j) ->
  writes f' (j mod NP) INIT_WORD = 0 \/
    vini f' j = iword j (target (h * Q + pre + plen es) (length J) j) ->
  lay f' h e pre es J c.
Proof.
  intros L Hf Hj Hjt Hr He Hs Hw. destruct L as [B1 B2 B3 B4 B5 B6 B7 B8 B9 B10 B11 B12 B13 B14 B15 B16 C1 C2 C3 C4 C5].
  assert (RD : forall p, read_word F f' p = read_word F f p).
  { intros p. unfold read_word. apply Hr. right. unfold CONTENT_WORD, INIT_WORD. lia. }
  assert (RW : forall p, read_wear F f' p = read_wear F f p).
  { intros p. unfold read_wear. apply Hr. right. unfold CONTENT_WORD, INIT_WORD. lia. }
  assert (EC : forall i, vcmp f' i = vcmp f i).
  { intros i. unfold vcmp. apply Hr. right. discriminate. }
  assert (EI : forall i, h <= i < e -> i <> j -> vini f' i = vini f i).
  { intros i Hi Hn. unfold vini. apply Hr. left. intros X. apply Hn.
    apply mod_inj; [lia|lia|exact X]. }
  split; try assumption.
  - intros i Hi. rewrite RD. apply B6, Hi.
  - intros p Hp. rewrite RD. apply B10, Hp.
  - rewrite EI by lia. exact B11.
  - intros i Hi Hit. rewrite EI; [apply B12; assumption|lia|]. intros ->. lia.
  - intros i Hi Hit. destruct (Nat.eq_dec i j) as [->|Hn]; [exact Hs|].
    rewrite EI by lia. apply B13; assumption.
  - intros i Hi Hit. rewrite EI; [apply B14; assumption|lia|]. intros ->. lia.
  - rewrite EC. exact B15.
  - intros i Hi. rewrite EC. apply B16, Hi.
  - intros p Hp. rewrite RW, RD. apply C1, Hp.
  - intros i Hi Hit. destruct (Nat.eq_dec i j) as [->|Hn].
    + destruct Hw as [X|X]; [left; exact X|]. right. split; [lia|exact X].
    + rewrite EI by lia. replace (writes f' (i mod NP) INIT_WORD) with (writes f (i mod NP) INIT_WORD);
        [apply C2; assumption|]. symmetry. apply Hr. left. intros X. apply Hn.
      apply mod_inj; [lia|lia|exact X].
  - replace (writes f' (h mod NP) COMPACT_WORD) with (writes f (h mod NP) COMPACT_WORD); [exact C3|].
    symmetry. apply Hr. right. discriminate.
  - intros i Hi. rewrite <- (C4 i Hi). apply Hr. right. discriminate.
  - intros i Hi. rewrite He. apply C5, Hi.
Qed.
(** Writing the compact word of the first page. *)
Lemma lay_compact f f' h e pre es J c c' :
  lay f h e pre es J c -> fok f' ->
  (forall p x, p <> h mod NP \/ x <> COMPACT_WORD ->
     f' p x = f p x /\ writes f' p x = writes f p x) ->
  (forall p, erases f' p = erases f p) ->
  vcmp f' h = c' -> writes f' (h mod NP) COMPACT_WORD = 0 \/ cmp_done c' ->
  lay f' h e pre es J c'.
Proof.
  intros L Hf Hr He Hc Hw. destruct L as [B1 B2 B3 B4 B5 B6 B7 B8 B9 B10 B11 B12 B13 B14 B15 B16 C1 C2 C3 C4 C5].
  assert (RD : forall p, read_word F f' p = read_word F f p).
  { intros p. unfold read_word. apply Hr. right. unfold CONTENT_WORD, COMPACT_WORD. lia. }
  assert (RW : forall p, read_wear F f' p = read_wear F f p).
  { intros p. unfold read_wear. apply Hr. right. unfold CONTENT_WORD, COMPACT_WORD. lia. }
  assert (EI : forall i, vini f' i = vini f i).
  { intros i. unfold vini. apply Hr. right. discriminate. }
  split; try assumption.
  - intros i Hi. rewrite RD. apply B6, Hi.
  - intros p Hp. rewrite RD. apply B10, Hp.
  - rewrite EI. exact B11.
  - intros i Hi Hit. rewrite EI. apply B12; assumption.
  - intros i Hi Hit. rewrite EI. apply B13; assumption.
  - intros i Hi Hit. rewrite EI. apply B14; assumption.
  - intros i Hi.
    assert (X : i mod NP <> h mod NP).
    { intros X. assert (i = h) by (apply mod_inj; [lia|lia|exact X]). lia. }
    unfold vcmp. destruct (Hr (i mod NP) COMPACT_WORD (or_introl X)) as [-> _]. apply (B16 i Hi).
  - intros p Hp. rewrite RW, RD. apply C1, Hp.
  - intros i Hi Hit. rewrite EI.
    destruct (Hr (i mod NP) INIT_WORD) as [_ ->]; [right; discriminate|]. apply C2; assumption.
  - intros i Hi.
    assert (X : i mod NP <> h mod NP).
    { intros X. assert (i = h) by (apply mod_inj; [lia|lia|exact X]). lia. }
    destruct (Hr (i mod NP) COMPACT_WORD (or_introl X)) as [_ ->]. apply (C4 i Hi).
  - intros i Hi. rewrite He. apply C5, Hi.
Qed.

(* --------------------------------------------------------------- init_page *)

Lemma wp_init_page (R : flash -> Prop) s h e pre es J c (P : res store_error unit -> st -> Prop) :
  lay (fl s) h e pre es J c -> J <> [] ->
  (forall f', lay f' h e pre es J c -> R f') ->
  (forall f', lay f' h e pre es J c -> inited f' h e pre es J ->
     P (Ok tt) (set_fl s f')) ->
  wp F R (init_page F (h * Q + pre + plen es) (h * Q + pre + plen es + (length J - 1))) s P.
Proof.
  intros L Ne HR HP. set (t := h * Q + pre + plen es) in *. set (n := length J) in *.
  assert (Hn : 0 < n) by (unfold n; destruct J; [congruence|cbn [length]; lia]).
  pose proof (b_page _ _ _ _ _ _ _ L) as Bp. pose proof (b_fit _ _ _ _ _ _ _ L) as Bf.
  pose proof (b_len _ _ _ _ _ _ _ L) as Bl. pose proof (b_life _ _ _ _ _ _ _ L) as Be.
  pose proof (g_M F G) as HM. pose proof (g_N F G) as HN.
  fold t in Bf. fold n in Bf, Bl.
  destruct (pos_ex t) as [a Ha].
  assert (Hah : h <= a).
  { apply Nat.lt_succ_r. apply mul_lt_inv. cbn [Nat.mul]. unfold t in *. lia. }
  assert (Hae : a < e).
  { apply mul_lt_inv. lia. }
  (* the write of the init word of page j *)
  assert (WR : forall j b, h < j < e -> t <= j * Q < t + n -> b = target t n j ->
    (forall i, h < i < e -> t <= i * Q < t + n -> i = j) ->
    wp F R (init <~ reads (fun f => parse_init F f (pos_page F b)) ;;
            match init with
            | Valid _ => ret tt
            | _ => w <~ lift (build_init (pos_cycle F b) (pos_word F b)) ;;
                   storage_write (pos_page F b) INIT_WORD [w]
            end) s P).
  { intros j b Hj Hjt Eb Hu.
    pose proof (target_ok _ _ _ Hjt Bl) as Tk. rewrite <- Eb in Tk.
    assert (Hb : j * Q <= b < j * Q + Q) by lia.
    rewrite (pos_page_in j b Hb), (pos_cycle_in j b Hb). unfold pos_word.
    destruct (pos_in j b Hb) as [_ ->].
    destruct (iword_facts h j b) as (I1 & I2 & I3 & I4 & I5); [exact Be|lia|lia|].
    pose proof (b_inits2 _ _ _ _ _ _ _ L j Hj) as Sj. fold t in Sj. fold n in Sj.
    specialize (Sj Hjt). rewrite <- Eb in Sj.
    destruct (N.eq_dec (vini (fl s) j) (iword j b)) as [Ei|Ni].
    - eapply wp_bind_reads.
      + unfold parse_init. fold (vini (fl s) j). rewrite Ei. exact I4.
      + apply wp_ret. rewrite <- (set_fl_same s). apply HP; [exact L|].
        intros i Hi Hit. fold t in Hit |- *. fold n in Hit |- *.
        rewrite (Hu i Hi Hit). rewrite <- Eb. exact Ei.
    - assert (W0 : writes (fl s) (j mod NP) INIT_WORD = 0).
      { destruct (b_winit _ _ _ _ _ _ _ L j Hj) as [X|[_ X]]; [fold t; lia|exact X|].
        exfalso. fold t in X. fold n in X. rewrite <- Eb in X. contradiction. }
      assert (W : wp F R (w <~ lift (build_init (j / NP) (b - j * Q)) ;;
                           storage_write (j mod NP) INIT_WORD [w]) s P).
      { eapply wp_bind_lift; [exact I1|]. apply wp_write_init.
        - exact G.
        - apply (b_ok _ _ _ _ _ _ _ L).
        - exact I2.
        - apply Nat.mod_upper_bound. lia.
        - exact Sj.
        - intros _. rewrite W0. lia.
        - intros f' (Hf' & [He Hc] & Hw). apply HR. eapply lay_init.
          + exact L.
          + exact Hf'.
          + exact Hj.
          + exact Hjt.
          + intros p x Hpx. specialize (Hw p x). rewrite Hc.
            destruct ((p =? j mod NP) && (x =? INIT_WORD)) eqn:E; [|split; [exact Hw|reflexivity]].
            apply andb_true_iff in E as [E1 E2]. apply Nat.eqb_eq in E1, E2. lia.
          + exact He.
          + fold t. fold n. rewrite <- Eb. specialize (Hw (j mod NP) INIT_WORD).
            rewrite !Nat.eqb_refl in Hw. cbn [andb] in Hw. apply Hw.
          + fold t. fold n. rewrite <- Eb. rewrite Hc, !Nat.eqb_refl. cbn [andb]. fold (vini f' j).
            destruct (vini f' j =? iword j b)%N eqn:E; cbn [andb];
              [right; apply N.eqb_eq; exact E|left; exact W0].
        - intros f' (Hf' & [He Hc] & Hw).
          assert (Ej : vini f' j = iword j b).
          { unfold vini. rewrite Hw, !Nat.eqb_refl. reflexivity. }
          apply HP.
          + eapply lay_init.
            * exact L.
            * exact Hf'.
            * exact Hj.
            * exact Hjt.
            * intros p x Hpx. rewrite Hw, Hc.
              destruct ((p =? j mod NP) && (x =? INIT_WORD)) eqn:E; [|split; reflexivity].
              apply andb_true_iff in E as [E1 E2]. apply Nat.eqb_eq in E1, E2. lia.
            * exact He.
            * fold t. fold n. rewrite <- Eb, Ej. apply sub_refl.
            * fold t. fold n. rewrite <- Eb. right. exact Ej.
          + intros i Hi Hit. fold t in Hit |- *. fold n in Hit |- *.
            rewrite (Hu i Hi Hit). rewrite <- Eb. exact Ej. }
      destruct (I5 (vini (fl s) j)) as [X|X].
      + apply (b_ok _ _ _ _ _ _ _ L).
      + exact Sj.
      + exact Ni.
      + eapply wp_bind_reads; [exact X|exact W].
      + eapply wp_bind_reads; [exact X|exact W]. }
  unfold init_page. cbn zeta. unfold pos_word at 1. destruct (pos_in a t Ha) as [_ ->].
  destruct (t - a * Q =? 0) eqn:E0.
  - apply Nat.eqb_eq in E0. assert (Et : t = a * Q) by lia.
    destruct (Nat.eq_dec a h) as [->|Hnh'].
    { rewrite (pos_page_in h t Ha). destruct (iword_facts h h (h * Q + pre)) as (_ & _ & _ & I4 & _);
        [exact Be|lia|pose proof (b_pre _ _ _ _ _ _ _ L); lia|].
      eapply wp_bind_reads.
      - unfold parse_init. fold (vini (fl s) h). rewrite (b_init0 _ _ _ _ _ _ _ L). exact I4.
      - apply wp_ret. rewrite <- (set_fl_same s). apply HP; [exact L|].
        intros i Hi Hit. exfalso. fold t in Hit. fold n in Hit.
        pose proof (mul_lt h i ltac:(lia)). lia. }
    apply (WR a t); [lia|lia| |].
    + unfold target. rewrite Et, Nat.eqb_refl. reflexivity.
    + intros i Hi Hit. apply Nat.le_antisymm.
      * apply Nat.lt_succ_r. apply mul_lt_inv. cbn [Nat.mul]. lia.
      * apply mul_le_inv. lia.
  - apply Nat.eqb_neq in E0.
    destruct (Nat.le_gt_cases (t + n) (a * Q + Q)) as [Hin|Hout].
    + assert (Hl : a * Q <= t + (n - 1) < a * Q + Q) by lia.
      rewrite (pos_page_in a t Ha), (pos_page_in a _ Hl), Nat.eqb_refl.
      apply wp_ret. rewrite <- (set_fl_same s). apply HP; [exact L|].
      intros i Hi Hit. exfalso. fold t in Hit. fold n in Hit.
      assert (a < i) by (apply mul_lt_inv; lia). pose proof (mul_lt _ _ H). lia.
    + assert (Hl : (a + 1) * Q <= t + (n - 1) < (a + 1) * Q + Q) by lia.
      assert (Hb : (a + 1) * Q <= t + (n - 1) + 1 < (a + 1) * Q + Q) by lia.
      assert (Ha1 : a + 1 < e) by (apply mul_lt_inv; lia).
      rewrite (pos_page_in a t Ha), (pos_page_in _ _ Hl).
      replace (a mod NP =? (a + 1) mod NP) with false.
      2:{ symmetry. apply Nat.eqb_neq. intros X. apply mod_inj in X; lia. }
      apply (WR (a + 1) (t + (n - 1) + 1)); [lia|lia| |].
      * unfold target. replace (t =? (a + 1) * Q) with false; [lia|].
        symmetry. apply Nat.eqb_neq. lia.
      * intros i Hi Hit. apply Nat.le_antisymm.
        -- apply Nat.lt_succ_r. apply mul_lt_inv. cbn [Nat.mul]. lia.
        -- apply Nat.lt_succ_r. apply mul_lt_inv. cbn [Nat.mul]. lia.
Qed.

End LAYOUT.
