(** The storages an interruption can leave, and the content each of them stands for. *)
From Coq Require Import Permutation.
From Verif Require Import Base Facts.
From Verif.Kv Require Import Model.
From Verif.Store Require Import Format Bits Words Geom Model Wp Entries Layout Scan Steps Ents Window.
Open Scope nat_scope.
Ltac Zify.zify_post_hook ::= idtac.

Definition plain (e : ent) : Prop := match e with Live _ _ | Dead _ => True | _ => False end.
Definition soft (e : ent) : Prop :=
  match e with Live _ _ | Dead _ | Intl (IRemove _) => True | _ => False end.
Definition keys (es : list ent) : list N := map fst (lives es).
(** The updates of a transaction and their keys. *)
Definition isupd (e : ent) : Prop := match e with Live _ _ | Intl (IRemove _) => True | _ => False end.
Definition ukey (e : ent) : N := match e with Live k _ | Intl (IRemove k) => k | _ => 0%N end.

Lemma plain_soft es : Forall plain es -> Forall soft es.
Proof. intros H. eapply Forall_impl; [|exact H]. intros [| |i|] K; cbn in *; tauto. Qed.
Lemma soft_gap es : Forall soft es -> Forall no_gap es.
Proof. intros H. eapply Forall_impl; [|exact H]. intros [| |i|] K; cbn in *; tauto. Qed.
Lemma plain_gap es : Forall plain es -> Forall no_gap es.
Proof. intros H. apply soft_gap, plain_soft, H. Qed.

Section SHAPES.
Variable F : format.
Hypothesis G : wff F.
Notation Q := (virt_page_size F).
Notation NP := (num_pages F).
Notation MP := (max_prefix F).
Notation W := (window_size F).
Notation V := (virt_size F).
Notation C := (capacity_of F).
Notation EN := (max_page_erases F).

Definition based (h pre : nat) (es : list ent) : Prop := (h = 0 /\ pre = 0) \/ es <> [].
Definition room (h pre : nat) (es : list ent) (J : list N) : Prop :=
  Iw F h pre es /\ live_len es <= C /\ (J = [] \/ plen es + length J <= V).

(** The store at rest. *)
Definition rest (f : flash) (h pre : nat) (es : list ent) (m : kv) : Prop :=
  lay F f h (h + NP) pre es [] ERASED /\ based h pre es /\ room h pre es [] /\
  Forall plain es /\ NoDup (keys es) /\ Permutation (lives es) m.

(** The last entry [e] is complete, its page possibly not initialized. *)
Definition pending (es : list ent) (J : list N) (es0 : list ent) (e : ent) : Prop :=
  eok F e /\ ((es = es0 /\ J = ewords e) \/ (es = es0 ++ [e] /\ J = [])).
(** No operation, or one that has not started, was interrupted. *)
Definition op_none (es : list ent) (J : list N) (m : kv) : Prop :=
  Forall soft es /\ NoDup (keys es) /\ (J = [] \/ jg_ok F J \/ ju_ok F J) /\ Permutation (lives es) m.
Definition op_insert (es : list ent) (J : list N) (m : kv) : Prop :=
  exists es0 k v, pending es J es0 (Live k v) /\ Forall soft es0 /\ NoDup (keys es0) /\
    live_len es0 + elen (Live k v) <= C /\ Permutation (kv_insert (lives es0) k v) m.
Definition op_clear (es : list ent) (J : list N) (m : kv) : Prop :=
  exists es0 k, pending es J es0 (Intl (IClear k)) /\ Forall soft es0 /\ NoDup (keys es0) /\
    Permutation (filter (fun p => fst p <? k)%N (lives es0)) m.
Definition op_marker (es : list ent) (J : list N) (m : kv) : Prop :=
  exists n, 0 < n /\ eok F (Intl (IMarker n)) /\ J = [int_word (IMarker n)] /\
    Forall soft es /\ NoDup (keys es) /\ Permutation (lives es) m.
(** The updates [us] of which the last may not be settled. *)
Definition upds (us : list ent) (J : list N) (us' : list ent) : Prop :=
  (us' = us /\ J = []) \/ (exists x, us' = us ++ [x] /\ J = ewords x /\ eok F x).
Definition op_commit (es : list ent) (J : list N) (m : kv) : Prop :=
  exists es0 n us us', es = es0 ++ Intl (IMarker n) :: us /\ upds us J us' /\
    Forall isupd us' /\ NoDup (map ukey us') /\ length us' = n /\
    Forall soft es0 /\ NoDup (keys es0) /\
    plen es + length J <= V /\ live_len es0 + live_len us' <= C /\
    Permutation (filter (fun p => negb (existsb (N.eqb (fst p)) (map ukey us'))) (lives es0) ++ lives us') m.
Definition op_abort (es : list ent) (J : list N) (m : kv) : Prop :=
  exists es0 n ds us, es = es0 ++ Intl (IMarker n) :: ds ++ us /\
    Forall is_dead ds /\ Forall isupd us /\ NoDup (map ukey us) /\ 0 < n /\
    ((jg_ok F J \/ ju_ok F J) /\ (ds <> [] \/ length us < n) \/
     exists us', upds us J us' /\ Forall isupd us' /\ NoDup (map ukey us') /\
       live_len es0 + live_len us' <= C /\
       (ds <> [] /\ J = [] \/ ds = [] /\ length us' < n)) /\
    Forall soft es0 /\ NoDup (keys es0) /\
    plen es + length J <= V /\ Permutation (lives es0) m.
Definition opc (es : list ent) (J : list N) (m : kv) : Prop :=
  op_none es J m \/ op_insert es J m \/ op_clear es J m \/ op_marker es J m \/
  op_commit es J m \/ op_abort es J m.
Definition Cop (m : kv) (f : flash) : Prop :=
  exists h pre es J, lay F f h (h + NP) pre es J ERASED /\ based h pre es /\ room h pre es J /\
    opc es J m.

(** A compaction was interrupted. *)
Definition gapof (h pre : nat) (es : list ent) : list ent :=
  if h * Q + pre + plen es <? (h + 1) * Q then [Gap ((h + 1) * Q - (h * Q + pre + plen es))] else [].
Definition Ccompact (m : kv) (f : flash) : Prop :=
  exists h pre es c, lay F f h (h + NP) pre es [] c /\ based h pre es /\ room h pre es [] /\
    Forall plain es /\ NoDup (keys es) /\ Permutation (lives es) m /\ h < EN * NP /\
    c <> ERASED /\ c <> compact_word (plen (es ++ gapof h pre es)) /\
    sub (compact_word (plen (es ++ gapof h pre es))) c.
(** Part of the next copy is written. *)
Definition part (f : flash) (t : nat) (todo : list ent) (J : list N) : Prop :=
  J = [] \/ exists x r, todo = x :: r /\ length J = elen x /\
    (forall i, i < length J -> sub (nth i (ewords x) 0%N) (nth i J 0%N)) /\
    (forall i, i < length J -> nth i J 0%N <> nth i (ewords x) 0%N -> read_wear F f (t + i) = 0).
Definition targets (h : nat) (A1 : list ent) : list ent := copies A1 ++ [Intl (IErase (h mod NP))].
Definition cut (h pre : nat) (A1 A2 : list ent) : Prop :=
  (forall P x S, A1 = P ++ x :: S -> h * Q + pre + plen P < (h + 1) * Q) /\
  (A2 = [] \/ (h + 1) * Q <= h * Q + pre + plen A1).
Definition Ccopy (m : kv) (f : flash) : Prop :=
  exists h pre A1 A2 done todo J,
    let base := (A1 ++ A2) ++ gapof h pre (A1 ++ A2) in
    lay F f h (h + NP) pre (base ++ done) J (compact_word (plen base)) /\
    cut h pre A1 A2 /\ room h pre (A1 ++ A2) [] /\
    Forall plain (A1 ++ A2) /\ NoDup (keys (A1 ++ A2)) /\ Permutation (lives (A1 ++ A2)) m /\
    h < EN * NP /\ done ++ todo = targets h A1 /\
    part f (h * Q + pre + plen (base ++ done)) todo J.
(** The page being erased. *)
Definition oldi (f : flash) (h : nat) : Prop :=
  (exists b, h * Q <= b <= h * Q + MP /\ sub (iword F h b) (vini F f h)) /\
  (if page_erased F f (h mod NP)
   then erases f (h mod NP) = S (h / NP) /\ forall x, x < Q + 2 -> writes f (h mod NP) x = 0
   else erases f (h mod NP) = h / NP).
Definition Cerase (m : kv) (f : flash) : Prop :=
  exists h pre es, lay F f (h + 1) (h + NP) pre (es ++ [Intl (IErase (h mod NP))]) [] ERASED /\
    oldi f h /\ room (h + 1) pre (es ++ [Intl (IErase (h mod NP))]) [] /\
    Forall plain es /\ NoDup (keys es) /\ Permutation (lives es) m.
(** The storage was never used. *)
Definition Cblank (m : kv) (f : flash) : Prop :=
  m = [] /\ fok f /\ sub (init_word 0 0) (f 0 INIT_WORD) /\
  (forall p x, p < NP -> x < Q + 2 -> p <> 0 \/ x <> INIT_WORD ->
     f p x = ERASED /\ writes f p x = 0) /\
  (writes f 0 INIT_WORD = 0 \/ f 0 INIT_WORD = init_word 0 0) /\
  (forall p, p < NP -> erases f p = 0).

Definition Crash (m : kv) (f : flash) : Prop :=
  Cblank m f \/ Cop m f \/ Ccompact m f \/ Ccopy m f \/ Cerase m f.

Lemma rest_crash f h pre es m : rest f h pre es m -> Crash m f.
Proof.
  intros (L & B & R & Pl & Nd & Pm). right. left. exists h, pre, es, [].
  split; [exact L|]. split; [exact B|]. split; [exact R|]. left.
  split; [apply plain_soft, Pl|]. split; [exact Nd|]. split; [left; reflexivity|exact Pm].
Qed.

(* ------------------------------------------------- moving the pages in use *)

Lemma app_prefix (A B A' B' : list ent) : Forall (eok F) (A ++ B) -> A ++ B = A' ++ B' ->
  plen A <= plen A' -> exists r, A' = A ++ r /\ B = r ++ B'.
Proof.
  revert A'. induction A as [|a A IH]; intros A' H E L.
  - exists A'. auto.
  - destruct A' as [|a' A'].
    + exfalso. cbn [app] in H. inversion H as [|? ? Ha _]; subst. pose proof (eok_len F G _ Ha).
      rewrite plen_cons, plen_nil in L. lia.
    + cbn [app] in E, H. injection E as <- E. inversion H as [|? ? Ha Hr]; subst.
      rewrite !plen_cons in L. destruct (IH A' Hr E ltac:(lia)) as (r & -> & ->). exists r. auto.
Qed.
Lemma lay_drop f h pre A B c pre' : lay F f h (h + NP) pre (A ++ B) [] c -> h < EN * NP ->
  (h + 1) * Q + pre' = h * Q + pre + plen A -> pre' <= MP ->
  vini F f (h + 1) = iword F (h + 1) ((h + 1) * Q + pre') ->
  lay F f (h + 1) (h + NP) pre' B [] ERASED.
Proof.
  intros L Hl Hp Hm Hv. pose proof (g_N F G) as HN. pose proof (g_M F G) as HM.
  destruct L as [B1 B2 B3 B4 B5 B6 B7 B8 B9 B10 B11 B12 B13 B14 B15 B16 C1 C2 C3 C4 C5].
  cbn [length] in *. rewrite Nat.add_0_r in *.
  assert (Et : (h + 1) * Q + pre' + plen B = h * Q + pre + plen (A ++ B)) by (rewrite plen_app; lia).
  split; cbn [length]; rewrite ?Nat.add_0_r, ?Et; try assumption.
  - lia.
  - lia.
  - apply Forall_app in B5. apply B5.
  - rewrite app_nil_r in *. rewrite flat_app in B6. apply seg_app in B6 as [_ S]. fold (plen A) in S.
    rewrite Hp. exact S.
  - intros j Hj Hjt. destruct (B12 j ltac:(lia) Hjt) as (b & (A' & B' & E1 & E2 & E3 & E4) & V).
    exists b. split; [|exact V].
    pose proof (mul_lt F (h + 1) j ltac:(lia)) as Mj.
    destruct (app_prefix A B A' B' B5 E1) as (r & -> & Eb); [lia|].
    exists r, B'. split; [exact Eb|]. split; [rewrite plen_app in E2; lia|]. split; [exact E3|].
    intros R1 x R2 Er Hx. apply (E4 (A ++ R1) x R2).
    + rewrite Er, <- app_assoc. reflexivity.
    + rewrite plen_app. lia.
  - intros j Hj. lia.
  - intros j Hj. apply B14. lia.
  - apply B16. lia.
  - intros j Hj. apply B16. lia.
  - intros p Hq. destruct (C1 p) as [X|[X Y]]; [lia|left; exact X|].
    destruct Y as [(A' & ws & R & Ees & Y)|(_ & w & r & Y & _)]; [|discriminate Y].
    symmetry in Ees. pose proof Ees as Ees'.
    apply app_inj_mid in Ees as [(r & EA & ER)|(r & EA & ER)].
    + (* a deleted entry among those dropped *)
      left.
      assert (Hd : ws = [0%N]).
      { destruct (B12 (h + 1)) as (b & (A2 & R2 & E1 & E2 & E3 & E4) & V).
        - lia.
        - rewrite EA in Hp. rewrite plen_app, EA, plen_app, plen_cons.
          apply Forall_app in B5 as [O5 _]. rewrite EA in O5. apply Forall_app in O5 as [_ O5].
          inversion O5 as [|? ? Od _]. pose proof (eok_len F G _ Od). lia.
        - rewrite Hv in V.
          destruct (iword_facts F G h (h + 1) b) as (_ & _ & _ & P1 & _); [lia|lia|lia|].
          destruct (iword_facts F G h (h + 1) ((h + 1) * Q + pre')) as (_ & _ & _ & P2 & _); [lia|lia|lia|].
          rewrite V, P1 in P2. injection P2 as P2.
          assert (Eb : b = (h + 1) * Q + pre') by lia.
          destruct (app_prefix A B A2 R2 B5 E1) as (r2 & -> & _); [lia|].
          assert (ED : Dead ws = Dead [0%N]); [|injection ED as ->; reflexivity].
          apply (E4 A' (Dead ws) (r ++ r2)); [rewrite EA, <- app_assoc; reflexivity|lia]. }
      subst ws. rewrite app_nil_r in B6.
      assert (Z : read_word F f p = 0%N).
      { rewrite flat_app, EA, flat_app, flat_cons in B6. rewrite <- !app_assoc in B6.
        apply seg_app in B6 as [_ S]. apply seg_app in S as [S _]. fold (plen A') in S.
        rewrite Y. cbn [ewords] in S. apply seg_one in S. exact S. }
      rewrite Z. exact X.
    + right. split; [exact X|]. left. exists r, ws, R. split; [exact ER|].
      rewrite Y, EA, plen_app. rewrite EA, plen_app in *. lia.
  - intros j Hj Hjt. apply C2; [lia|exact Hjt].
  - left. apply C4. lia.
  - intros j Hj. apply C4. lia.
  - intros j Hj. apply C5. lia.
Qed.
(** The erased page is available again. *)
Lemma lay_extend f h e pre es : lay F f h e pre es [] ERASED -> e < h + NP ->
  blank F f (e * Q) ((e + 1) * Q) -> vini F f e = ERASED -> vcmp F f e = ERASED ->
  (forall x, x < Q + 2 -> writes f (e mod NP) x = 0) -> erases f (e mod NP) = e / NP ->
  lay F f h (e + 1) pre es [] ERASED.
Proof.
  intros L He Hb Hi Hc Hw Her. destruct L as [B1 B2 B3 B4 B5 B6 B7 B8 B9 B10 B11 B12 B13 B14 B15 B16 C1 C2 C3 C4 C5].
  cbn [length] in *. rewrite Nat.add_0_r in *.
  assert (Q * e + Q = (e + 1) * Q) as Eq by (cbn [Nat.mul]; lia).
  split; cbn [length]; rewrite ?Nat.add_0_r; try assumption.
  - lia.
  - lia.
  - eapply blank_join; [exact B10|exact Hb].
  - intros j Hj Hjt. apply B12; [|exact Hjt].
    destruct (Nat.eq_dec j e) as [->|]; [exfalso|]; lia.
  - intros j Hj. lia.
  - intros j Hj Hjt. destruct (Nat.eq_dec j e) as [->|]; [exact Hi|]. apply B14; lia.
  - intros j Hj. destruct (Nat.eq_dec j e) as [->|]; [exact Hc|]. apply B16; lia.
  - intros p Hp. destruct (Nat.lt_ge_cases p (e * Q)) as [L|L]; [apply C1; lia|].
    left. unfold read_wear. assert (Hin : e * Q <= p < e * Q + Q) by lia.
    rewrite (pos_page_in F e p Hin), Hw; [lia|]. unfold pos_word. destruct (pos_in F e p Hin) as [_ ->].
    unfold CONTENT_WORD. lia.
  - intros j Hj Hjt. destruct (Nat.eq_dec j e) as [->|];
      [left; apply Hw; unfold INIT_WORD; lia|]. apply C2; lia.
  - intros j Hj. destruct (Nat.eq_dec j e) as [->|]; [apply Hw; unfold COMPACT_WORD; lia|]. apply C4; lia.
  - intros j Hj. destruct (Nat.eq_dec j e) as [->|]; [exact Her|]. apply C5; lia.
Qed.
Lemma lay_restrict f h e pre es : lay F f h (e + 1) pre es [] ERASED -> h < e ->
  h * Q + pre + plen es <= e * Q -> lay F f h e pre es [] ERASED.
Proof.
  intros L He Hf. destruct L as [B1 B2 B3 B4 B5 B6 B7 B8 B9 B10 B11 B12 B13 B14 B15 B16 C1 C2 C3 C4 C5].
  cbn [length] in *. rewrite Nat.add_0_r in *.
  split; cbn [length]; rewrite ?Nat.add_0_r; try assumption.
  - lia.
  - eapply blank_mono; [exact B10|lia|cbn [Nat.mul]; lia].
  - intros j Hj Hjt. apply B12; [lia|exact Hjt].
  - intros j Hj. lia.
  - intros j Hj. apply B14. lia.
  - intros j Hj. apply B16. lia.
  - intros p Hp. apply C1. cbn [Nat.mul]. lia.
  - intros j Hj. apply C2. lia.
  - intros j Hj. apply C4. lia.
  - intros j Hj. apply C5. lia.
Qed.
(** Changes to another page do not matter. *)
Lemma lay_other f f' h e pre es J c page : lay F f h e pre es J c -> fok f' ->
  (forall j, h <= j < e -> j mod NP <> page) ->
  (forall p x, p <> page -> f' p x = f p x) ->
  (forall p x, p <> page -> writes f' p x = writes f p x) ->
  (forall p, p <> page -> erases f' p = erases f p) -> lay F f' h e pre es J c.
Proof.
  intros L Hf Hp Hr Hw He. pose proof L as L0.
  destruct L as [B1 B2 B3 B4 B5 B6 B7 B8 B9 B10 B11 B12 B13 B14 B15 B16 C1 C2 C3 C4 C5].
  assert (PG : forall p, h * Q <= p < e * Q -> pos_page F p <> page).
  { intros p Hq. destruct (pos_ex F G p) as [j Hj].
    rewrite (pos_page_in F j p Hj). apply Hp.
    split; [apply Nat.lt_succ_r; apply (mul_lt_inv F G); cbn [Nat.mul]; lia|].
    apply (mul_lt_inv F G). lia. }
  assert (RD : forall p, h * Q <= p < e * Q -> read_word F f' p = read_word F f p).
  { intros p Hq. apply Hr, PG, Hq. }
  assert (VI : forall j, h <= j < e -> vini F f' j = vini F f j) by (intros j Hj; apply Hr, Hp, Hj).
  assert (VC : forall j, h <= j < e -> vcmp F f' j = vcmp F f j) by (intros j Hj; apply Hr, Hp, Hj).
  split; try assumption.
  - intros i Hi. rewrite RD; [apply B6, Hi|]. rewrite app_length in Hi. fold (plen es) in Hi. lia.
  - intros p Hq. rewrite RD by lia. apply B10, Hq.
  - rewrite VI by lia. exact B11.
  - intros j Hj Hjt. rewrite VI by lia. apply B12; assumption.
  - intros j Hj Hjt. rewrite VI by lia. apply B13; assumption.
  - intros j Hj Hjt. rewrite VI by lia. apply B14; assumption.
  - rewrite VC by lia. exact B15.
  - intros j Hj. rewrite VC by lia. apply B16; assumption.
  - intros p Hq. rewrite RD by exact Hq.
    replace (read_wear F f' p) with (read_wear F f p) by (symmetry; apply Hw, PG, Hq). apply C1, Hq.
  - intros j Hj Hjt. rewrite VI by lia. rewrite Hw by (apply Hp; lia). apply C2; assumption.
  - rewrite Hw by (apply Hp; lia). exact C3.
  - intros j Hj. rewrite Hw by (apply Hp; lia). apply C4, Hj.
  - intros j Hj. rewrite He by (apply Hp; lia). apply C5, Hj.
Qed.

(** Words before the first entry do not matter. *)
Lemma lay_prefix f f' h e pre es c : lay F f h e pre es [] c -> fok f' -> hdr_same f f' ->
  (forall p, h * Q + pre <= p < e * Q ->
     read_word F f' p = read_word F f p /\ read_wear F f' p = read_wear F f p) ->
  (forall p, h * Q <= p < h * Q + pre -> read_wear F f' p <= budget (read_word F f' p)) ->
  lay F f' h e pre es [] c.
Proof.
  intros L Hf Hh Hr Hw.
  assert (EI : forall j, vini F f' j = vini F f j) by (intros j; apply (Hh (j mod NP))).
  assert (EC : forall j, vcmp F f' j = vcmp F f j) by (intros j; apply (Hh (j mod NP))).
  destruct L as [B1 B2 B3 B4 B5 B6 B7 B8 B9 B10 B11 B12 B13 B14 B15 B16 C1 C2 C3 C4 C5].
  cbn [length] in *. rewrite Nat.add_0_r in *.
  split; cbn [length]; rewrite ?Nat.add_0_r; try assumption.
  - intros i Hi. destruct (Hr (h * Q + pre + i)) as [-> _]; [|apply B6, Hi].
    rewrite app_nil_r in Hi. fold (plen es) in Hi. lia.
  - intros p Hp. destruct (Hr p) as [-> _]; [lia|]. apply B10, Hp.
  - rewrite EI. exact B11.
  - intros j Hj Hjt. rewrite EI. apply B12; assumption.
  - intros j Hj Hjt. lia.
  - intros j Hj Hjt. rewrite EI. apply B14; assumption.
  - rewrite EC. exact B15.
  - intros j Hj. rewrite EC. apply B16, Hj.
  - intros p Hp. destruct (Nat.lt_ge_cases p (h * Q + pre)) as [L|L]; [left; apply Hw; lia|].
    destruct (Hr p) as [-> ->]; [lia|]. apply C1, Hp.
  - intros j Hj Hjt. destruct (Hh (j mod NP)) as (_ & _ & -> & _). rewrite EI. apply C2; assumption.
  - destruct (Hh (h mod NP)) as (_ & _ & _ & -> & _). exact C3.
  - intros j Hj. destruct (Hh (j mod NP)) as (_ & _ & _ & -> & _). apply C4, Hj.
  - intros j Hj. destruct (Hh (j mod NP)) as (_ & _ & _ & _ & ->). apply C5, Hj.
Qed.
Lemma oldi_older f h : oldi f h -> fok f -> h < EN * NP -> older F f (h + 1) (h + NP).
Proof.
  intros [(b & Hb & S) _] Hf Hl j H1 H2. assert (j = h) by lia. subst j.
  destruct (iword_facts F G h h b) as (_ & _ & _ & P1 & P2); [lia|pose proof (g_N F G); lia|lia|].
  unfold parse_init. fold (vini F f h).
  destruct (N.eq_dec (vini F f h) (iword F h b)) as [E|E].
  - right. right. exists (b - h * Q). rewrite E. split; [lia|exact P1].
  - destruct (P2 (vini F f h) (Hf _ _) S E) as [->| ->]; auto.
Qed.
Lemma gapof_plen h pre es : pre <= MP ->
  h * Q + pre + plen (es ++ gapof h pre es) = Nat.max (h * Q + pre + plen es) ((h + 1) * Q) /\
  live_len (gapof h pre es) = 0 /\ Forall (eok F) (gapof h pre es).
Proof.
  intros Hp. pose proof (g_M F G). unfold gapof.
  destruct (h * Q + pre + plen es <? (h + 1) * Q) eqn:E.
  - apply Nat.ltb_lt in E. rewrite plen_app, plen_one. unfold elen. cbn [ewords]. rewrite repeat_length.
    split; [lia|]. split; [reflexivity|]. constructor; [|constructor]. cbn [eok]. lia.
  - apply Nat.ltb_ge in E. rewrite app_nil_r. split; [lia|]. split; [reflexivity|constructor].
Qed.
Lemma gapof_nil h pre es : gapof h pre es = [] \/
  (h * Q + pre + plen es < (h + 1) * Q /\ exists n, gapof h pre es = [Gap n]).
Proof.
  unfold gapof. destruct (h * Q + pre + plen es <? (h + 1) * Q) eqn:E; [right|left; reflexivity].
  apply Nat.ltb_lt in E. eauto.
Qed.

End SHAPES.
