(** Executions of the store: results, and what holds at every interruption. *)
From Verif Require Import Base Facts.
From Verif.Kv Require Import Model.
From Verif.Store Require Import Format Bits Words Geom Model.
Open Scope nat_scope.
Ltac Zify.zify_post_hook ::= idtac.

Section WP.
Variable F : format.
Hypothesis G : wff F.
Notation Q := (virt_page_size F).
Notation NP := (num_pages F).

(** All words have 32 bits. *)
Definition fok (f : flash) : Prop := forall p x, w32 (f p x).

(** An action respects the flash: it stays within a page, where also an empty write starts, and only clears
    bits. *)
Definition legal (f : flash) (a : action) : Prop :=
  match a with
  | AWrite page word ws =>
      page < NP /\ word + Nat.max 1 (length ws) <= Q + 2 /\
      (forall i, i < length ws -> sub (nth i ws 0%N) (f page (word + i))) /\
      (forall i, i < length ws -> f page (word + i) <> nth i ws 0%N ->
         writes f page (word + i) < 2)
  | AErase page => page < NP /\ erases f page < max_page_erases F
  end.

(** The actions of a log, done one after the other, lead from one storage to another; all are
    legal, and every interruption of one of them leads to a storage in [R]. *)
Inductive trace (R : flash -> Prop) : flash -> log -> flash -> Prop :=
| trace_nil f : trace R f [] f
| trace_cons f a l f1 : legal f a -> (forall f', interrupted F f a f' -> R f') ->
    trace R (do_action f a) l f1 -> trace R f ((f, a) :: l) f1.
Lemma trace_app R f l f1 l' f2 : trace R f l f1 -> trace R f1 l' f2 -> trace R f (l ++ l') f2.
Proof. induction 1; intros T; [exact T|]. cbn [app]. constructor; auto. Qed.
Lemma trace_in R f l f1 f0 a : trace R f l f1 -> In (f0, a) l ->
  legal f0 a /\ forall f', interrupted F f0 a f' -> R f'.
Proof. induction 1; intros Hi; [destruct Hi|]. destruct Hi as [E|Hi]; [injection E as <- <-; auto|auto]. Qed.

(** [wp R m s P]: all actions of [m] from [s] are legal, every interruption of one of them leads to
    a storage in [R], and the result and final state satisfy [P]. *)
Definition wp {A} (R : flash -> Prop) (m : M A) (s : st) (P : res store_error A -> st -> Prop)
  : Prop :=
  match m s with
  | (r, s', l) =>
      trace R (fl s) l (fl s') /\ P r s'
  end.

Lemma wp_weaken {A} (R R' : flash -> Prop) (m : M A) s (P P' : _ -> _ -> Prop) :
  wp R m s P -> (forall f, R f -> R' f) -> (forall r s', P r s' -> P' r s') -> wp R' m s P'.
Proof.
  unfold wp. destruct (m s) as [[r s'] l]. intros [H1 H2] HR HP. split; [|auto].
  induction H1; constructor; auto.
Qed.
Lemma wp_post {A} (R : flash -> Prop) (m : M A) s (P P' : _ -> _ -> Prop) :
  wp R m s P -> (forall r s', P r s' -> P' r s') -> wp R m s P'.
Proof. intros H HP. eapply wp_weaken; eauto. Qed.
Lemma wp_ret {A} R (a : A) s (P : _ -> _ -> Prop) : P (Ok a) s -> wp R (ret a) s P.
Proof. intros H. split; [constructor|exact H]. Qed.
Lemma wp_fail {A} R e s (P : res store_error A -> _ -> Prop) : P (Err e) s -> wp R (fail e) s P.
Proof. intros H. split; [constructor|exact H]. Qed.
Lemma wp_lift {A} R (r : res store_error A) s (P : _ -> _ -> Prop) : P r s -> wp R (lift r) s P.
Proof. intros H. split; [constructor|exact H]. Qed.
Lemma wp_reads {A} R (g : flash -> res store_error A) s (P : _ -> _ -> Prop) :
  P (g (fl s)) s -> wp R (reads g) s P.
Proof. intros H. split; [constructor|exact H]. Qed.
Lemma wp_bind {A B} R (m : M A) (k : A -> M B) s (P : _ -> _ -> Prop) :
  wp R m s (fun r s' => match r with
                        | Ok a => wp R (k a) s' P
                        | Err e => P (Err e) s'
                        end) ->
  wp R (bind m k) s P.
Proof.
  unfold wp, bind. destruct (m s) as [[[a|e] s1] l1]; cbn beta iota; [|auto].
  intros [H1 H2]. destruct (k a s1) as [[r s2] l2]. destruct H2 as [H2 H3].
  split; [eapply trace_app; eassumption|exact H3].
Qed.
Lemma wp_bind_ok {A B} R (m : M A) (k : A -> M B) s (P : _ -> _ -> Prop) (Mid : A -> st -> Prop) :
  wp R m s (fun r s' => exists a, r = Ok a /\ Mid a s') ->
  (forall a s', Mid a s' -> wp R (k a) s' P) ->
  wp R (bind m k) s P.
Proof.
  intros H1 H2. apply wp_bind. eapply wp_post; [exact H1|].
  intros r s' (a & -> & Hm). apply H2, Hm.
Qed.
Lemma wp_bind_lift {A B} R (r : res store_error A) (a : A) (k : A -> M B) s (P : _ -> _ -> Prop) :
  r = Ok a -> wp R (k a) s P -> wp R (bind (lift r) k) s P.
Proof. intros -> H. apply wp_bind, wp_lift, H. Qed.
Lemma wp_bind_reads {A B} R (g : flash -> res store_error A) (a : A) (k : A -> M B) s
  (P : _ -> _ -> Prop) :
  g (fl s) = Ok a -> wp R (k a) s P -> wp R (bind (reads g) k) s P.
Proof. intros E H. apply wp_bind, wp_reads. rewrite E. exact H. Qed.
Lemma wp_bind_ret {A B} R (a : A) (k : A -> M B) s (P : _ -> _ -> Prop) :
  wp R (k a) s P -> wp R (bind (ret a) k) s P.
Proof. intros H. apply wp_bind, wp_ret, H. Qed.
Lemma wp_the_head {B} R h (k : nat -> M B) s (P : _ -> _ -> Prop) :
  st_head s = Some h -> wp R (k h) s P -> wp R (bind the_head k) s P.
Proof. intros E H. apply wp_bind. split; [constructor|]. cbn. rewrite E. exact H. Qed.
Lemma wp_the_ents {B} R (k : option (list nat) -> M B) s (P : _ -> _ -> Prop) :
  wp R (k (st_ents s)) s P -> wp R (bind the_ents k) s P.
Proof. intros H. apply wp_bind. split; [constructor|]. exact H. Qed.
Lemma wp_put_head {B} R h (k : unit -> M B) s (P : _ -> _ -> Prop) :
  wp R (k tt) (set_head s h) P -> wp R (bind (put_head h) k) s P.
Proof. intros H. apply wp_bind. split; [constructor|]. exact H. Qed.
Lemma wp_put_ents {B} R l (k : unit -> M B) s (P : _ -> _ -> Prop) :
  wp R (k tt) (set_ents s l) P -> wp R (bind (put_ents l) k) s P.
Proof. intros H. apply wp_bind. split; [constructor|]. exact H. Qed.
Lemma wp_bind_assoc {A B C} R (m : M A) (k : A -> M B) (k' : B -> M C) s (P : _ -> _ -> Prop) :
  wp R (bind m (fun a => bind (k a) k')) s P -> wp R (bind (bind m k) k') s P.
Proof.
  unfold wp, bind. destruct (m s) as [[[a|e] s1] l1]; [|auto].
  destruct (k a s1) as [[[b|e] s2] l2]; [|auto].
  destruct (k' b s2) as [[r s3] l3]. rewrite app_assoc. auto.
Qed.

(* ------------------------------------------------------------------ words *)

Lemma byte_bit w i n : (n < 8)%N ->
  N.testbit ((w / 2 ^ i) mod 256) n = N.testbit w (n + i).
Proof.
  intros Hn. change 256%N with (2 ^ 8)%N. rewrite N.mod_pow2_bits_low by exact Hn.
  rewrite N.div_pow2_bits. reflexivity.
Qed.
Lemma byte_sub a b i : sub b a ->
  N.land ((a / 2 ^ i) mod 256) ((b / 2 ^ i) mod 256) = ((b / 2 ^ i) mod 256)%N.
Proof.
  intros H. rewrite N.land_comm. apply sub_land. intros n Hn.
  destruct (N.lt_ge_cases n 8) as [L|L].
  - rewrite byte_bit in * by exact L. apply H, Hn.
  - change 256%N with (2 ^ 8)%N in Hn. rewrite N.mod_pow2_bits_high in Hn by exact L. discriminate.
Qed.
Lemma write_needed_spec a b : w32 a -> w32 b -> sub b a ->
  write_needed (word_bytes a) (word_bytes b) = Ok (negb (a =? b)%N).
Proof.
  intros Ha Hb H. unfold word_bytes. cbn [write_needed].
  pose proof (byte_sub a b 0 H) as B0. pose proof (byte_sub a b 8 H) as B1.
  pose proof (byte_sub a b 16 H) as B2. pose proof (byte_sub a b 24 H) as B3.
  change (2 ^ 0)%N with 1%N in B0. change (2 ^ 8)%N with 256%N in B1.
  change (2 ^ 16)%N with 65536%N in B2. change (2 ^ 24)%N with 16777216%N in B3.
  rewrite !N.div_1_r in B0. rewrite B0, B1, B2, B3, !N.eqb_refl. cbn [negb].
  pose proof (word_bytes_of a Ha) as Wa. pose proof (word_bytes_of b Hb) as Wb.
  destruct (a mod 256 =? b mod 256)%N eqn:E0; cbn [negb].
  2:{ destruct (a =? b)%N eqn:E; [|reflexivity]. apply N.eqb_eq in E. subst b.
      rewrite N.eqb_refl in E0. discriminate. }
  destruct (a / 256 mod 256 =? b / 256 mod 256)%N eqn:E1; cbn [negb].
  2:{ destruct (a =? b)%N eqn:E; [|reflexivity]. apply N.eqb_eq in E. subst b.
      rewrite N.eqb_refl in E1. discriminate. }
  destruct (a / 65536 mod 256 =? b / 65536 mod 256)%N eqn:E2; cbn [negb].
  2:{ destruct (a =? b)%N eqn:E; [|reflexivity]. apply N.eqb_eq in E. subst b.
      rewrite N.eqb_refl in E2. discriminate. }
  destruct (a / 16777216 mod 256 =? b / 16777216 mod 256)%N eqn:E3; cbn [negb].
  2:{ destruct (a =? b)%N eqn:E; [|reflexivity]. apply N.eqb_eq in E. subst b.
      rewrite N.eqb_refl in E3. discriminate. }
  apply N.eqb_eq in E0, E1, E2, E3. rewrite E0, E1, E2, E3 in Wa. rewrite Wb in Wa. subst b.
  rewrite N.eqb_refl. reflexivity.
Qed.

(** Words while they are being cleared to [new]. *)
Definition btw (old new w : N) : Prop := sub new w /\ sub w old.
Lemma btw_old old new : sub new old -> btw old new old.
Proof. intros H. split; [exact H|apply sub_refl]. Qed.
Lemma btw_new old new : sub new old -> btw old new new.
Proof. intros H. split; [apply sub_refl|exact H]. Qed.
Lemma btw_w32 old new w : w32 old -> btw old new w -> w32 w.
Proof. intros H [_ S]. eapply w32_sub; eauto. Qed.

Definition in_range (word n x : nat) : bool := (word <=? x) && (x <? word + n).
Lemma in_range_spec word n x : in_range word n x = true <-> word <= x < word + n.
Proof. unfold in_range. rewrite andb_true_iff, Nat.leb_le, Nat.ltb_lt. reflexivity. Qed.
Lemma in_range_false word n x : in_range word n x = false <-> x < word \/ word + n <= x.
Proof.
  unfold in_range. rewrite andb_false_iff, Nat.leb_gt, Nat.ltb_ge. reflexivity.
Qed.

Lemma skip_written_spec f page ws : forall word,
  fok f -> Forall w32 ws ->
  (forall i, i < length ws -> sub (nth i ws 0%N) (f page (word + i))) ->
  (skip_written f page word ws = Ok None /\
   forall i, i < length ws -> f page (word + i) = nth i ws 0%N) \/
  (exists d, d < length ws /\ skip_written f page word ws = Ok (Some (word + d, skipn d ws)) /\
   forall i, i < d -> f page (word + i) = nth i ws 0%N).
Proof.
  induction ws as [|w ws IH]; intros word Hf Hw H.
  - left. split; [reflexivity|]. cbn. lia.
  - inversion_clear Hw as [|? ? W1 W2]. cbn [skip_written].
    assert (S0 : sub w (f page word)).
    { specialize (H 0). rewrite Nat.add_0_r in H. apply H. cbn. lia. }
    rewrite (write_needed_spec _ _ (Hf page word) W1 S0). cbn [rbind].
    destruct (f page word =? w)%N eqn:E; cbn [negb].
    + apply N.eqb_eq in E.
      destruct (IH (S word) Hf W2) as [[E1 E2]|(d & D1 & D2 & D3)].
      * intros i Hi. specialize (H (S i)). rewrite Nat.add_succ_r in H. apply H. cbn. lia.
      * left. split; [exact E1|]. intros [|i] Hi; [rewrite Nat.add_0_r; exact E|].
        rewrite Nat.add_succ_r. apply E2. cbn in Hi. lia.
      * right. exists (S d). split; [cbn; lia|]. split.
        -- rewrite D2. rewrite Nat.add_succ_r. reflexivity.
        -- intros [|i] Hi; [rewrite Nat.add_0_r; exact E|].
           rewrite Nat.add_succ_r. apply D3. lia.
    + right. exists 0. rewrite Nat.add_0_r. split; [cbn; lia|]. split; [reflexivity|lia].
Qed.

Lemma nth_skipn {A} d i (l : list A) x : nth i (skipn d l) x = nth (d + i) l x.
Proof.
  revert l. induction d as [|d IH]; intros l; [reflexivity|].
  destruct l as [|y l]; [destruct i; reflexivity|]. apply IH.
Qed.
Lemma nth_firstn {A} d i (l : list A) x : i < d -> nth i (firstn d l) x = nth i l x.
Proof.
  revert i l. induction d as [|d IH]; intros i l H; [lia|].
  destruct l as [|y l]; [reflexivity|]. destruct i as [|i]; [reflexivity|].
  cbn [firstn nth]. apply IH. lia.
Qed.

Lemma Forall_firstn {A} (P : A -> Prop) n l : Forall P l -> Forall P (firstn n l).
Proof.
  revert l. induction n as [|n IH]; intros l H; [constructor|].
  destruct H; [constructor|]. constructor; auto.
Qed.
Lemma Forall_skipn {A} (P : A -> Prop) n l : Forall P l -> Forall P (skipn n l).
Proof.
  revert l. induction n as [|n IH]; intros l H; [exact H|].
  destruct H; [constructor|]. apply IH. assumption.
Qed.

(** The counters after a write, complete or not. *)
Definition wears (page word : nat) (ws : list N) (f f' : flash) : Prop :=
  (forall p, erases f' p = erases f p) /\
  (forall p x, writes f' p x =
     if (p =? page) && in_range word (length ws) x &&
        ((f' p x =? nth (x - word) ws 0)%N && negb (f p x =? nth (x - word) ws 0)%N)
     then S (writes f p x) else writes f p x).

(** An interrupted write leaves words in between. *)
Lemma interrupted_write (f : flash) page word ws f' :
  (forall i, i < length ws -> sub (nth i ws 0%N) (f page (word + i))) ->
  interrupted F f (AWrite page word ws) f' ->
  forall p x,
    if (p =? page) && in_range word (length ws) x
    then btw (f p x) (nth (x - word) ws 0%N) (f' p x)
    else f' p x = f p x.
Proof.
  intros L [H _] p x. unfold do_action, act_cells in H. cbn beta iota in H. cbn [cells] in H.
  fold (in_range word (length ws) x).
  destruct ((p =? page) && in_range word (length ws) x) eqn:E.
  - pose proof E as E'. apply andb_true_iff in E as [E1 E2]. apply Nat.eqb_eq in E1. subst p.
    apply in_range_spec in E2.
    assert (S : sub (nth (x - word) ws 0%N) (f page x)).
    { specialize (L (x - word)). replace (word + (x - word)) with x in L by lia. apply L. lia. }
    split.
    + intros i Hi. destruct (H page x i) as [B|B]; rewrite B.
      * apply S, Hi.
      * unfold in_range in E'. rewrite E'. rewrite N.land_spec, Hi, (S i Hi). reflexivity.
    + intros i Hi. destruct (H page x i) as [B|B]; rewrite B in Hi; [exact Hi|].
      unfold in_range in E'. rewrite E' in Hi. rewrite N.land_spec in Hi.
      apply andb_true_iff in Hi as [Hi _]. exact Hi.
  - apply N.bits_inj. intros i. unfold in_range in E.
    destruct (H p x i) as [B|B]; [exact B|]. rewrite E in B. exact B.
Qed.

Lemma act_write (f : flash) page word ws p x :
  (forall i, i < length ws -> sub (nth i ws 0%N) (f page (word + i))) ->
  act_cells f (AWrite page word ws) p x =
  if (p =? page) && in_range word (length ws) x then nth (x - word) ws 0%N else f p x.
Proof.
  intros L. cbn [act_cells]. fold (in_range word (length ws) x).
  destruct ((p =? page) && in_range word (length ws) x) eqn:E; [|reflexivity].
  apply andb_true_iff in E as [E1 E2]. apply Nat.eqb_eq in E1. subst p.
  apply in_range_spec in E2. rewrite N.land_comm. apply sub_land.
  specialize (L (x - word)). replace (word + (x - word)) with x in L by lia. apply L. lia.
Qed.
Lemma wears_interrupted (f : flash) page word ws f' :
  (forall i, i < length ws -> sub (nth i ws 0%N) (f page (word + i))) ->
  interrupted F f (AWrite page word ws) f' -> wears page word ws f f'.
Proof.
  intros L [_ [H1 H2]]. split; [exact H2|]. intros p x. rewrite H1.
  cbn [cells writes do_action]. rewrite (act_write f page word ws p x L).
  destruct ((p =? page) && in_range word (length ws) x); cbn [andb].
  - destruct (f' p x =? nth (x - word) ws 0)%N; cbn [andb]; [|reflexivity].
    rewrite (N.eqb_sym (nth (x - word) ws 0%N)). destruct (_ =? _)%N; reflexivity.
  - rewrite N.eqb_refl. destruct (_ =? _)%N; reflexivity.
Qed.
Lemma wears_done (f : flash) page word ws :
  (forall i, i < length ws -> sub (nth i ws 0%N) (f page (word + i))) ->
  wears page word ws f (do_action f (AWrite page word ws)).
Proof.
  intros L. split; [reflexivity|]. intros p x. cbn [cells writes do_action].
  rewrite (act_write f page word ws p x L).
  destruct ((p =? page) && in_range word (length ws) x); cbn [andb].
  - rewrite N.eqb_refl. cbn [andb]. rewrite (N.eqb_sym (nth (x - word) ws 0%N)).
    destruct (_ =? _)%N; reflexivity.
  - rewrite N.eqb_refl. reflexivity.
Qed.
(** Words skipped because they are already written do not matter. *)
Lemma wears_skip (f f' : flash) page word ws d : d <= length ws ->
  (forall i, i < d -> f page (word + i) = nth i ws 0%N) ->
  wears page (word + d) (skipn d ws) f f' -> wears page word ws f f'.
Proof.
  intros Hd D3 [W1 W2]. split; [exact W1|]. intros p x. rewrite W2.
  assert (Ls : length (skipn d ws) = length ws - d) by apply skipn_length. rewrite Ls.
  destruct (p =? page) eqn:Ep; cbn [andb]; [|reflexivity]. apply Nat.eqb_eq in Ep. subst p.
  destruct (in_range word (length ws) x) eqn:Er.
  - apply in_range_spec in Er. destruct (in_range (word + d) (length ws - d) x) eqn:Er'.
    + apply in_range_spec in Er'. rewrite nth_skipn.
      replace (d + (x - (word + d))) with (x - word) by lia. reflexivity.
    + apply in_range_false in Er'. specialize (D3 (x - word)).
      replace (word + (x - word)) with x in D3 by lia. rewrite <- D3 by lia.
      rewrite (N.eqb_refl (f page x)). cbn [negb andb]. rewrite andb_false_r. reflexivity.
  - apply in_range_false in Er. destruct (in_range (word + d) (length ws - d) x) eqn:Er'; [|reflexivity].
    apply in_range_spec in Er'. lia.
Qed.
Lemma wears_same (f : flash) page word ws : wears page word ws f f <->
  forall p x, (p =? page) && in_range word (length ws) x &&
        ((f p x =? nth (x - word) ws 0)%N && negb (f p x =? nth (x - word) ws 0)%N) = false.
Proof.
  split.
  - intros [_ H] p x. specialize (H p x). destruct (_ && _); [lia|reflexivity].
  - intros H. split; [reflexivity|]. intros p x. rewrite H. reflexivity.
Qed.

Lemma set_fl_same s : set_fl s (fl s) = s.
Proof. destruct s. reflexivity. Qed.

Lemma wp_storage_write (R : flash -> Prop) page word ws s (P : res store_error unit -> st -> Prop) :
  fok (fl s) -> Forall w32 ws -> page < NP -> word + length ws <= Q + 2 ->
  (forall i, i < length ws -> sub (nth i ws 0%N) (fl s page (word + i))) ->
  (forall i, i < length ws -> fl s page (word + i) <> nth i ws 0%N ->
     writes (fl s) page (word + i) < 2) ->
  (forall f', fok f' -> wears page word ws (fl s) f' ->
     (forall p x, if (p =? page) && in_range word (length ws) x
                  then btw (fl s p x) (nth (x - word) ws 0%N) (f' p x)
                  else f' p x = fl s p x) -> R f') ->
  (forall f', fok f' -> wears page word ws (fl s) f' ->
     (forall p x, f' p x = if (p =? page) && in_range word (length ws) x
                           then nth (x - word) ws 0%N else fl s p x) ->
     P (Ok tt) (set_fl s f')) ->
  wp R (storage_write page word ws) s P.
Proof.
  intros Hf Hw Hp Hx Hs Hc HR HP. unfold wp, storage_write.
  destruct (skip_written_spec (fl s) page ws word Hf Hw Hs) as [[E1 E2]|(d & D1 & D2 & D3)].
  - rewrite E1. split; [constructor|]. rewrite <- (set_fl_same s). apply HP; [exact Hf| |].
    { apply wears_same. intros p x. destruct (_ =? nth (x - word) ws 0)%N; cbn [negb andb];
        apply andb_false_r. }
    intros p x. destruct ((p =? page) && in_range word (length ws) x) eqn:E; [|reflexivity].
    apply andb_true_iff in E as [E3 E4]. apply Nat.eqb_eq in E3. subst p.
    apply in_range_spec in E4. specialize (E2 (x - word)).
    replace (word + (x - word)) with x in E2 by lia. apply E2. lia.
  - rewrite D2.
    assert (Ls : length (skipn d ws) = length ws - d) by apply skipn_length.
    assert (Lg : forall i, i < length (skipn d ws) ->
              sub (nth i (skipn d ws) 0%N) (fl s page (word + d + i))).
    { intros i Hi. rewrite nth_skipn. rewrite <- Nat.add_assoc. apply Hs. lia. }
    split.
    + constructor; [| |constructor].
      * split; [exact Hp|]. split; [lia|]. split; [exact Lg|].
        intros i Hi. rewrite nth_skipn. rewrite <- Nat.add_assoc. apply Hc. lia.
      * intros f' I. pose proof (interrupted_write _ _ _ _ _ Lg I) as B.
        assert (B' : forall p x, if (p =? page) && in_range word (length ws) x
                       then btw (fl s p x) (nth (x - word) ws 0%N) (f' p x)
                       else f' p x = fl s p x).
        { intros p x. specialize (B p x). destruct (p =? page) eqn:Ep; cbn [andb] in *; [|exact B].
          apply Nat.eqb_eq in Ep. subst p.
          destruct (in_range word (length ws) x) eqn:Er.
          - apply in_range_spec in Er.
            destruct (in_range (word + d) (length (skipn d ws)) x) eqn:Er'.
            + apply in_range_spec in Er'. rewrite nth_skipn in B.
              replace (d + (x - (word + d))) with (x - word) in B by lia. exact B.
            + apply in_range_false in Er'. rewrite B.
              specialize (D3 (x - word)). replace (word + (x - word)) with x in D3 by lia.
              rewrite D3 by lia. split; apply sub_refl.
          - apply in_range_false in Er.
            destruct (in_range (word + d) (length (skipn d ws)) x) eqn:Er'; [|exact B].
            apply in_range_spec in Er'. lia. }
        pose proof (wears_skip _ _ _ _ ws d (Nat.lt_le_incl _ _ D1) D3 (wears_interrupted _ _ _ _ _ Lg I)) as C.
        apply HR; [|exact C|exact B'].
        intros p x. specialize (B' p x). destruct (_ && _).
        -- eapply btw_w32; [apply Hf|exact B'].
        -- rewrite B'. apply Hf.
    + apply HP.
      * intros p x. cbn. destruct (_ && _); [|apply Hf]. apply w32_land, Hf.
      * apply (wears_skip _ _ _ _ ws d (Nat.lt_le_incl _ _ D1) D3). apply wears_done, Lg.
      * intros p x. cbn [cells do_action act_cells]. fold (in_range (word + d) (length (skipn d ws)) x).
        destruct (p =? page) eqn:Ep; cbn [andb]; [|reflexivity].
        apply Nat.eqb_eq in Ep. subst p.
        destruct (in_range word (length ws) x) eqn:Er.
        -- apply in_range_spec in Er.
           destruct (in_range (word + d) (length (skipn d ws)) x) eqn:Er'.
           ++ apply in_range_spec in Er'. rewrite nth_skipn.
              replace (d + (x - (word + d))) with (x - word) by lia.
              rewrite N.land_comm. apply sub_land.
              specialize (Hs (x - word)). replace (word + (x - word)) with x in Hs by lia.
              apply Hs. lia.
           ++ apply in_range_false in Er'. specialize (D3 (x - word)).
              replace (word + (x - word)) with x in D3 by lia. apply D3. lia.
        -- apply in_range_false in Er.
           destruct (in_range (word + d) (length (skipn d ws)) x) eqn:Er'; [|reflexivity].
           apply in_range_spec in Er'. lia.
Qed.

(* -------------------------------------------------- positions and slices *)

Lemma Q_pos : 0 < Q.
Proof. pose proof (g_Q F G). lia. Qed.
Lemma NP_pos : 0 < NP.
Proof. pose proof (g_N F G). lia. Qed.

Lemma div_add_small a i : a mod Q + i < Q -> (a + i) / Q = a / Q /\ (a + i) mod Q = a mod Q + i.
Proof.
  intros H. pose proof Q_pos. pose proof (Nat.div_mod a Q) as D. split.
  - symmetry. apply Nat.div_unique with (a mod Q + i); lia.
  - symmetry. apply Nat.mod_unique with (a / Q); lia.
Qed.
Lemma mul_div j i : i < Q -> (j * Q + i) / Q = j /\ (j * Q + i) mod Q = i.
Proof.
  intros H. split.
  - symmetry. apply Nat.div_unique with i; lia.
  - symmetry. apply Nat.mod_unique with j; lia.
Qed.
Lemma read_run f pos i : pos mod Q + i < Q ->
  read_word F f (pos + i) = f (pos_page F pos) (CONTENT_WORD + pos_word F pos + i).
Proof.
  intros H. unfold read_word, pos_page, pos_word.
  destruct (div_add_small pos i H) as [-> ->]. rewrite <- Nat.add_assoc. reflexivity.
Qed.
(** Two positions less than a whole storage apart which are stored in the same place are equal. *)
Lemma phys_inj a b : a < b + NP * Q -> b < a + NP * Q ->
  pos_page F a = pos_page F b -> pos_word F a = pos_word F b -> a = b.
Proof.
  intros H1 H2 Hp Hw.
  destruct (pos_parts F a G) as (Ea & Pa & Wa). destruct (pos_parts F b G) as (Eb & Pb & Wb).
  rewrite Hp, Hw in Ea. unfold position in Ea, Eb.
  destruct (Nat.lt_trichotomy (pos_cycle F a) (pos_cycle F b)) as [L|[E|L]].
  - exfalso. assert (S (pos_cycle F a) * NP <= pos_cycle F b * NP)
      by (apply Nat.mul_le_mono_r; lia).
    assert ((S (pos_cycle F a) * NP + pos_page F b) * Q <= (pos_cycle F b * NP + pos_page F b) * Q)
      by (apply Nat.mul_le_mono_r; lia).
    cbn [Nat.mul] in *. lia.
  - rewrite E in Ea. congruence.
  - exfalso. assert (S (pos_cycle F b) * NP <= pos_cycle F a * NP)
      by (apply Nat.mul_le_mono_r; lia).
    assert ((S (pos_cycle F b) * NP + pos_page F b) * Q <= (pos_cycle F a * NP + pos_page F b) * Q)
      by (apply Nat.mul_le_mono_r; lia).
    cbn [Nat.mul] in *. lia.
Qed.

(** The page headers are the same. *)
Definition hdr_same (f f' : flash) : Prop :=
  forall p, f' p INIT_WORD = f p INIT_WORD /\ f' p COMPACT_WORD = f p COMPACT_WORD /\
            writes f' p INIT_WORD = writes f p INIT_WORD /\
            writes f' p COMPACT_WORD = writes f p COMPACT_WORD /\ erases f' p = erases f p.
(** How often the word at a position was written. *)
Definition read_wear (f : flash) (pos : nat) : nat :=
  writes f (pos_page F pos) (CONTENT_WORD + pos_word F pos).
(** [near pos n p]: [p] is less than a whole storage away from all of [pos, pos + n). *)
Definition near (pos n p : nat) : Prop := p < pos + NP * Q /\ pos + n <= p + NP * Q.
(** The counters after writing a slice, completely or not. *)
Definition worn (pos : nat) (ws : list N) (f f' : flash) : Prop :=
  forall p, near pos (length ws) p ->
    read_wear f' p =
    if in_range pos (length ws) p &&
       ((read_word F f' p =? nth (p - pos) ws 0)%N && negb (read_word F f p =? nth (p - pos) ws 0)%N)
    then S (read_wear f p) else read_wear f p.
Definition wrote (pos : nat) (ws : list N) (f f' : flash) : Prop :=
  fok f' /\ hdr_same f f' /\ worn pos ws f f' /\
  forall p, near pos (length ws) p ->
    read_word F f' p = if in_range pos (length ws) p then nth (p - pos) ws 0%N
                       else read_word F f p.
Definition writing (pos : nat) (ws : list N) (f f' : flash) : Prop :=
  fok f' /\ hdr_same f f' /\ worn pos ws f f' /\
  forall p, near pos (length ws) p ->
    if in_range pos (length ws) p
    then btw (read_word F f p) (nth (p - pos) ws 0%N) (read_word F f' p)
    else read_word F f' p = read_word F f p.

Lemma run_hit pos n p : pos mod Q + n <= Q -> near pos n p ->
  (pos_page F p =? pos_page F pos) &&
    in_range (CONTENT_WORD + pos_word F pos) n (CONTENT_WORD + pos_word F p)
  = in_range pos n p.
Proof.
  intros Hn [N1 N2]. destruct (in_range pos n p) eqn:E.
  - apply in_range_spec in E. destruct (div_add_small pos (p - pos)) as [D1 D2]; [lia|].
    replace (pos + (p - pos)) with p in D1, D2 by lia.
    apply andb_true_iff. split.
    + apply Nat.eqb_eq. unfold pos_page. rewrite D1. reflexivity.
    + apply in_range_spec. unfold pos_word. rewrite D2. lia.
  - apply andb_false_iff.
    destruct (pos_page F p =? pos_page F pos) eqn:Ep; [right|left; reflexivity].
    apply Nat.eqb_eq in Ep. apply in_range_false. apply in_range_false in E.
    destruct (Nat.lt_ge_cases (CONTENT_WORD + pos_word F p) (CONTENT_WORD + pos_word F pos)) as [L|L];
      [left; exact L|right].
    destruct (Nat.lt_ge_cases (CONTENT_WORD + pos_word F p) (CONTENT_WORD + pos_word F pos + n))
      as [L'|L']; [|exact L'].
    exfalso. set (i := pos_word F p - pos_word F pos).
    assert (Hi : pos mod Q + i < Q) by (unfold i, pos_word in *; lia).
    destruct (div_add_small pos i Hi) as [D1 D2].
    assert (X : p = pos + i).
    { apply phys_inj.
      - unfold i, pos_word in *. lia.
      - unfold i, pos_word in *. lia.
      - rewrite Ep. unfold pos_page. rewrite D1. reflexivity.
      - unfold pos_word at 2. rewrite D2. unfold i, pos_word in *. lia. }
    unfold i in *. lia.
Qed.

Lemma read_wear_run f pos i : pos mod Q + i < Q ->
  read_wear f (pos + i) = writes f (pos_page F pos) (CONTENT_WORD + pos_word F pos + i).
Proof.
  intros H. unfold read_wear, pos_page, pos_word.
  destruct (div_add_small pos i H) as [-> ->]. rewrite <- Nat.add_assoc. reflexivity.
Qed.
Lemma wears_worn pos ws f f' : pos mod Q + length ws <= Q ->
  wears (pos_page F pos) (CONTENT_WORD + pos_word F pos) ws f f' -> worn pos ws f f'.
Proof.
  intros Hl [_ W] p Hp. unfold read_wear at 1. rewrite W, run_hit by assumption.
  destruct (in_range pos (length ws) p) eqn:E; [|reflexivity]. cbn [andb].
  apply in_range_spec in E. destruct (div_add_small pos (p - pos)) as [D1 D2]; [lia|].
  replace (pos + (p - pos)) with p in D1, D2 by lia.
  replace (CONTENT_WORD + pos_word F p - (CONTENT_WORD + pos_word F pos)) with (p - pos)
    by (unfold pos_word; rewrite D2; lia). reflexivity.
Qed.

(** A slice within a page. *)
Lemma wp_run (R : flash -> Prop) pos ws s (P : res store_error unit -> st -> Prop) :
  fok (fl s) -> Forall w32 ws -> pos mod Q + length ws <= Q ->
  (forall i, i < length ws -> sub (nth i ws 0%N) (read_word F (fl s) (pos + i))) ->
  (forall i, i < length ws -> read_word F (fl s) (pos + i) <> nth i ws 0%N ->
     read_wear (fl s) (pos + i) < 2) ->
  (forall f', writing pos ws (fl s) f' -> R f') ->
  (forall f', wrote pos ws (fl s) f' -> P (Ok tt) (set_fl s f')) ->
  wp R (storage_write (pos_page F pos) (CONTENT_WORD + pos_word F pos) ws) s P.
Proof.
  intros Hf Hw Hl Hs Hc HR HP. pose proof NP_pos as NPp.
  assert (NH : forall x, x < 2 -> in_range (CONTENT_WORD + pos_word F pos) (length ws) x = false).
  { intros x Hx. apply in_range_false. left. unfold CONTENT_WORD. lia. }
  apply wp_storage_write.
  - exact Hf.
  - exact Hw.
  - apply Nat.mod_upper_bound. lia.
  - unfold CONTENT_WORD, pos_word. lia.
  - intros i Hi. specialize (Hs i Hi). rewrite read_run in Hs by lia. exact Hs.
  - intros i Hi. specialize (Hc i Hi). rewrite read_run, read_wear_run in Hc by lia. exact Hc.
  - intros f' Hf' C H. apply HR. split; [exact Hf'|]. split; [|split; [apply wears_worn; assumption|]].
    + intros p. pose proof (H p INIT_WORD) as H0. pose proof (H p COMPACT_WORD) as H1.
      rewrite NH, andb_false_r in H0 by (unfold INIT_WORD; lia).
      rewrite NH, andb_false_r in H1 by (unfold COMPACT_WORD; lia).
      destruct C as [C1 C2]. pose proof (C2 p INIT_WORD) as C3. pose proof (C2 p COMPACT_WORD) as C4.
      rewrite NH, andb_false_r in C3 by (unfold INIT_WORD; lia).
      rewrite NH, andb_false_r in C4 by (unfold COMPACT_WORD; lia).
      rewrite C1. cbn [andb] in C3, C4. repeat split; assumption.
    + intros p Hp. specialize (H (pos_page F p) (CONTENT_WORD + pos_word F p)).
      rewrite run_hit in H by assumption. destruct (in_range pos (length ws) p) eqn:E; [|exact H].
      apply in_range_spec in E. destruct (div_add_small pos (p - pos)) as [D1 D2]; [lia|].
      replace (pos + (p - pos)) with p in D1, D2 by lia.
      replace (CONTENT_WORD + pos_word F p - (CONTENT_WORD + pos_word F pos)) with (p - pos) in H
        by (unfold pos_word; rewrite D2; lia). exact H.
  - intros f' Hf' C H. apply HP. split; [exact Hf'|]. split; [|split; [apply wears_worn; assumption|]].
    + intros p. pose proof (H p INIT_WORD) as H0. pose proof (H p COMPACT_WORD) as H1.
      rewrite NH, andb_false_r in H0 by (unfold INIT_WORD; lia).
      rewrite NH, andb_false_r in H1 by (unfold COMPACT_WORD; lia).
      destruct C as [C1 C2]. pose proof (C2 p INIT_WORD) as C3. pose proof (C2 p COMPACT_WORD) as C4.
      rewrite NH, andb_false_r in C3 by (unfold INIT_WORD; lia).
      rewrite NH, andb_false_r in C4 by (unfold COMPACT_WORD; lia).
      rewrite C1. cbn [andb] in C3, C4. repeat split; assumption.
    + intros p Hp. specialize (H (pos_page F p) (CONTENT_WORD + pos_word F p)).
      rewrite run_hit in H by assumption. unfold read_word at 1. rewrite H.
      destruct (in_range pos (length ws) p) eqn:E; [|reflexivity].
      apply in_range_spec in E. destruct (div_add_small pos (p - pos)) as [D1 D2]; [lia|].
      replace (pos + (p - pos)) with p in D1, D2 by lia. f_equal.
      unfold pos_word. rewrite D2. lia.
Qed.

Lemma next_page_spec pos : next_page F pos = pos + (Q - pos mod Q) /\ next_page F pos mod Q = 0.
Proof.
  pose proof Q_pos. unfold next_page.
  pose proof (Nat.div_mod pos Q) as D. pose proof (Nat.mod_upper_bound pos Q) as U. split.
  - rewrite Nat.mul_add_distr_r, Nat.mul_1_l. rewrite (Nat.mul_comm (pos / Q)). lia.
  - apply Nat.mod_mul. lia.
Qed.

(** A slice spanning at most two pages. *)
Lemma wp_write (R : flash -> Prop) pos ws s (P : res store_error unit -> st -> Prop) :
  fok (fl s) -> Forall w32 ws -> length ws <= Q ->
  (forall i, i < length ws -> sub (nth i ws 0%N) (read_word F (fl s) (pos + i))) ->
  (forall i, i < length ws -> read_word F (fl s) (pos + i) <> nth i ws 0%N ->
     read_wear (fl s) (pos + i) < 2) ->
  (forall f', writing pos ws (fl s) f' -> R f') ->
  (forall f', wrote pos ws (fl s) f' -> P (Ok tt) (set_fl s f')) ->
  wp R (write_slice F pos ws) s P.
Proof.
  intros Hf Hw Hl Hs Hc HR HP. pose proof Q_pos as Qp. pose proof (g_N F G) as HN.
  pose proof (Nat.mod_upper_bound pos Q) as U.
  assert (QN : 3 * Q <= NP * Q) by (apply Nat.mul_le_mono_r; lia).
  unfold write_slice. fold (pos_word F pos). set (m := Q - pos_word F pos).
  assert (Hm : m = Q - pos mod Q) by reflexivity.
  destruct (m <? length ws) eqn:E; [apply Nat.ltb_lt in E|apply Nat.ltb_ge in E].
  - replace (Nat.min (length ws) m) with m by lia.
    assert (L1 : length (firstn m ws) = m) by (rewrite firstn_length; lia).
    assert (L2 : length (skipn m ws) = length ws - m) by apply skipn_length.
    assert (W1 : Forall w32 (firstn m ws)) by (apply Forall_firstn; exact Hw).
    assert (W2 : Forall w32 (skipn m ws)) by (apply Forall_skipn; exact Hw).
    apply wp_bind. apply wp_run.
    + exact Hf.
    + exact W1.
    + lia.
    + intros i Hi. rewrite nth_firstn by lia. apply Hs. lia.
    + intros i Hi. rewrite nth_firstn by lia. apply Hc. lia.
    + intros f' (A1 & A2 & AW & A3). apply HR. split; [exact A1|]. split; [exact A2|].
      split.
      { intros p [Np1 Np2]. rewrite AW by (split; lia). rewrite L1.
        destruct (in_range pos (length ws) p) eqn:Er.
        - apply in_range_spec in Er. destruct (in_range pos m p) eqn:Er'.
          + apply in_range_spec in Er'. rewrite nth_firstn by lia. reflexivity.
          + cbn [andb]. rewrite L1 in A3. specialize (A3 p). rewrite Er' in A3.
            rewrite A3 by (split; lia). destruct (_ =? _)%N; reflexivity.
        - apply in_range_false in Er.
          destruct (in_range pos m p) eqn:Er'; [apply in_range_spec in Er'; lia|]. reflexivity. }
      intros p [Np1 Np2]. rewrite L1 in A3. specialize (A3 p).
      destruct (in_range pos (length ws) p) eqn:Er.
      * apply in_range_spec in Er.
        destruct (in_range pos m p) eqn:Er'.
        -- apply in_range_spec in Er'. rewrite nth_firstn in A3 by lia. apply A3. split; lia.
        -- rewrite A3 by (split; lia). apply btw_old. specialize (Hs (p - pos)).
           replace (pos + (p - pos)) with p in Hs by lia. apply Hs. lia.
      * apply in_range_false in Er.
        destruct (in_range pos m p) eqn:Er'; [apply in_range_spec in Er'; lia|].
        apply A3. split; lia.
    + intros f1 (A1 & A2 & AW & A3). rewrite L1 in A3. unfold worn in AW. rewrite L1 in AW.
      destruct (next_page_spec pos) as [Np Nm].
      assert (both : forall f',
        (forall p, near (pos + m) (length ws - m) p ->
           read_wear f' p =
           if in_range (pos + m) (length ws - m) p &&
              ((read_word F f' p =? nth (p - (pos + m)) (skipn m ws) 0)%N &&
               negb (read_word F f1 p =? nth (p - (pos + m)) (skipn m ws) 0)%N)
           then S (read_wear f1 p) else read_wear f1 p) ->
        (forall p, near (pos + m) (length ws - m) p ->
           in_range (pos + m) (length ws - m) p = false -> read_word F f' p = read_word F f1 p) ->
        worn pos ws (fl s) f').
      { intros f' BW B3 p [Np1 Np2]. rewrite BW by (split; lia). specialize (B3 p).
        rewrite AW, A3 by (split; lia).
        destruct (in_range pos (length ws) p) eqn:Er.
        - apply in_range_spec in Er.
          destruct (in_range (pos + m) (length ws - m) p) eqn:Er'.
          + apply in_range_spec in Er'. rewrite nth_skipn.
            replace (m + (p - (pos + m))) with (p - pos) by lia.
            replace (in_range pos m p) with false by (symmetry; apply in_range_false; lia).
            reflexivity.
          + apply in_range_false in Er'. rewrite B3 by (try split; lia).
            rewrite A3 by (split; lia).
            replace (in_range pos m p) with true by (symmetry; apply in_range_spec; lia).
            cbn [andb]. rewrite nth_firstn by lia. reflexivity.
        - apply in_range_false in Er.
          replace (in_range pos m p) with false by (symmetry; apply in_range_false; lia).
          replace (in_range (pos + m) (length ws - m) p) with false
            by (symmetry; apply in_range_false; lia). reflexivity. }
      replace (pos_page F (next_page F pos)) with (pos_page F (next_page F pos)) by reflexivity.
      apply wp_run.
      * exact A1.
      * exact W2.
      * lia.
      * intros i Hi. cbn [fl set_fl]. rewrite nth_skipn. rewrite Np, <- Hm.
        rewrite <- Nat.add_assoc. rewrite A3 by (split; lia).
        replace (in_range pos m (pos + (m + i))) with false
          by (symmetry; apply in_range_false; lia).
        apply Hs. lia.
      * intros i Hi. cbn [fl set_fl]. rewrite nth_skipn. rewrite Np, <- Hm.
        rewrite <- Nat.add_assoc. rewrite A3, AW by (split; lia).
        replace (in_range pos m (pos + (m + i))) with false
          by (symmetry; apply in_range_false; lia).
        apply Hc. lia.
      * cbn [fl set_fl]. intros f' (B1 & B2 & BW & B3). rewrite L2, Np, <- Hm in B3.
        apply HR. split; [exact B1|]. split; [|split; [unfold worn in BW; rewrite Np, <- Hm, L2 in BW;
          refine (both f' BW _); intros p Hp Hr; specialize (B3 p Hp); rewrite Hr in B3; exact B3|]].
        { intros p. destruct (A2 p) as (X1 & X2 & X3 & X4 & X5).
          destruct (B2 p) as (Y1 & Y2 & Y3 & Y4 & Y5). repeat split; congruence. }
        intros p [Np1 Np2]. specialize (B3 p). specialize (A3 p).
        destruct (in_range pos (length ws) p) eqn:Er.
        -- apply in_range_spec in Er.
           destruct (in_range (pos + m) (length ws - m) p) eqn:Er'.
           ++ apply in_range_spec in Er'. rewrite nth_skipn in B3.
              replace (m + (p - (pos + m))) with (p - pos) in B3 by lia.
              replace (in_range pos m p) with false in A3
                by (symmetry; apply in_range_false; lia).
              rewrite A3 in B3 by (split; lia). apply B3. split; lia.
           ++ apply in_range_false in Er'. rewrite B3 by (split; lia).
              replace (in_range pos m p) with true in A3
                by (symmetry; apply in_range_spec; lia).
              rewrite nth_firstn in A3 by lia. rewrite A3 by (split; lia). apply btw_new.
              specialize (Hs (p - pos)). replace (pos + (p - pos)) with p in Hs by lia.
              apply Hs. lia.
        -- apply in_range_false in Er.
           replace (in_range pos m p) with false in A3 by (symmetry; apply in_range_false; lia).
           replace (in_range (pos + m) (length ws - m) p) with false in B3
             by (symmetry; apply in_range_false; lia).
           rewrite B3, A3 by (split; lia). reflexivity.
      * cbn [fl set_fl]. intros f' (B1 & B2 & BW & B3). rewrite L2, Np, <- Hm in B3.
        apply (HP f'). split; [exact B1|]. split; [|split; [unfold worn in BW; rewrite Np, <- Hm, L2 in BW;
          refine (both f' BW _); intros p Hp Hr; specialize (B3 p Hp); rewrite Hr in B3; exact B3|]].
        { intros p. destruct (A2 p) as (X1 & X2 & X3 & X4 & X5).
          destruct (B2 p) as (Y1 & Y2 & Y3 & Y4 & Y5). repeat split; congruence. }
        intros p [Np1 Np2]. rewrite B3 by (split; lia). specialize (A3 p).
        rewrite A3 by (split; lia).
        destruct (in_range pos (length ws) p) eqn:Er.
        -- apply in_range_spec in Er.
           destruct (in_range (pos + m) (length ws - m) p) eqn:Er'.
           ++ apply in_range_spec in Er'. rewrite nth_skipn. f_equal. lia.
           ++ apply in_range_false in Er'.
              replace (in_range pos m p) with true
                by (symmetry; apply in_range_spec; lia).
              rewrite nth_firstn by lia. reflexivity.
        -- apply in_range_false in Er.
           replace (in_range pos m p) with false by (symmetry; apply in_range_false; lia).
           replace (in_range (pos + m) (length ws - m) p) with false
             by (symmetry; apply in_range_false; lia). reflexivity.
  - replace (Nat.min (length ws) m) with (length ws) by lia. rewrite firstn_all.
    apply wp_bind. apply wp_run; try assumption.
    + lia.
    + intros f' H. apply wp_ret. apply HP, H.
Qed.

(* ------------------------------------------------------------ page headers *)

(** The counters after writing one word of a page header, completely or not. *)
Definition hworn (page word : nat) (w : N) (f f' : flash) : Prop :=
  (forall p, erases f' p = erases f p) /\
  (forall p x, writes f' p x =
     if (p =? page) && (x =? word) && ((f' p x =? w)%N && negb (f p x =? w)%N)
     then S (writes f p x) else writes f p x).
(** Writing the init word of a page. *)
Definition init_wrote (page : nat) (w : N) (f f' : flash) : Prop :=
  fok f' /\ hworn page INIT_WORD w f f' /\
  forall p x, f' p x = if (p =? page) && (x =? INIT_WORD) then w else f p x.
Definition init_writing (page : nat) (w : N) (f f' : flash) : Prop :=
  fok f' /\ hworn page INIT_WORD w f f' /\
  forall p x, if (p =? page) && (x =? INIT_WORD) then btw (f p x) w (f' p x)
                        else f' p x = f p x.
Definition compact_wrote (page : nat) (w : N) (f f' : flash) : Prop :=
  fok f' /\ hworn page COMPACT_WORD w f f' /\
  forall p x, f' p x = if (p =? page) && (x =? COMPACT_WORD) then w else f p x.
Definition compact_writing (page : nat) (w : N) (f f' : flash) : Prop :=
  fok f' /\ hworn page COMPACT_WORD w f f' /\
  forall p x, if (p =? page) && (x =? COMPACT_WORD) then btw (f p x) w (f' p x)
                        else f' p x = f p x.

Lemma in_range_1 word x : in_range word 1 x = (x =? word).
Proof.
  destruct (x =? word) eqn:E.
  - apply Nat.eqb_eq in E. apply in_range_spec. lia.
  - apply Nat.eqb_neq in E. apply in_range_false. lia.
Qed.
Lemma wp_write_header (R : flash -> Prop) page word w s (P : res store_error unit -> st -> Prop) :
  fok (fl s) -> w32 w -> page < NP -> word < 2 -> sub w (fl s page word) ->
  (fl s page word <> w -> writes (fl s) page word < 2) ->
  (forall f', fok f' -> hworn page word w (fl s) f' ->
     (forall p x, if (p =? page) && (x =? word) then btw (fl s p x) w (f' p x)
                  else f' p x = fl s p x) -> R f') ->
  (forall f', fok f' -> hworn page word w (fl s) f' ->
     (forall p x, f' p x = if (p =? page) && (x =? word) then w else fl s p x) ->
     P (Ok tt) (set_fl s f')) ->
  wp R (storage_write page word [w]) s P.
Proof.
  intros Hf Hw Hp Hx Hs Hc HR HP.
  assert (HW : forall f', wears page word [w] (fl s) f' -> hworn page word w (fl s) f').
  { intros f' [W1 W2]. split; [exact W1|]. intros p x. rewrite W2. cbn [length].
    rewrite in_range_1. destruct (x =? word) eqn:E.
    - apply Nat.eqb_eq in E. subst x. rewrite Nat.sub_diag. reflexivity.
    - rewrite andb_false_r. reflexivity. }
  pose proof Q_pos. apply wp_storage_write.
  - exact Hf.
  - constructor; [exact Hw|constructor].
  - exact Hp.
  - cbn. lia.
  - cbn [length]. intros i Hi. assert (i = 0) by lia. subst i. rewrite Nat.add_0_r. exact Hs.
  - cbn [length]. intros i Hi. assert (i = 0) by lia. subst i. rewrite Nat.add_0_r. exact Hc.
  - intros f' Hf' C H'. apply HR; [exact Hf'|apply HW, C|]. intros p x. specialize (H' p x).
    cbn [length] in H'. rewrite in_range_1 in H'.
    destruct (p =? page); cbn [andb] in *; [|exact H'].
    destruct (x =? word) eqn:E; [|exact H'].
    apply Nat.eqb_eq in E. subst x. rewrite Nat.sub_diag in H'. exact H'.
  - intros f' Hf' C H'. apply HP; [exact Hf'|apply HW, C|]. intros p x. rewrite H'. cbn [length].
    rewrite in_range_1.
    destruct (p =? page); cbn [andb]; [|reflexivity].
    destruct (x =? word) eqn:E; [|reflexivity].
    apply Nat.eqb_eq in E. subst x. rewrite Nat.sub_diag. reflexivity.
Qed.
Lemma wp_write_init (R : flash -> Prop) page w s (P : res store_error unit -> st -> Prop) :
  fok (fl s) -> w32 w -> page < NP -> sub w (fl s page INIT_WORD) ->
  (fl s page INIT_WORD <> w -> writes (fl s) page INIT_WORD < 2) ->
  (forall f', init_writing page w (fl s) f' -> R f') ->
  (forall f', init_wrote page w (fl s) f' -> P (Ok tt) (set_fl s f')) ->
  wp R (storage_write page INIT_WORD [w]) s P.
Proof.
  intros Hf Hw Hp Hs Hc HR HP. apply wp_write_header; try assumption.
  - unfold INIT_WORD. lia.
  - intros f' A C B. apply HR. split; [|split]; assumption.
  - intros f' A C B. apply HP. split; [|split]; assumption.
Qed.
Lemma wp_write_compact (R : flash -> Prop) page w s (P : res store_error unit -> st -> Prop) :
  fok (fl s) -> w32 w -> page < NP -> sub w (fl s page COMPACT_WORD) ->
  (fl s page COMPACT_WORD <> w -> writes (fl s) page COMPACT_WORD < 2) ->
  (forall f', compact_writing page w (fl s) f' -> R f') ->
  (forall f', compact_wrote page w (fl s) f' -> P (Ok tt) (set_fl s f')) ->
  wp R (storage_write page COMPACT_WORD [w]) s P.
Proof.
  intros Hf Hw Hp Hs Hc HR HP. apply wp_write_header; try assumption.
  - unfold COMPACT_WORD. lia.
  - intros f' A C B. apply HR. split; [|split]; assumption.
  - intros f' A C B. apply HP. split; [|split]; assumption.
Qed.
Lemma init_same_read page w f f' pos : init_wrote page w f f' ->
  read_word F f' pos = read_word F f pos.
Proof.
  intros [_ [_ H]]. unfold read_word. rewrite H.
  replace (CONTENT_WORD + pos_word F pos =? INIT_WORD) with false
    by (symmetry; apply Nat.eqb_neq; unfold CONTENT_WORD, INIT_WORD; lia).
  rewrite andb_false_r. reflexivity.
Qed.
Lemma init_writing_read page w f f' pos : init_writing page w f f' ->
  read_word F f' pos = read_word F f pos.
Proof.
  intros [_ [_ H]]. unfold read_word. specialize (H (pos_page F pos) (CONTENT_WORD + pos_word F pos)).
  replace (CONTENT_WORD + pos_word F pos =? INIT_WORD) with false in H
    by (symmetry; apply Nat.eqb_neq; unfold CONTENT_WORD, INIT_WORD; lia).
  rewrite andb_false_r in H. exact H.
Qed.

Lemma hworn_wear page word w f f' pos : word < 2 -> hworn page word w f f' ->
  read_wear f' pos = read_wear f pos.
Proof.
  intros Hw [_ H]. unfold read_wear. rewrite H.
  replace (CONTENT_WORD + pos_word F pos =? word) with false
    by (symmetry; apply Nat.eqb_neq; unfold CONTENT_WORD; lia).
  rewrite andb_false_r. reflexivity.
Qed.

(** Erasing a page. *)
Definition erase_wrote (page : nat) (f f' : flash) : Prop :=
  fok f' /\ (forall p x, p <> page -> f' p x = f p x) /\
  (forall p x, p <> page -> writes f' p x = writes f p x) /\
  (forall p, p <> page -> erases f' p = erases f p) /\
  (forall x, x < Q + 2 -> f' page x = ERASED) /\
  (if page_erased F f page then f' = f
   else (forall x, writes f' page x = 0) /\ erases f' page = S (erases f page)).
Definition erase_writing (page : nat) (f f' : flash) : Prop :=
  fok f' /\ (forall p x, p <> page -> f' p x = f p x) /\
  (forall p x, p <> page -> writes f' p x = writes f p x) /\
  (forall p, p <> page -> erases f' p = erases f p) /\
  (forall x, sub (f page x) (f' page x)) /\
  (if page_erased F f' page
   then (forall x, writes f' page x = 0) /\ erases f' page = S (erases f page)
   else erases f' page = erases f page).
Lemma page_erased_spec (f : flash) page :
  page_erased F f page = true <-> forall x, x < Q + 2 -> f page x = ERASED.
Proof.
  unfold page_erased. rewrite forallb_forall. split.
  - intros E x Hx. apply N.eqb_eq. apply E. apply in_seq. lia.
  - intros E x Hx. apply N.eqb_eq. apply E. apply in_seq in Hx. lia.
Qed.
Lemma wp_erase (R : flash -> Prop) page s (P : res store_error unit -> st -> Prop) :
  fok (fl s) -> page < NP ->
  (page_erased F (fl s) page = false -> erases (fl s) page < max_page_erases F) ->
  (forall f', page_erased F (fl s) page = false -> erase_writing page (fl s) f' -> R f') ->
  (forall f', erase_wrote page (fl s) f' -> P (Ok tt) (set_fl s f')) ->
  wp R (storage_erase F page) s P.
Proof.
  intros Hf Hp Hc HR HP. unfold wp, storage_erase.
  destruct (page_erased F (fl s) page) eqn:E.
  - split; [constructor|]. rewrite <- (set_fl_same s). apply HP. split; [exact Hf|].
    split; [reflexivity|]. split; [reflexivity|]. split; [reflexivity|].
    split; [apply page_erased_spec, E|]. rewrite E. reflexivity.
  - split.
    + constructor; [split; [exact Hp|apply Hc, eq_refl]| |constructor].
      intros f' (I & IW & IE). apply HR; [reflexivity|].
      assert (A : forall p x, p <> page -> f' p x = fl s p x).
      { intros p x Hn. apply N.bits_inj. intros i. destruct (I p x i) as [B|B]; [exact B|].
        cbn in B. apply Nat.eqb_neq in Hn. rewrite Hn in B. exact B. }
      split; [|split; [|split; [|split; [|split]]]].
      * intros p x. apply w32_bit. intros i Hi. destruct (I p x i) as [B|B]; rewrite B.
        -- apply (proj1 (w32_bit _) (Hf p x)). exact Hi.
        -- cbn. destruct (p =? page); [rewrite erased_bit; apply N.ltb_ge; exact Hi|].
           apply (proj1 (w32_bit _) (Hf p x)). exact Hi.
      * exact A.
      * intros p x Hn. rewrite IW. apply Nat.eqb_neq in Hn. rewrite Hn. reflexivity.
      * intros p Hn. rewrite IE. apply Nat.eqb_neq in Hn. rewrite Hn. reflexivity.
      * intros x i Hi. destruct (I page x i) as [B|B]; rewrite B; [exact Hi|].
        cbn. rewrite Nat.eqb_refl, erased_bit. apply N.ltb_lt.
        destruct (N.lt_ge_cases i 32) as [L|L]; [exact L|].
        rewrite (proj1 (w32_bit _) (Hf page x) i L) in Hi. discriminate.
      * specialize (IE page). rewrite Nat.eqb_refl in IE. cbn [andb] in IE.
        destruct (page_erased F f' page) eqn:E'; [|exact IE]. split; [|exact IE].
        intros x. rewrite IW, Nat.eqb_refl. reflexivity.
    + apply HP. split; [|split; [|split; [|split; [|split]]]].
      * intros p x. cbn. destruct (p =? page); [exact w32_erased|apply Hf].
      * intros p x Hn. cbn. apply Nat.eqb_neq in Hn. rewrite Hn. reflexivity.
      * intros p x Hn. cbn. apply Nat.eqb_neq in Hn. rewrite Hn. reflexivity.
      * intros p Hn. cbn. apply Nat.eqb_neq in Hn. rewrite Hn. reflexivity.
      * intros x _. cbn. rewrite Nat.eqb_refl. reflexivity.
      * rewrite E. split; [|cbn; rewrite Nat.eqb_refl; reflexivity].
        intros x. cbn. rewrite Nat.eqb_refl. reflexivity.
Qed.

End WP.
