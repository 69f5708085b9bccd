(** Property C21: the linear view reads back what was written. *)
From Verif Require Import Base Facts.
From Verif.Linear Require Import Model.
Open Scope nat_scope.
Ltac Zify.zify_post_hook ::= idtac.

(** Specification. Pages are made of words; writing a byte over an erased one, or over itself,
    leaves that byte. *)
Definition geometry_ok (g : geometry) : Prop :=
  0 < word_size g /\ 0 < page_size g /\ (exists q, page_size g = q * word_size g) /\
  (forall v, (v < 256)%N -> written g 255%N v = v) /\ (forall v, (v < 256)%N -> written g v v = v).
(** All cells are bytes. *)
Definition bytes_mem (m : mem) : Prop := forall p x, (m p x < 256)%N.
(** The byte at an offset. *)
Definition at_ (g : geometry) (m : mem) (offset : nat) : N := m (offset / page_size g) (offset mod page_size g).

Section PROOFS.
Variable g : geometry.
Hypothesis G : geometry_ok g.
Notation W := (word_size g).
Notation P := (page_size g).
Notation NP := (num_pages g).

Lemma Wp : 0 < W. Proof. apply G. Qed.
Lemma Pp : 0 < P. Proof. apply G. Qed.

(** [m'] is [m] with [value] at byte [b] of page [p]. *)
Definition placed (m m' : mem) (p b : nat) (value : bytes) : Prop :=
  forall q x, m' q x = if (q =? p) && ((b <=? x) && (x <? b + length value)) then nth (x - b) value 0%N else m q x.

Lemma in_spec q p b n x : (q =? p) && ((b <=? x) && (x <? b + n)) = true <-> q = p /\ b <= x < b + n.
Proof. rewrite !andb_true_iff, Nat.eqb_eq, Nat.leb_le, Nat.ltb_lt. lia. Qed.
Lemma in_out q p b n x : (q =? p) && ((b <=? x) && (x <? b + n)) = false <-> ~ (q = p /\ b <= x < b + n).
Proof. rewrite <- in_spec. destruct (_ && _); split; congruence. Qed.

Lemma bytes_nth v i : bytes_ok v = true -> (nth i v 0 < 256)%N.
Proof.
  intros H. destruct (Nat.lt_ge_cases i (length v)) as [L|L]; [|rewrite nth_overflow by exact L; reflexivity].
  unfold bytes_ok in H. rewrite forallb_forall in H. specialize (H _ (nth_In v 0%N L)). unfold byte_ok in H.
  apply N.ltb_lt in H. exact H.
Qed.
Lemma nth_firstn_ {A} (l : list A) n i d : i < n -> nth i (firstn n l) d = nth i l d.
Proof. revert l i. induction n; intros [|x l] [|i] H; cbn; auto; try lia. apply IHn. lia. Qed.
Lemma nth_skipn_ {A} (l : list A) n i d : nth i (skipn n l) d = nth (n + i) l d.
Proof. revert l. induction n; intros [|x l]; cbn; auto. destruct i; reflexivity. Qed.
Lemma nth_repeat_in {A} (x : A) n i d : i < n -> nth i (repeat x n) d = x.
Proof. revert i. induction n; intros [|i] H; cbn; auto; try lia. apply IHn. lia. Qed.
Lemma put_nth word a v i : a + length v <= length word ->
  nth i (put word a v) 0%N = if (a <=? i) && (i <? a + length v) then nth (i - a) v 0%N else nth i word 0%N.
Proof.
  intros H. unfold put.
  destruct (Nat.leb_spec a i); cbn [andb].
  - rewrite app_nth2 by (rewrite firstn_length; lia). rewrite firstn_length, Nat.min_l by lia.
    destruct (Nat.ltb_spec i (a + length v)).
    + apply app_nth1. lia.
    + rewrite app_nth2 by lia. rewrite nth_skipn_. f_equal. lia.
  - rewrite app_nth1 by (rewrite firstn_length; lia). apply nth_firstn_. lia.
Qed.
Lemma put_length word a v : a + length v <= length word -> length (put word a v) = length word.
Proof. intros H. unfold put. rewrite !app_length, firstn_length, skipn_length. lia. Qed.

Lemma read_slice_ok i n m : page i < NP -> byte i + n <= P ->
  read_slice g i n m = (Ok (map (fun k => m (page i) (byte i + k)) (seq 0 n)), m).
Proof.
  intros H1 H2. unfold read_slice, is_valid.
  replace (page i <? NP) with true by (symmetry; apply Nat.ltb_lt; exact H1).
  replace (n <=? P) with true by (symmetry; apply Nat.leb_le; lia).
  replace (byte i <=? P - n) with true by (symmetry; apply Nat.leb_le; lia). reflexivity.
Qed.
Lemma write_slice_ok i v m : page i < NP -> byte i + length v <= P ->
  byte i mod W = 0 -> length v mod W = 0 ->
  write_slice g i v m = (Ok tt, fun p x => if (p =? page i) && ((byte i <=? x) && (x <? byte i + length v))
                       then written g (m p x) (nth (x - byte i) v 0%N) else m p x).
Proof.
  intros H1 H2 H3 H4. unfold write_slice, is_valid. rewrite H3, H4, Nat.eqb_refl. cbn [andb negb].
  replace (page i <? NP) with true by (symmetry; apply Nat.ltb_lt; exact H1).
  replace (length v <=? P) with true by (symmetry; apply Nat.leb_le; lia).
  replace (byte i <=? P - length v) with true by (symmetry; apply Nat.leb_le; lia). reflexivity.
Qed.
Lemma slice_nth (m : mem) p b n k : k < n -> nth k (map (fun k => m p (b + k)) (seq 0 n)) 0%N = m p (b + k).
Proof.
  intros H. rewrite (nth_indep _ 0%N (m p (b + 0))) by (rewrite map_length, seq_length; exact H).
  rewrite (map_nth (fun k => m p (b + k))). rewrite seq_nth by exact H. reflexivity.
Qed.

(** A word read, modified where it is erased, and written back. *)
Lemma word_ok p k a v m : bytes_mem m -> bytes_ok v = true -> p < NP -> k * W + W <= P -> a + length v <= W ->
  (forall x, k * W + a <= x < k * W + a + length v -> m p x = 255%N) ->
  exists word m', read_slice g (mkIndex p (k * W)) W m = (Ok word, m) /\
    write_slice g (mkIndex p (k * W)) (put word a v) m = (Ok tt, m') /\ placed m m' p (k * W + a) v.
Proof.
  intros Hm Hv Hp Hk Ha He. pose proof Wp as HW. destruct G as (_ & _ & _ & G1 & G2).
  set (word := map (fun k0 => m p (k * W + k0)) (seq 0 W)).
  exists word. eexists. split; [apply read_slice_ok; assumption|]. cbn [page byte].
  assert (LW : length word = W) by (unfold word; rewrite map_length, seq_length; reflexivity).
  assert (LP : length (put word a v) = W) by (rewrite put_length; lia).
  split.
  - apply write_slice_ok; cbn [page byte]; rewrite ?LP; try assumption.
    + apply Nat.mod_mul. lia.
    + apply Nat.mod_same. lia.
  - cbn [page byte]. intros q x. cbv beta. rewrite LP. rewrite put_nth by lia.
    destruct ((q =? p) && ((k * W <=? x) && (x <? k * W + W))) eqn:E.
    + apply in_spec in E as [-> E]. rewrite Nat.eqb_refl. cbn [andb].
      destruct ((k * W + a <=? x) && (x <? k * W + a + length v)) eqn:E2.
      * pose proof E2 as E3. apply andb_true_iff in E3 as [X Y]. apply Nat.leb_le in X. apply Nat.ltb_lt in Y.
        replace ((a <=? x - k * W) && (x - k * W <? a + length v)) with true
          by (symmetry; apply andb_true_iff; rewrite Nat.leb_le, Nat.ltb_lt; lia).
        rewrite He by lia. replace (x - k * W - a) with (x - (k * W + a)) by lia. apply G1, bytes_nth, Hv.
      * replace ((a <=? x - k * W) && (x - k * W <? a + length v)) with false.
        2:{ symmetry. apply andb_false_iff. rewrite Nat.leb_gt, Nat.ltb_ge. apply andb_false_iff in E2.
            rewrite Nat.leb_gt, Nat.ltb_ge in E2. lia. }
        unfold word. rewrite slice_nth by lia. replace (k * W + (x - k * W)) with x by lia. apply G2, Hm.
    + destruct ((q =? p) && ((k * W + a <=? x) && (x <? k * W + a + length v))) eqn:E2; [|reflexivity].
      exfalso. apply in_spec in E2. apply in_out in E. lia.
Qed.

Lemma forallb_firstn {A} (f : A -> bool) n l : forallb f l = true -> forallb f (firstn n l) = true.
Proof. revert l. induction n; intros [|x l] H; cbn in *; auto. apply andb_true_iff in H as [-> H]. cbn. auto. Qed.
Lemma forallb_skipn {A} (f : A -> bool) n l : forallb f l = true -> forallb f (skipn n l) = true.
Proof. revert l. induction n; intros [|x l] H; cbn in *; auto. apply andb_true_iff in H as [_ H]. auto. Qed.

Lemma placed_bytes m m' p b v : bytes_mem m -> bytes_ok v = true -> placed m m' p b v -> bytes_mem m'.
Proof. intros Hm Hv H q x. rewrite H. destruct (_ && _); [apply bytes_nth, Hv|apply Hm]. Qed.
Lemma placed_app m m1 m2 p b v n : placed m m1 p b (firstn n v) -> placed m1 m2 p (b + n) (skipn n v) -> n <= length v ->
  placed m m2 p b v.
Proof.
  intros H1 H2 Hn q x. rewrite H2, H1. rewrite firstn_length, skipn_length, Nat.min_l by exact Hn.
  destruct ((q =? p) && ((b + n <=? x) && (x <? b + n + (length v - n)))) eqn:E2.
  - apply in_spec in E2. replace ((q =? p) && ((b <=? x) && (x <? b + length v))) with true by (symmetry; apply in_spec; lia).
    rewrite nth_skipn_. f_equal. lia.
  - apply in_out in E2. destruct ((q =? p) && ((b <=? x) && (x <? b + n))) eqn:E1.
    + apply in_spec in E1. replace ((q =? p) && ((b <=? x) && (x <? b + length v))) with true by (symmetry; apply in_spec; lia).
      apply nth_firstn_. lia.
    + apply in_out in E1. replace ((q =? p) && ((b <=? x) && (x <? b + length v))) with false; [reflexivity|].
      symmetry. apply in_out. lia.
Qed.
Lemma placed_nil m p b : placed m m p b [].
Proof. intros q x. destruct (_ && _) eqn:E; [|reflexivity]. apply in_spec in E. cbn [length] in E. lia. Qed.

Lemma page_room k b : k * W <= b -> b < k * W + W -> b < P -> k * W + W <= P.
Proof.
  intros H1 H2 H3. destruct G as (HW & _ & (q & E) & _). rewrite E in *.
  assert (k < q) by (apply Nat.mul_lt_mono_pos_r with W; lia).
  replace (k * W + W) with (S k * W) by (cbn; lia). apply Nat.mul_le_mono_r. lia.
Qed.

Lemma write_unaligned_ok p b v m : bytes_mem m -> bytes_ok v = true -> p < NP -> b + length v <= P ->
  (forall x, b <= x < b + length v -> m p x = 255%N) ->
  exists m', write_unaligned g (mkIndex p b) v m = (Ok tt, m') /\ placed m m' p b v.
Proof.
  intros Hm Hv Hp Hb He. pose proof Wp as HW.
  (* the part that starts at a word *)
  assert (AL : forall k v m, bytes_mem m -> bytes_ok v = true -> k * W + length v <= P ->
    (forall x, k * W <= x < k * W + length v -> m p x = 255%N) ->
    exists m', (let len := length v - length v mod W in
      _ <~ write_slice g (mkIndex p (k * W)) (firstn len v) ;;
      match skipn len v with
      | [] => ret tt
      | _ => word <~ read_slice g (mkIndex p (k * W + len)) W ;;
             write_slice g (mkIndex p (k * W + len)) (put word 0 (skipn len v))
      end) m = (Ok tt, m') /\ placed m m' p (k * W) v).
  { clear v m Hm Hv Hb He. intros k v m Hm Hv Hb He. cbv zeta.
    pose proof (Nat.div_mod (length v) W ltac:(lia)) as D. rewrite (Nat.mul_comm W) in D. pose proof (Nat.mod_upper_bound (length v) W ltac:(lia)) as U.
    set (len := length v - length v mod W). assert (El : len = length v / W * W) by (unfold len; rewrite D at 1; apply Nat.add_sub).
    assert (Ll : len <= length v) by (unfold len; lia).
    assert (Lf : length (firstn len v) = len) by (rewrite firstn_length; lia).
    unfold bind at 1. rewrite write_slice_ok.
    2:{ exact Hp. } 2:{ cbn [byte]. lia. } 2:{ cbn [byte]. apply Nat.mod_mul. lia. }
    2:{ rewrite Lf, El. apply Nat.mod_mul. lia. }
    cbn [page byte]. set (m1 := fun _ _ => _).
    assert (P1 : placed m m1 p (k * W) (firstn len v)).
    { intros q x. unfold m1. destruct (_ && _) eqn:E; [|reflexivity]. apply in_spec in E as [-> E]. rewrite Lf in E.
      rewrite He by lia. destruct G as (_ & _ & _ & G1 & _). apply G1, bytes_nth, forallb_firstn, Hv. }
    assert (M1 : bytes_mem m1) by (eapply placed_bytes; [exact Hm| |exact P1]; apply forallb_firstn, Hv).
    destruct (skipn len v) as [|y r] eqn:Es.
    - exists m1. split; [reflexivity|]. eapply placed_app; [exact P1| |exact Ll]. rewrite Es. apply placed_nil.
    - assert (Lr : length (y :: r) = length v mod W).
      { rewrite <- Es, skipn_length. unfold len. lia. }
      assert (Pos : 0 < length v mod W) by (rewrite <- Lr; cbn [length]; lia).
      assert (Ek : k * W + len = (k + length v / W) * W) by (rewrite El; lia).
      destruct (word_ok p (k + length v / W) 0 (y :: r) m1) as (word & m2 & E1 & E2 & P2).
      + exact M1.
      + rewrite <- Es. apply forallb_skipn, Hv.
      + exact Hp.
      + apply (page_room (k + length v / W) (k * W + len)); [rewrite Ek; apply le_n|rewrite Ek; lia|unfold len; lia].
      + lia.
      + intros x Hx. rewrite Nat.add_0_r, <- Ek in Hx. rewrite P1.
        replace ((p =? p) && ((k * W <=? x) && (x <? k * W + length (firstn len v)))) with false
          by (symmetry; apply in_out; lia). apply He. lia.
      + rewrite Ek. unfold bind. rewrite E1, E2. exists m2. split; [reflexivity|].
        eapply placed_app; [exact P1| |exact Ll]. rewrite Es, Ek. rewrite Nat.add_0_r in P2. exact P2. }
  unfold write_unaligned. cbn [page byte].
  pose proof (Nat.div_mod b W ltac:(lia)) as D. rewrite (Nat.mul_comm W) in D. pose proof (Nat.mod_upper_bound b W ltac:(lia)) as U.
  destruct (Nat.eqb_spec (b mod W) 0) as [E0|E0]; cbn [negb].
  - unfold bind at 1. cbn [ret]. assert (Eb : b = b / W * W) by (rewrite E0, Nat.add_0_r in D; exact D).
    destruct (AL (b / W) v m) as (m' & E & Pl); try rewrite <- Eb; try assumption.
    exists m'. split; [|rewrite Eb; exact Pl]. rewrite <- Eb in E. exact E.
  - assert (Hlt : b < P).
    { destruct (Nat.lt_ge_cases b P) as [L|L]; [exact L|]. exfalso. apply E0. assert (b = P) as -> by lia.
      destruct G as (_ & _ & (q & ->) & _). apply Nat.mod_mul. lia. }
    set (bq := b / W) in *. set (br := b mod W) in *. clearbody bq br.
    set (len := Nat.min (length v) (W - br)).
    assert (Ll : len <= length v) by (unfold len; lia).
    assert (Lf : length (firstn len v) = len) by (rewrite firstn_length; lia).
    assert (Eb : b - br = bq * W) by lia. rewrite Eb.
    assert (Room : bq * W + W <= P) by (apply (page_room (bq) b); lia).
    destruct (word_ok p (bq) (br) (firstn len v) m) as (word & m1 & E1 & E2 & P1).
    + exact Hm.
    + apply forallb_firstn, Hv.
    + exact Hp.
    + exact Room.
    + rewrite Lf. unfold len. lia.
    + intros x Hx. rewrite Lf in Hx. apply He. lia.
    + unfold bind at 1. unfold bind at 1. rewrite E1. unfold bind at 1. rewrite E2. cbn [ret].
      replace (bq * W + W) with ((bq + 1) * W) by lia.
      replace (bq * W + br) with b in P1 by lia.
      assert (M1 : bytes_mem m1) by (eapply placed_bytes; [exact Hm| |exact P1]; apply forallb_firstn, Hv).
      assert (Ls : length (skipn len v) = length v - len) by apply skipn_length.
      destruct (AL (bq + 1) (skipn len v) m1) as (m2 & E & P2).
      * exact M1.
      * apply forallb_skipn, Hv.
      * rewrite Ls. unfold len. lia.
      * intros x Hx. rewrite Ls in Hx. rewrite P1.
        replace ((p =? p) && ((b <=? x) && (x <? b + length (firstn len v)))) with false
          by (symmetry; apply in_out; rewrite Lf; unfold len in *; lia). apply He. unfold len in *. lia.
      * exists m2. split; [exact E|]. eapply placed_app; [exact P1| |exact Ll].
        destruct (Nat.eq_dec len (length v)) as [El|El].
        -- rewrite El in *. rewrite skipn_all in *. intros q x. rewrite (P2 q x). cbn [length].
           replace ((q =? p) && (((bq + 1) * W <=? x) && (x <? (bq + 1) * W + 0))) with false by (symmetry; apply in_out; lia).
           replace ((q =? p) && ((b + length v <=? x) && (x <? b + length v + 0))) with false by (symmetry; apply in_out; lia).
           reflexivity.
        -- replace (b + len) with ((bq + 1) * W) by (unfold len in *; lia). exact P2.
Qed.

Lemma map_nth_seq (m : mem) p b n : length (map (fun k => m p (b + k)) (seq 0 n)) = n.
Proof. rewrite map_length, seq_length. reflexivity. Qed.
Lemma bytes_slice (m : mem) p b n : bytes_mem m -> bytes_ok (map (fun k => m p (b + k)) (seq 0 n)) = true.
Proof.
  intros H. unfold bytes_ok. apply forallb_forall. intros x Hx. apply in_map_iff in Hx as (k & <- & _).
  unfold byte_ok. apply N.ltb_lt, H.
Qed.
Lemma erase_within_ok p b n m : bytes_mem m -> p < NP -> b + n <= P ->
  exists m', erase_within g (mkIndex p b) n m = (Ok tt, m') /\ placed m m' p b (repeat 255%N n).
Proof.
  intros Hm Hp Hb. unfold erase_within. unfold bind at 1. rewrite read_slice_ok by assumption. cbn [page byte].
  destruct (forallb _ _) eqn:E.
  - exists m. split; [reflexivity|]. intros q x. rewrite repeat_length. destruct (_ && _) eqn:Ei; [|reflexivity].
    apply in_spec in Ei as [-> Ei]. rewrite nth_repeat_in by lia. rewrite forallb_forall in E.
    specialize (E (m p x)). apply N.eqb_eq, E. apply in_map_iff. exists (x - b). split; [f_equal; lia|].
    apply in_seq. lia.
  - clear E. unfold bind at 1. rewrite read_slice_ok by (cbn [page byte]; lia). cbn [page byte].
    unfold bind at 1. rewrite read_slice_ok by (cbn [page byte]; lia). cbn [page byte].
    set (pre := map _ (seq 0 b)). set (suf := map _ (seq 0 (P - b - n))).
    assert (Lp : length pre = b) by apply map_nth_seq. assert (Lsu : length suf = P - b - n) by apply map_nth_seq.
    assert (Bp : bytes_ok pre = true) by (apply bytes_slice, Hm). assert (Bs : bytes_ok suf = true) by (apply bytes_slice, Hm).
    unfold bind at 1. unfold erase_page, is_valid. cbn [page byte].
    replace (p <? NP) with true by (symmetry; apply Nat.ltb_lt; exact Hp).
    rewrite Nat.leb_refl. cbn [andb Nat.leb]. set (m1 := fun _ _ => _).
    assert (M1 : bytes_mem m1) by (intros q x; unfold m1; destruct ((_ =? _) && _); [reflexivity|apply Hm]).
    destruct (write_unaligned_ok p 0 pre m1) as (m2 & E2 & P2); try assumption.
    { lia. } { intros x Hx. unfold m1. rewrite Nat.eqb_refl. replace (x <? P) with true by (symmetry; apply Nat.ltb_lt; lia). reflexivity. }
    unfold bind at 1. rewrite E2.
    assert (M2 : bytes_mem m2) by (exact (placed_bytes m1 m2 p 0 pre M1 Bp P2)).
    destruct (write_unaligned_ok p (P - length suf) suf m2) as (m3 & E3 & P3); try assumption.
    { lia. }
    { intros x Hx. rewrite P2. replace ((p =? p) && ((0 <=? x) && (x <? 0 + length pre))) with false by (symmetry; apply in_out; lia).
      unfold m1. rewrite Nat.eqb_refl. replace (x <? P) with true by (symmetry; apply Nat.ltb_lt; lia). reflexivity. }
    rewrite E3. exists m3. split; [reflexivity|]. intros q x. rewrite P3, P2, repeat_length.
    destruct ((q =? p) && ((P - length suf <=? x) && (x <? P - length suf + length suf))) eqn:X3.
    { apply in_spec in X3 as [-> X3]. replace ((p =? p) && ((b <=? x) && (x <? b + n))) with false by (symmetry; apply in_out; lia).
      rewrite Lsu in X3 |- *. unfold suf. rewrite slice_nth by lia. f_equal. lia. }
    apply in_out in X3. destruct ((q =? p) && ((0 <=? x) && (x <? 0 + length pre))) eqn:X2.
    { apply in_spec in X2 as [-> X2]. replace ((p =? p) && ((b <=? x) && (x <? b + n))) with false by (symmetry; apply in_out; lia).
      rewrite Lp in X2. unfold pre. rewrite slice_nth by lia. f_equal. lia. }
    apply in_out in X2. unfold m1. destruct ((q =? p) && ((b <=? x) && (x <? b + n))) eqn:X1.
    + apply in_spec in X1 as [-> X1]. rewrite Nat.eqb_refl. replace (x <? P) with true by (symmetry; apply Nat.ltb_lt; lia).
      cbn [andb]. rewrite nth_repeat_in by lia. reflexivity.
    + apply in_out in X1. destruct (Nat.eqb_spec q p) as [->|]; cbn [andb]; [|reflexivity].
      destruct (Nat.ltb_spec x P); [exfalso; lia|reflexivity].
Qed.
Lemma write_within_ok p b v m : bytes_mem m -> bytes_ok v = true -> p < NP -> b + length v <= P ->
  exists m', write_within g (mkIndex p b) v m = (Ok tt, m') /\ placed m m' p b v.
Proof.
  intros Hm Hv Hp Hb. unfold write_within. destruct (erase_within_ok p b (length v) m Hm Hp Hb) as (m1 & E1 & P1).
  unfold bind. rewrite E1.
  assert (M1 : bytes_mem m1).
  { eapply placed_bytes; [exact Hm| |exact P1]. unfold bytes_ok. apply forallb_forall. intros x Hx. apply repeat_spec in Hx. subst. reflexivity. }
  destruct (write_unaligned_ok p b v m1) as (m2 & E2 & P2); try assumption.
  { intros x Hx. rewrite P1, repeat_length. replace ((p =? p) && ((b <=? x) && (x <? b + length v))) with true by (symmetry; apply in_spec; lia).
    apply nth_repeat_in. lia. }
  exists m2. split; [exact E2|]. intros q x. rewrite P2, P1, repeat_length.
  destruct (_ && _); reflexivity.
Qed.

(** [m'] is [m] with [value] from [offset] on. *)
Definition replaced (m m' : mem) (offset : nat) (value : bytes) : Prop :=
  forall o, o < NP * P ->
    at_ g m' o = if (offset <=? o) && (o <? offset + length value) then nth (o - offset) value 0%N else at_ g m o.

Lemma off_div p b : b < P -> (p * P + b) / P = p /\ (p * P + b) mod P = b.
Proof.
  intros H. pose proof Pp. split.
  - rewrite Nat.div_add_l by lia. rewrite Nat.div_small by lia. lia.
  - rewrite Nat.add_comm, Nat.mod_add by lia. apply Nat.mod_small. exact H.
Qed.
Lemma off_split o : exists p b, o = p * P + b /\ b < P.
Proof.
  pose proof Pp. exists (o / P), (o mod P). pose proof (Nat.div_mod o P ltac:(lia)) as D. rewrite (Nat.mul_comm P) in D.
  split; [exact D|apply Nat.mod_upper_bound; lia].
Qed.
Lemma page_lt a b : a * P < b * P -> a < b.
Proof. intros H. apply Nat.mul_lt_mono_pos_r with P; [apply Pp|exact H]. Qed.
Lemma page_le a b : a < b -> a * P + P <= b * P.
Proof. intros H. replace (a * P + P) with (S a * P) by (cbn; lia). apply Nat.mul_le_mono_r. lia. Qed.
Lemma placed_replaced m m' p b v : placed m m' p b v -> b + length v <= P -> replaced m m' (p * P + b) v.
Proof.
  intros H Hb o Ho. destruct (off_split o) as (q & x & -> & Hx). unfold at_. destruct (off_div q x Hx) as [-> ->].
  rewrite H.
  destruct ((q =? p) && ((b <=? x) && (x <? b + length v))) eqn:E.
  - apply in_spec in E as [-> E]. replace ((p * P + b <=? p * P + x) && (p * P + x <? p * P + b + length v)) with true.
    + f_equal. lia.
    + symmetry. apply andb_true_iff. rewrite Nat.leb_le, Nat.ltb_lt. lia.
  - apply in_out in E. replace ((p * P + b <=? q * P + x) && (q * P + x <? p * P + b + length v)) with false; [reflexivity|].
    symmetry. apply andb_false_iff. rewrite Nat.leb_gt, Nat.ltb_ge.
    destruct (Nat.lt_trichotomy q p) as [L|[->|L]]; [apply page_le in L; lia|lia|apply page_le in L; lia].
Qed.
Lemma replaced_app m m1 m2 o v n : replaced m m1 o (firstn n v) -> replaced m1 m2 (o + n) (skipn n v) -> n <= length v ->
  replaced m m2 o v.
Proof.
  intros H1 H2 Hn x Hx. rewrite H2, H1 by exact Hx. rewrite firstn_length, skipn_length, Nat.min_l by exact Hn.
  destruct (Nat.leb_spec (o + n) x), (Nat.ltb_spec x (o + n + (length v - n))), (Nat.leb_spec o x),
    (Nat.ltb_spec x (o + n)), (Nat.ltb_spec x (o + length v)); cbn [andb]; try lia; try reflexivity.
  - rewrite nth_skipn_. f_equal. lia.
  - apply nth_firstn_. lia.
Qed.

(** C21: writing. *)
Theorem C21_write m offset value : bytes_mem m -> bytes_ok value = true ->
  offset + length value <= NP * P ->
  exists m', write g offset value m = (Ok tt, m') /\ bytes_mem m' /\
    forall o, o < NP * P ->
      at_ g m' o = if (offset <=? o) && (o <? offset + length value) then nth (o - offset) value 0%N
                   else at_ g m o.
Proof.
  intros Hm Hv Ho. unfold write, linear_length.
  replace (NP * P <? length value) with false by (symmetry; apply Nat.ltb_ge; lia).
  replace (NP * P - length value <? offset) with false by (symmetry; apply Nat.ltb_ge; lia). cbn [orb].
  assert (X : forall fuel p b v m, bytes_mem m -> bytes_ok v = true -> length v <= fuel -> b < P ->
    p * P + b + length v <= NP * P ->
    exists m', write_loop g fuel (mkIndex p b) v m = (Ok tt, m') /\ bytes_mem m' /\ replaced m m' (p * P + b) v).
  { clear -G. induction fuel as [|fuel IH]; intros p b v m Hm Hv Hf Hb Ho.
    - destruct v; [|cbn in Hf; lia]. exists m. split; [reflexivity|]. split; [exact Hm|]. intros o _.
      destruct ((_ <=? o) && _) eqn:E; [|reflexivity]. apply andb_true_iff in E. rewrite Nat.leb_le, Nat.ltb_lt in E. cbn [length] in E. lia.
    - destruct v as [|y r] eqn:Ev.
      { exists m. split; [reflexivity|]. split; [exact Hm|]. intros o _.
        destruct ((_ <=? o) && _) eqn:E; [|reflexivity]. apply andb_true_iff in E. rewrite Nat.leb_le, Nat.ltb_lt in E. cbn [length] in E. lia. }
      assert (Hpos : 0 < length v) by (rewrite Ev; cbn [length]; lia).
      cbn [write_loop]. rewrite <- Ev in *. cbn [byte page]. set (len := Nat.min (length v) (P - b)).
      assert (Lf : length (firstn len v) = len) by (rewrite firstn_length; unfold len; lia).
      destruct (write_within_ok p b (firstn len v) m) as (m1 & E1 & P1).
      + exact Hm.
      + apply forallb_firstn, Hv.
      + apply page_lt. lia.
      + rewrite Lf. unfold len. lia.
      + unfold bind. rewrite E1.
        assert (M1 : bytes_mem m1) by (eapply placed_bytes; [exact Hm| |exact P1]; apply forallb_firstn, Hv).
        pose proof (placed_replaced _ _ _ _ _ P1 ltac:(rewrite Lf; unfold len; lia)) as R1.
        assert (Ls : length (skipn len v) = length v - len) by apply skipn_length. pose proof Pp as HP.
        destruct (Nat.le_gt_cases (length v) (P - b)) as [L|L].
        * assert (En : skipn len v = []) by (apply skipn_all2; unfold len; lia). rewrite En.
          exists m1. split; [destruct fuel; reflexivity|]. split; [exact M1|].
          replace (firstn len v) with v in R1; [exact R1|]. symmetry. apply firstn_all2. unfold len. lia.
        * destruct (IH (p + 1) 0 (skipn len v) m1) as (m2 & E2 & M2 & R2).
          -- exact M1.
          -- apply forallb_skipn, Hv.
          -- rewrite Ls. unfold len. lia.
          -- exact HP.
          -- rewrite Ls. unfold len. lia.
          -- exists m2. split; [exact E2|]. split; [exact M2|]. eapply replaced_app; [exact R1| |unfold len; lia].
             replace (p * P + b + len) with ((p + 1) * P + 0) by (unfold len; lia). exact R2. }
  pose proof Pp as HP. pose proof (Nat.div_mod offset P ltac:(lia)) as D. rewrite (Nat.mul_comm P) in D.
  destruct (X (length value) (offset / P) (offset mod P) value m) as (m' & E & M' & R); try assumption.
  - lia.
  - apply Nat.mod_upper_bound. lia.
  - lia.
  - exists m'. split; [exact E|]. split; [exact M'|].
    replace (offset / P * P + offset mod P) with offset in R by lia. exact R.
Qed.
(** Erasing. *)
Theorem C21_erase m start end_ : bytes_mem m -> start <= end_ -> end_ <= NP * P ->
  exists m', erase g start end_ m = (Ok tt, m') /\ bytes_mem m' /\
    forall o, o < NP * P ->
      at_ g m' o = if (start <=? o) && (o <? end_) then 255%N else at_ g m o.
Proof.
  intros Hm Hs Ho. unfold erase, linear_length.
  replace (end_ <? start) with false by (symmetry; apply Nat.ltb_ge; lia).
  replace (NP * P <? end_) with false by (symmetry; apply Nat.ltb_ge; lia). cbn [orb].
  assert (B255 : forall n, bytes_ok (repeat 255%N n) = true).
  { intros n. unfold bytes_ok. apply forallb_forall. intros x Hx. apply repeat_spec in Hx. subst. reflexivity. }
  assert (X : forall fuel p b n m, bytes_mem m -> n <= fuel -> b < P -> p * P + b + n <= NP * P ->
    exists m', erase_loop g fuel (mkIndex p b) n m = (Ok tt, m') /\ bytes_mem m' /\ replaced m m' (p * P + b) (repeat 255%N n)).
  { clear -G B255. induction fuel as [|fuel IH]; intros p b n m Hm Hf Hb Ho.
    - assert (n = 0) as -> by lia. exists m. split; [reflexivity|]. split; [exact Hm|]. intros o _.
      destruct ((_ <=? o) && _) eqn:E; [|reflexivity]. apply andb_true_iff in E. rewrite Nat.leb_le, Nat.ltb_lt in E. cbn [length repeat] in E. lia.
    - cbn [erase_loop byte page]. destruct (Nat.eqb_spec n 0) as [->|Hn].
      { exists m. split; [reflexivity|]. split; [exact Hm|]. intros o _.
        destruct ((_ <=? o) && _) eqn:E; [|reflexivity]. apply andb_true_iff in E. rewrite Nat.leb_le, Nat.ltb_lt in E. cbn [length repeat] in E. lia. }
      set (len := Nat.min n (P - b)).
      destruct (erase_within_ok p b len m) as (m1 & E1 & P1).
      + exact Hm.
      + apply page_lt. lia.
      + unfold len. lia.
      + unfold bind. rewrite E1.
        assert (M1 : bytes_mem m1) by (eapply placed_bytes; [exact Hm|apply B255|exact P1]).
        pose proof (placed_replaced _ _ _ _ _ P1 ltac:(rewrite repeat_length; unfold len; lia)) as R1. pose proof Pp as HP.
        destruct (Nat.le_gt_cases n (P - b)) as [L|L].
        * assert (El : len = n) by (unfold len; lia). rewrite El in *.
          exists m1. split; [rewrite Nat.sub_diag; destruct fuel; reflexivity|]. split; [exact M1|exact R1].
        * destruct (IH (p + 1) 0 (n - len) m1) as (m2 & E2 & M2 & R2).
          -- exact M1.
          -- unfold len. lia.
          -- exact HP.
          -- unfold len. lia.
          -- exists m2. split; [exact E2|]. split; [exact M2|].
             assert (Er : repeat 255%N n = repeat 255%N len ++ repeat 255%N (n - len)).
             { rewrite <- repeat_app. f_equal. unfold len. lia. }
             eapply (replaced_app _ m1 _ _ _ len).
             ++ rewrite Er, firstn_app, repeat_length, Nat.sub_diag. cbn [firstn]. rewrite app_nil_r, firstn_all2; [exact R1|].
                rewrite repeat_length. lia.
             ++ rewrite Er, skipn_app, repeat_length, Nat.sub_diag. rewrite skipn_all2 by (rewrite repeat_length; lia). cbn [skipn app].
                replace (p * P + b + len) with ((p + 1) * P + 0) by (unfold len; lia). exact R2.
             ++ rewrite repeat_length. unfold len. lia. }
  pose proof Pp as HP. pose proof (Nat.div_mod start P ltac:(lia)) as D. rewrite (Nat.mul_comm P) in D.
  destruct (X (end_ - start) (start / P) (start mod P) (end_ - start) m) as (m' & E & M' & R); try assumption.
  - lia.
  - apply Nat.mod_upper_bound. lia.
  - lia.
  - exists m'. split; [exact E|]. split; [exact M'|]. intros o Hx.
    replace (start / P * P + start mod P) with start in R by lia. rewrite R by exact Hx. rewrite repeat_length.
    replace (start + (end_ - start)) with end_ by lia. destruct (Nat.leb_spec start o), (Nat.ltb_spec o end_); cbn [andb]; try reflexivity.
    apply nth_repeat_in. lia.
Qed.
(** Reading. *)
Lemma slice_off (m : mem) p b n : b + n <= P ->
  map (fun k => m p (b + k)) (seq 0 n) = map (at_ g m) (seq (p * P + b) n).
Proof.
  intros H. apply nth_ext with (d := 0%N) (d' := 0%N); [rewrite !map_length, !seq_length; reflexivity|].
  intros k Hk. rewrite map_nth_seq in Hk. rewrite slice_nth by exact Hk.
  rewrite (nth_indep _ 0%N (at_ g m 0)) by (rewrite map_length, seq_length; exact Hk).
  rewrite map_nth, seq_nth by exact Hk. unfold at_.
  replace (p * P + b + k) with (p * P + (b + k)) by lia. destruct (off_div p (b + k) ltac:(lia)) as [-> ->]. reflexivity.
Qed.
Theorem C21_read m start end_ : start <= end_ -> end_ <= NP * P ->
  read g start end_ m = (Ok (map (at_ g m) (seq start (end_ - start))), m).
Proof.
  intros Hs Ho. unfold read. destruct (Nat.leb_spec end_ start) as [L|L].
  { replace (end_ - start) with 0 by lia. reflexivity. }
  replace (end_ <? start) with false by (symmetry; apply Nat.ltb_ge; lia). cbn [page].
  pose proof Pp as HP. pose proof (Nat.div_mod start P ltac:(lia)) as D. rewrite (Nat.mul_comm P) in D. pose proof (Nat.mod_upper_bound start P ltac:(lia)) as U.
  destruct (Nat.leb_spec end_ ((start / P + 1) * P)) as [L1|L1].
  { rewrite read_slice_ok; cbn [page byte]; [|apply page_lt; lia|lia]. rewrite slice_off by lia. do 4 f_equal. lia. }
  assert (X : forall fuel p b n, n <= fuel -> b < P -> p * P + b + n <= NP * P ->
    read_loop g fuel (mkIndex p b) n m = (Ok (map (at_ g m) (seq (p * P + b) n)), m)).
  { clear -G. pose proof Pp as HP. induction fuel as [|fuel IH]; intros p b n Hf Hb Ho.
    - assert (n = 0) as -> by lia. reflexivity.
    - cbn [read_loop byte page]. destruct (Nat.eqb_spec n 0) as [->|Hn]; [reflexivity|].
      set (len := Nat.min n (P - b)). unfold bind at 1.
      rewrite read_slice_ok; cbn [page byte]; [|apply page_lt; lia|unfold len; lia].
      rewrite slice_off by (unfold len; lia).
      destruct (Nat.le_gt_cases n (P - b)) as [L|L].
      + assert (El : len = n) by (unfold len; lia). rewrite El in *. rewrite Nat.sub_diag.
        unfold bind. destruct fuel; cbn [read_loop Nat.eqb ret]; rewrite app_nil_r; reflexivity.
      + unfold bind. rewrite IH; [|unfold len; lia|exact HP|unfold len; lia]. cbn [ret].
        rewrite <- map_app. assert (En : seq (p * P + b) n = seq (p * P + b) len ++ seq ((p + 1) * P + 0) (n - len)).
        { replace ((p + 1) * P + 0) with (p * P + b + len) by (unfold len; lia). rewrite <- seq_app. f_equal. unfold len. lia. }
        rewrite En. reflexivity. }
  rewrite X; [|lia|exact U|rewrite <- D; lia]. rewrite <- D. reflexivity.
Qed.
(** What was written is read back. *)
Theorem C21_roundtrip m offset value : bytes_mem m -> bytes_ok value = true ->
  offset + length value <= NP * P ->
  exists m', write g offset value m = (Ok tt, m') /\
    read g offset (offset + length value) m' = (Ok value, m') /\
    forall start end_, start <= end_ -> end_ <= NP * P -> end_ <= offset \/ offset + length value <= start ->
      fst (read g start end_ m') = fst (read g start end_ m).
Proof.
  intros Hm Hv Ho. destruct (C21_write m offset value Hm Hv Ho) as (m' & E & _ & R). exists m'. split; [exact E|]. split.
  - rewrite C21_read by lia. replace (offset + length value - offset) with (length value) by lia. do 2 f_equal.
    apply nth_ext with (d := 0%N) (d' := 0%N); [rewrite map_length, seq_length; reflexivity|].
    rewrite map_length, seq_length. intros k Hk.
    rewrite (nth_indep _ 0%N (at_ g m' 0)) by (rewrite map_length, seq_length; exact Hk).
    rewrite map_nth, seq_nth by exact Hk. rewrite R by lia.
    replace ((offset <=? offset + k) && (offset + k <? offset + length value)) with true
      by (symmetry; apply andb_true_iff; rewrite Nat.leb_le, Nat.ltb_lt; lia). f_equal. lia.
  - intros start end_ H1 H2 H3. rewrite !C21_read by assumption. cbn [fst]. f_equal. apply map_ext_in. intros o Hi.
    apply in_seq in Hi. rewrite R by lia.
    replace ((offset <=? o) && (o <? offset + length value)) with false; [reflexivity|].
    symmetry. apply andb_false_iff. rewrite Nat.leb_gt, Nat.ltb_ge. lia.
Qed.
(** What does not fit is refused, and nothing changes. *)
Theorem C21_write_out m offset value : NP * P < offset + length value ->
  write g offset value m = (Err OutOfBounds, m).
Proof.
  intros H. unfold write, linear_length. destruct (Nat.ltb_spec (NP * P) (length value)); [reflexivity|].
  cbn [orb]. replace (NP * P - length value <? offset) with true by (symmetry; apply Nat.ltb_lt; lia). reflexivity.
Qed.
Theorem C21_erase_out m start end_ : end_ < start \/ NP * P < end_ -> erase g start end_ m = (Err OutOfBounds, m).
Proof.
  intros H. unfold erase, linear_length. destruct (Nat.ltb_spec end_ start); [reflexivity|].
  cbn [orb]. replace (NP * P <? end_) with true by (symmetry; apply Nat.ltb_lt; lia). reflexivity.
Qed.
Lemma read_slice_out i n m : NP <= page i -> read_slice g i n m = (Err OutOfBounds, m).
Proof. intros H. unfold read_slice, is_valid. replace (page i <? NP) with false by (symmetry; apply Nat.ltb_ge; exact H). reflexivity. Qed.
Theorem C21_read_out m start end_ : start < end_ -> NP * P < end_ -> read g start end_ m = (Err OutOfBounds, m).
Proof.
  intros Hs H. unfold read. replace (end_ <=? start) with false by (symmetry; apply Nat.leb_gt; lia).
  replace (end_ <? start) with false by (symmetry; apply Nat.ltb_ge; lia). cbn [page].
  pose proof Pp as HP. pose proof (Nat.div_mod start P ltac:(lia)) as D. rewrite (Nat.mul_comm P) in D. pose proof (Nat.mod_upper_bound start P ltac:(lia)) as U.
  destruct (Nat.leb_spec end_ ((start / P + 1) * P)) as [L1|L1].
  { apply read_slice_out. cbn [page]. apply Nat.lt_succ_r. apply page_lt. lia. }
  assert (X : forall fuel p b n, 0 < n <= fuel -> b < P -> NP * P < p * P + b + n ->
    read_loop g fuel (mkIndex p b) n m = (Err OutOfBounds, m)).
  { clear -G. pose proof Pp as HP. induction fuel as [|fuel IH]; intros p b n Hf Hb Ho; [lia|].
    cbn [read_loop byte page]. destruct (Nat.eqb_spec n 0) as [->|Hn]; [lia|].
    set (len := Nat.min n (P - b)). unfold bind at 1.
    destruct (Nat.lt_ge_cases p NP) as [Lp|Lp]; [|rewrite read_slice_out by exact Lp; reflexivity].
    rewrite read_slice_ok; cbn [page byte]; [|exact Lp|unfold len; lia]. apply page_le in Lp.
    unfold bind. rewrite IH; [reflexivity|unfold len; lia|exact HP|unfold len; lia]. }
  apply X; lia.
Qed.
End PROOFS.

(** Flash clears bits; other storages overwrite. Both are faithful. *)
Definition flash_geometry : geometry := mkGeometry 4 64 3 N.land.
Definition ram_geometry : geometry := mkGeometry 4 64 3 (fun _ v => v).
Lemma land_byte v : (v < 256)%N -> N.land 255 v = v.
Proof. intros H. rewrite N.land_comm. change 255%N with (N.ones 8). rewrite N.land_ones. apply N.mod_small. exact H. Qed.
Lemma flash_geometry_ok : geometry_ok flash_geometry.
Proof.
  split; [cbn; lia|]. split; [cbn; lia|]. split; [exists 16; reflexivity|]. split.
  - apply land_byte.
  - intros v _. apply N.land_diag.
Qed.
Lemma surjective_pairing_ok {A} (x : res storage_error A * mem) r : fst x = r -> x = (r, snd x).
Proof. intros <-. apply surjective_pairing. Qed.
(** A value written over another one, across a page boundary and not on word boundaries. *)
Example C21_nonvacuous : geometry_ok flash_geometry /\ geometry_ok ram_geometry /\
  bytes_mem (fun _ _ => 255%N) /\
  exists m1 m2, write flash_geometry 61 [1; 2; 3; 4; 5; 6]%N (fun _ _ => 255%N) = (Ok tt, m1) /\
    write flash_geometry 63 [9; 8]%N m1 = (Ok tt, m2) /\
    fst (read flash_geometry 60 68 m2) = Ok [255; 1; 2; 9; 8; 5; 6; 255]%N.
Proof.
  split; [exact flash_geometry_ok|]. split.
  { split; [cbn; lia|]. split; [cbn; lia|]. split; [exists 16; reflexivity|]. split; reflexivity. }
  split; [intros p x; reflexivity|].
  eexists. eexists. split; [apply surjective_pairing_ok; vm_compute; reflexivity|].
  split; [apply surjective_pairing_ok; vm_compute; reflexivity|]. vm_compute. reflexivity.
Qed.
Print Assumptions C21_write.
Print Assumptions C21_erase.
Print Assumptions C21_read.
Print Assumptions C21_roundtrip.
Print Assumptions C21_write_out.
Print Assumptions C21_erase_out.
Print Assumptions C21_read_out.
