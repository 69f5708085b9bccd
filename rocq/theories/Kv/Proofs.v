From Verif Require Import Base Facts.
From Verif.Kv Require Import Model Spec.
Local Open Scope nat_scope.

(* --------------------------------------------------------- association lists *)

Lemma kv_get_In m k v : kv_get m k = Some v -> In (k, v) m.
Proof.
  induction m as [|[k' v'] m IH]; cbn; [discriminate|].
  destruct (N.eqb_spec k' k) as [->|Hn]; [intros [= ->]; auto | auto].
Qed.

Lemma kv_get_None m k : kv_get m k = None <-> ~ In k (kv_keys m).
Proof.
  induction m as [|[k' v'] m IH]; cbn; [tauto|].
  destruct (N.eqb_spec k' k) as [->|Hn].
  - split; [discriminate | intros H; exfalso; apply H; auto].
  - rewrite IH. tauto.
Qed.

Lemma kv_get_wf m k v : kv_wf m -> In (k, v) m -> kv_get m k = Some v.
Proof.
  unfold kv_wf. induction m as [|[k' v'] m IH]; cbn; [tauto|].
  intros Hn. inversion Hn as [|? ? Hni Hnd]; subst.
  intros [[= -> ->]|Hin].
  - rewrite N.eqb_refl. reflexivity.
  - destruct (N.eqb_spec k' k) as [->|]; [|auto].
    exfalso. apply Hni. change k with (fst (k, v)). now apply in_map.
Qed.

Lemma kv_get_app m1 m2 k :
  kv_get (m1 ++ m2) k = match kv_get m1 k with Some v => Some v | None => kv_get m2 k end.
Proof.
  induction m1 as [|[k' v'] m IH]; cbn; [reflexivity|].
  destruct (k' =? k)%N; auto.
Qed.

Lemma kv_get_remove m k k' :
  kv_get (kv_remove m k) k' = if (k' =? k)%N then None else kv_get m k'.
Proof.
  unfold kv_remove. induction m as [|[k0 v0] m IH]; cbn [filter kv_get fst].
  - now destruct (k' =? k)%N.
  - destruct (N.eqb_spec k0 k) as [->|Hn]; cbn [negb].
    + rewrite IH. destruct (N.eqb_spec k' k) as [E|Hn]; [reflexivity|].
      destruct (N.eqb_spec k k'); [congruence|reflexivity].
    + cbn [kv_get]. rewrite IH.
      destruct (N.eqb_spec k0 k') as [E|]; [|reflexivity].
      destruct (N.eqb_spec k' k); [congruence|reflexivity].
Qed.

Lemma kv_get_insert m k v k' :
  kv_get (kv_insert m k v) k' = if (k' =? k)%N then Some v else kv_get m k'.
Proof.
  unfold kv_insert. rewrite kv_get_app, kv_get_remove. cbn [kv_get].
  destruct (N.eqb_spec k' k) as [->|Hn].
  - rewrite N.eqb_refl. reflexivity.
  - destruct (kv_get m k'); [reflexivity|].
    destruct (N.eqb_spec k k'); [congruence|reflexivity].
Qed.

Lemma kv_wf_remove m k : kv_wf m -> kv_wf (kv_remove m k).
Proof.
  unfold kv_wf, kv_remove, kv_keys. induction m as [|[k0 v0] m IH]; cbn; [auto|].
  intros Hn. inversion Hn as [|? ? Hni Hnd]; subst.
  destruct (k0 =? k)%N; cbn; [auto|]. constructor; [|auto].
  intros Hin. apply Hni. apply in_map_iff in Hin as (p & <- & Hp).
  apply filter_In in Hp as [Hp _]. now apply in_map.
Qed.

Lemma kv_wf_insert m k v : kv_wf m -> kv_wf (kv_insert m k v).
Proof.
  intros Hw. pose proof (kv_wf_remove m k Hw) as Hr.
  unfold kv_insert, kv_wf, kv_keys in *. rewrite map_app. cbn.
  apply (NoDup_Add (a:=k) (l:=map fst (kv_remove m k))).
  - rewrite <- (app_nil_r (map fst (kv_remove m k))) at 1. apply Add_app.
  - split; [exact Hr|].
    change (~ In k (kv_keys (kv_remove m k))). rewrite <- kv_get_None, kv_get_remove.
    now rewrite N.eqb_refl.
Qed.

(* ------------------------------------------------------------- transactions *)

(** What a list of updates does to one key: the last update of the key wins. *)
Fixpoint updates_get (us : list update) (k : N) : option (option bytes) :=
  match us with
  | [] => None
  | u :: us' =>
      match updates_get us' k with
      | Some o => Some o
      | None => if (update_key u =? k)%N
                then Some (match u with UInsert _ v => Some v | URemove _ => None end)
                else None
      end
  end.

Lemma apply_updates_get us m k :
  kv_get (fold_left apply_update us m) k =
  match updates_get us k with Some o => o | None => kv_get m k end.
Proof.
  revert m. induction us as [|u us IH]; intros m; cbn [fold_left updates_get]; [reflexivity|].
  rewrite IH. destruct (updates_get us k); [reflexivity|].
  destruct u as [k0 v0|k0]; cbn [apply_update update_key].
  - rewrite kv_get_insert, N.eqb_sym. now destruct (k0 =? k)%N.
  - rewrite kv_get_remove, N.eqb_sym. now destruct (k0 =? k)%N.
Qed.

Lemma apply_updates_wf us m : kv_wf m -> kv_wf (fold_left apply_update us m).
Proof.
  revert m. induction us as [|u us IH]; intros m Hw; cbn; [exact Hw|].
  apply IH. destruct u; [now apply kv_wf_insert | now apply kv_wf_remove].
Qed.

Lemma transaction_ok L f m us m' :
  transaction L f m us = Ok m' -> m' = fold_left apply_update us m.
Proof.
  unfold transaction. destruct (negb _); [discriminate|].
  destruct (_ <? _)%N; [discriminate|]. destruct f; [discriminate|]. congruence.
Qed.

(* ------------------------------------------------------------- get_handles *)

Lemma list_set_length {A} (l : list A) i x : length (list_set l i x) = length l.
Proof. revert i; induction l as [|y l IH]; intros [|i]; cbn; auto. Qed.

Lemma nth_list_set {A} (l : list A) i x j d :
  i < length l -> nth j (list_set l i x) d = if j =? i then x else nth j l d.
Proof.
  revert i j. induction l as [|y l IH]; intros [|i] [|j]; cbn; intros; try lia; auto.
  apply IH. lia.
Qed.

Lemma keys_pos_spec r k p :
  keys_pos r k = Some p <-> (p < keys_len r /\ k = keys_key r p).
Proof.
  unfold keys_pos, keys_len, keys_key.
  destruct (_ && _)%bool eqn:E.
  - split; [intros [= <-]; lia|]. intros [? ->]. f_equal. lia.
  - split; [discriminate|]. intros [? ->]. exfalso. lia.
Qed.

Definition handle_at (m : kv) (r : range) (p : nat) : option (N * bytes) :=
  option_map (pair (keys_key r p)) (kv_get m (keys_key r p)).

Lemma collect_spec r m hs :
  kv_wf m -> length hs = keys_len r ->
  (forall p, p < keys_len r -> kv_get m (keys_key r p) <> None -> nth p hs None = None) ->
  exists hs', collect r m hs = Ok hs' /\ length hs' = keys_len r /\
    forall p, p < keys_len r ->
      nth p hs' None = match handle_at m r p with Some h => Some h | None => nth p hs None end.
Proof.
  unfold kv_wf. revert hs. induction m as [|[k v] m IH]; intros hs Hw Hl Hn.
  - exists hs. cbn. auto.
  - cbn [collect]. inversion Hw as [|? ? Hni Hnd]; subst.
    assert (Hk : kv_get m k = None) by (apply kv_get_None; exact Hni).
    destruct (keys_pos r k) as [p|] eqn:Ep.
    + apply keys_pos_spec in Ep as [Hp Ek].
      destruct (Nat.leb_spec (keys_len r) p); [lia|].
      assert (E0 : nth p hs None = None).
      { apply Hn; [exact Hp|]. rewrite <- Ek. cbn. rewrite N.eqb_refl. discriminate. }
      rewrite E0.
      destruct (IH (list_set hs p (Some (k, v)))) as (hs' & E & Hl' & Hs).
      * exact Hnd.
      * now rewrite list_set_length.
      * intros q Hq Hg. rewrite nth_list_set by lia.
        destruct (Nat.eqb_spec q p) as [->|Hqp]; [congruence|].
        apply Hn; [exact Hq|]. cbn. destruct (k =? _)%N; [discriminate|exact Hg].
      * exists hs'. split; [exact E|split; [exact Hl'|]].
        intros q Hq. rewrite Hs by exact Hq. unfold handle_at. cbn [kv_get].
        rewrite nth_list_set by lia.
        destruct (Nat.eqb_spec q p) as [->|Hqp].
        -- rewrite <- Ek, Hk, N.eqb_refl. reflexivity.
        -- destruct (N.eqb_spec k (keys_key r q)) as [E2|]; [|reflexivity].
           exfalso. subst k. unfold keys_key in E2. lia.
    + destruct (IH hs) as (hs' & E & Hl' & Hs); [exact Hnd|exact Hl| |].
      * intros q Hq Hg. apply Hn; [exact Hq|]. cbn.
        destruct (k =? _)%N; [discriminate|exact Hg].
      * exists hs'. split; [exact E|split; [exact Hl'|]].
        intros q Hq. rewrite Hs by exact Hq. unfold handle_at. cbn [kv_get].
        destruct (N.eqb_spec k (keys_key r q)) as [E2|]; [|reflexivity].
        exfalso. assert (keys_pos r k = Some q) by (apply keys_pos_spec; auto). congruence.
Qed.

Lemma collect_handles r m :
  kv_wf m ->
  collect r m (repeat None (keys_len r)) = Ok (map (handle_at m r) (seq 0 (keys_len r))).
Proof.
  intros Hw.
  destruct (collect_spec r m (repeat None (keys_len r))) as (hs & E & Hl & Hs).
  - exact Hw.
  - apply repeat_length.
  - intros p _ _. apply nth_repeat.
  - rewrite E. f_equal. apply (nth_ext _ _ None (handle_at m r 0)).
    + now rewrite map_length, seq_length.
    + intros p Hp. rewrite Hl in Hp. rewrite Hs by exact Hp.
      rewrite map_nth, seq_nth by exact Hp. cbn.
      destruct (handle_at m r p); [reflexivity|]. apply nth_repeat.
Qed.

Lemma count_some_app {A} (a b : list (option A)) :
  length (filter is_some (a ++ b)) = length (filter is_some a) + length (filter is_some b).
Proof. now rewrite filter_app, app_length. Qed.

Lemma count_map_some {A} (l : list A) : length (filter is_some (map Some l)) = length l.
Proof. induction l; cbn; auto. Qed.

Lemma count_repeat_none {A} n : length (filter is_some (repeat (@None A) n)) = 0.
Proof. induction n; cbn; auto. Qed.

Lemma prefix_handles_ok xs j :
  prefix_handles (length xs) (map Some xs ++ repeat None j) = Ok xs.
Proof.
  induction xs as [|x xs IH]; cbn [length map app prefix_handles].
  - induction j as [|j IHj]; cbn; auto.
  - rewrite IH. reflexivity.
Qed.

Lemma prefix_handles_inv n hs xs :
  prefix_handles n hs = Ok xs ->
  exists j, hs = map Some xs ++ repeat None j.
Proof.
  revert n xs. induction hs as [|h hs IH]; intros n xs; cbn.
  - intros [= <-]. now exists 0.
  - destruct n as [|n], h as [x|]; try discriminate.
    + intros E. destruct (IH _ _ E) as (j & ->).
      destruct xs as [|y xs]; [now exists (S j)|].
      exfalso. clear IH.
      assert (G : forall l ys, prefix_handles 0 l = Ok ys -> ys = []).
      { clear. induction l as [|[?|] l IHl]; cbn; intros ys; [congruence|discriminate|apply IHl]. }
      apply G in E. discriminate.
    + destruct (prefix_handles n hs) as [ys|e] eqn:E; cbn; [|discriminate].
      intros [= <-]. destruct (IH _ _ E) as (j & ->). now exists j.
Qed.

Lemma prefix_handles_err n hs e : prefix_handles n hs = Err e -> e = InvalidStorage.
Proof.
  revert n. induction hs as [|h hs IH]; intros n; cbn; [discriminate|].
  destruct n as [|n], h as [x|]; try congruence; [apply IH|].
  destruct (prefix_handles n hs) eqn:E; cbn; [discriminate|]. intros [= <-]. eauto.
Qed.

Definition with_keys (r : range) (cs : list bytes) : list (N * bytes) :=
  combine (map (keys_key r) (seq 0 (length cs))) cs.

Lemma nth_error_handles m r p :
  p < keys_len r ->
  nth_error (map (handle_at m r) (seq 0 (keys_len r))) p = Some (handle_at m r p).
Proof.
  intros H. apply map_nth_error. 
  rewrite (nth_error_nth' _ 0) by now rewrite seq_length.
  now rewrite seq_nth.
Qed.

Lemma keys_key_N r i : (i < r_end r - r_start r)%N ->
  N.to_nat i < keys_len r /\ keys_key r (N.to_nat i) = (r_start r + i)%N.
Proof. unfold keys_len, keys_key. lia. Qed.

Lemma holds_get m r cs p :
  holds m r cs -> p < keys_len r -> kv_get m (keys_key r p) = nth_error cs p.
Proof.
  intros [_ H] Hp. unfold keys_key, keys_len in *.
  rewrite H by lia. now rewrite Nat2N.id.
Qed.

Lemma holds_len m r cs : holds m r cs -> length cs <= keys_len r.
Proof. intros [H _]. unfold Nlen, keys_len in *. lia. Qed.

Lemma with_keys_app_nth r (cs : list bytes) : forall k p c,
  nth_error cs p = Some c ->
  nth_error (combine (map (keys_key r) (seq k (length cs))) cs) p = Some (keys_key r (k + p), c).
Proof.
  induction cs as [|c0 cs IH]; intros k p c; [now destruct p|].
  destruct p as [|p]; cbn.
  - intros [= ->]. now rewrite Nat.add_0_r.
  - intros H. rewrite (IH (S k) p c H). now rewrite Nat.add_succ_r.
Qed.

Lemma handles_of_holds m r cs :
  holds m r cs ->
  map (handle_at m r) (seq 0 (keys_len r)) =
  map Some (with_keys r cs) ++ repeat None (keys_len r - length cs).
Proof.
  intros H. pose proof (holds_len _ _ _ H) as Hl.
  assert (Hwl : length (with_keys r cs) = length cs).
  { unfold with_keys. rewrite combine_length, map_length, seq_length. lia. }
  apply (nth_ext _ _ None None).
  - rewrite app_length, !map_length, seq_length, repeat_length, Hwl. lia.
  - intros p Hp. rewrite map_length, seq_length in Hp.
    rewrite (nth_error_nth _ _ None (nth_error_handles m r p Hp)).
    unfold handle_at. rewrite (holds_get _ _ _ _ H Hp).
    destruct (nth_error cs p) as [c|] eqn:E.
    + pose proof (nth_error_Some cs p) as Hs. rewrite E in Hs.
      assert (p < length cs) by (apply Hs; discriminate).
      rewrite app_nth1 by (rewrite map_length, Hwl; lia).
      pose proof (with_keys_app_nth r cs 0 p c E) as E2. cbn [Nat.add] in E2.
      symmetry. apply nth_error_nth. apply map_nth_error. exact E2.
    + apply nth_error_None in E.
      rewrite app_nth2 by (rewrite map_length, Hwl; lia). cbn. symmetry. apply nth_repeat.
Qed.

Lemma get_handles_holds m r cs :
  kv_wf m -> holds m r cs -> get_handles m r = Ok (with_keys r cs).
Proof.
  intros Hw H. unfold get_handles. rewrite collect_handles by exact Hw. cbn [rbind].
  rewrite (handles_of_holds m r cs H).
  rewrite count_some_app, count_map_some, count_repeat_none, Nat.add_0_r.
  apply prefix_handles_ok.
Qed.

Lemma get_handles_inv m r hs :
  kv_wf m -> get_handles m r = Ok hs -> exists cs, holds m r cs /\ hs = with_keys r cs.
Proof.
  intros Hw. unfold get_handles. rewrite collect_handles by exact Hw. cbn [rbind].
  intros E. apply prefix_handles_inv in E as (j & E).
  assert (Hlen : keys_len r = length hs + j).
  { apply (f_equal (@length _)) in E.
    rewrite app_length, !map_length, seq_length, repeat_length in E. exact E. }
  assert (Hh : holds m r (map snd hs)).
  { split.
    - unfold Nlen. rewrite map_length. unfold keys_len in Hlen. lia.
    - intros i Hi. destruct (keys_key_N r i Hi) as [Hp Ek].
      pose proof (nth_error_handles m r _ Hp) as G. rewrite E in G.
      unfold handle_at in G. rewrite Ek in G.
      destruct (le_lt_dec (length hs) (N.to_nat i)) as [Hge|Hlt].
      + rewrite nth_error_app2 in G by (rewrite map_length; lia).
        rewrite map_length in G.
        assert (G2 : nth_error (repeat (@None (N * bytes)) j) (N.to_nat i - length hs) = Some None).
        { rewrite (nth_error_nth' _ None) by (rewrite repeat_length; lia).
          now rewrite nth_repeat. }
        rewrite G2 in G. injection G as G.
        destruct (kv_get m _); [discriminate|].
        symmetry. apply nth_error_None. now rewrite map_length.
      + rewrite nth_error_app1 in G by (rewrite map_length; lia).
        destruct (nth_error hs (N.to_nat i)) as [[k v]|] eqn:En.
        * rewrite (map_nth_error Some _ _ En) in G. injection G as G.
          rewrite (map_nth_error snd _ _ En). cbn.
          destruct (kv_get m _); [|discriminate]. cbn in G. congruence.
        * apply nth_error_None in En. lia. }
  exists (map snd hs). split; [exact Hh|].
  pose proof (handles_of_holds m r _ Hh) as E2. rewrite E in E2.
  assert (HX : forall (a b : list (N * bytes)) i j,
    map Some a ++ repeat None i = map Some b ++ repeat None j -> a = b).
  { clear. induction a as [|x a IH]; intros [|y b] i j; cbn; auto.
    - destruct i; discriminate.
    - destruct j; discriminate.
    - intros [= -> H]. f_equal. eauto. }
  eauto.
Qed.

Lemma get_handles_err m r e :
  kv_wf m -> get_handles m r = Err e -> e = InvalidStorage /\ forall cs, ~ holds m r cs.
Proof.
  intros Hw E. split.
  - unfold get_handles in E. rewrite collect_handles in E by exact Hw. cbn [rbind] in E.
    now apply prefix_handles_err in E.
  - intros cs H. rewrite (get_handles_holds m r cs Hw H) in E. discriminate.
Qed.

Lemma flat_map_with_keys r cs : flat_map snd (with_keys r cs) = concat cs.
Proof.
  unfold with_keys. generalize 0.
  induction cs as [|c cs IH]; intros k; cbn; [reflexivity|]. now rewrite IH.
Qed.

Lemma with_keys_nil r cs : with_keys r cs = [] <-> cs = [].
Proof. destruct cs; cbn; split; congruence. Qed.

(* -------------------------------------------------------------------- reads *)

Definition read_result (cs : list bytes) (v : bytes) : option bytes :=
  match cs with [] => None | _ => Some v end.

Lemma read_holds m r cs :
  kv_wf m -> holds m r cs -> frag_read m r = Ok (read_result cs (concat cs)).
Proof.
  intros Hw H. unfold frag_read. rewrite (get_handles_holds m r cs Hw H). cbn [rbind].
  destruct (with_keys r cs) as [|h hs] eqn:E.
  - apply with_keys_nil in E. now subst.
  - rewrite <- E, flat_map_with_keys. destruct cs; [discriminate|reflexivity].
Qed.

Lemma slice_app a b lo hi :
  slice (a ++ b) lo hi = slice a lo hi ++ slice b (lo - Nlen a) (hi - Nlen a).
Proof.
  unfold slice, Nlen. rewrite skipn_app, firstn_app, skipn_length. f_equal.
  replace (N.to_nat (lo - N.of_nat (length a))) with (N.to_nat lo - length a) by lia.
  destruct (N.le_gt_cases hi (N.of_nat (length a))).
  - replace (N.to_nat (hi - N.of_nat (length a) - (lo - N.of_nat (length a)))) with 0 by lia.
    replace (N.to_nat (hi - lo) - (length a - N.to_nat lo)) with 0 by lia. reflexivity.
  - f_equal. lia.
Qed.

Lemma read_chunks_slice hs lo hi off :
  read_chunks hs lo hi off = slice (flat_map snd hs) (lo - off) (hi - off).
Proof.
  revert off. induction hs as [|[k v] hs IH]; intros off.
  - cbn. unfold slice. now rewrite skipn_nil, firstn_nil.
  - cbn [read_chunks flat_map snd]. rewrite slice_app, IH. f_equal.
    + unfold slice, Nlen.
      destruct (N.ltb_spec (lo - off) (N.min (hi - off) (N.of_nat (length v)))).
      * destruct (N.le_gt_cases (hi - off) (N.of_nat (length v))).
        -- do 2 f_equal. lia.
        -- rewrite !firstn_all2 by (rewrite skipn_length; lia). reflexivity.
      * destruct (N.le_gt_cases (N.of_nat (length v)) (lo - off)).
        -- rewrite skipn_all2 by lia. now rewrite firstn_nil.
        -- replace (N.to_nat (hi - off - (lo - off))) with 0 by lia. reflexivity.
    + f_equal; unfold Nlen; lia.
Qed.

Lemma read_range_holds m r cs lo hi :
  kv_wf m -> holds m r cs -> (lo <= hi)%N ->
  frag_read_range m r lo hi = Ok (read_result cs (slice (concat cs) lo hi)).
Proof.
  intros Hw H Hle. unfold frag_read_range.
  destruct (N.ltb_spec hi lo); [lia|].
  rewrite (get_handles_holds m r cs Hw H). cbn [rbind].
  destruct (with_keys r cs) as [|h hs] eqn:E.
  - apply with_keys_nil in E. now subst.
  - rewrite <- E, read_chunks_slice, flat_map_with_keys, !N.sub_0_r.
    destruct cs; [discriminate|reflexivity].
Qed.

(* ------------------------------------------------------------------- writes *)

Lemma chunks_concat n v : 0 < n -> concat (chunks (length v) n v) = v.
Proof.
  intros Hn.
  assert (G : forall f w, length w <= f -> concat (chunks f n w) = w).
  { induction f as [|f IH]; intros [|x w] Hl; cbn [chunks concat length] in *; try lia; auto.
    rewrite IH; [apply firstn_skipn|]. rewrite skipn_length. cbn [length]. lia. }
  apply G. lia.
Qed.

Lemma chunks_bound n v f : Forall (fun c => length c <= n) (chunks f n v).
Proof.
  revert v. induction f as [|f IH]; intros [|x v]; cbn [chunks]; constructor.
  - rewrite firstn_length. lia.
  - apply IH.
Qed.

Lemma chunks_nil n v f : 0 < n -> length v <= f -> (chunks f n v = [] <-> v = []).
Proof. destruct f, v; cbn; split; try congruence; lia. Qed.

Lemma chunks_count n v f : 0 < n -> length v <= f ->
  forall k, length (chunks f n v) <= k <-> length v <= k * n.
Proof.
  intros Hn. revert v. induction f as [|f IH]; intros [|x v] Hl k; cbn [chunks length] in *; try lia.
  assert (Hs : length (skipn n (x :: v)) <= f) by (rewrite skipn_length; cbn [length]; lia).
  specialize (IH _ Hs). rewrite skipn_length in IH. cbn [length] in IH.
  destruct k as [|k]; [lia|].
  specialize (IH k). assert (S k * n = n + k * n) by lia. lia.
Qed.

Definition cell (us : list update) (m : kv) (k : N) :=
  match updates_get us k with Some o => o | None => kv_get m k end.

Lemma updates_get_app a b k :
  updates_get (a ++ b) k = match updates_get b k with Some o => Some o | None => updates_get a k end.
Proof.
  induction a as [|x a IH]; cbn; [now destruct (updates_get b k)|].
  rewrite IH. destruct (updates_get b k); [reflexivity|]. reflexivity.
Qed.

Lemma write_step_key key h c k : updates_get (write_step key h c) k <> None -> k = key.
Proof.
  unfold write_step. destruct h as [[k0 old]|], c as [v|]; cbn; try tauto.
  all: try destruct (list_eq_dec _ _ _); cbn; try tauto.
  all: destruct (N.eqb_spec key k); congruence.
Qed.

Lemma write_step_cell key h c m :
  kv_get m key = option_map snd h -> cell (write_step key h c) m key = c.
Proof.
  unfold write_step, cell. destruct h as [[k0 old]|], c as [v|]; cbn; intros H; auto.
  all: try destruct (list_eq_dec _ _ _); subst; cbn; try rewrite N.eqb_refl; auto.
Qed.

Lemma write_loop_key r todo pos hs cs us rest :
  write_loop r todo pos hs cs = (us, rest) ->
  forall k, updates_get us k <> None -> exists p, pos <= p < pos + todo /\ k = keys_key r p.
Proof.
  revert pos hs cs us rest.
  induction todo as [|todo IH]; intros pos hs cs us rest; cbn [write_loop].
  - intros [= <- <-] k H. now cbn in H.
  - destruct (write_loop r todo (S pos) (tl hs) (tl cs)) as [us' rest'] eqn:E.
    intros [= <- <-] k Hk. rewrite updates_get_app in Hk.
    destruct (updates_get us' k) eqn:Eu.
    + destruct (IH _ _ _ _ _ E k) as (p & Hp & ->); [congruence|].
      exists p. split; [lia|reflexivity].
    + apply write_step_key in Hk. exists pos. split; [lia|auto].
Qed.

Lemma write_loop_spec r todo pos hs cs us rest m :
  write_loop r todo pos hs cs = (us, rest) ->
  (forall i, i < todo -> kv_get m (keys_key r (pos + i)) = option_map snd (nth_error hs i)) ->
  rest = skipn todo cs /\
  forall i, i < todo -> cell us m (keys_key r (pos + i)) = nth_error cs i.
Proof.
  revert pos hs cs us rest.
  induction todo as [|todo IH]; intros pos hs cs us rest; cbn [write_loop].
  - intros [= <- <-] _. split; [reflexivity|lia].
  - destruct (write_loop r todo (S pos) (tl hs) (tl cs)) as [us' rest'] eqn:E'.
    intros [= <- <-] H.
    destruct (IH _ _ _ _ _ E') as [Hr Hc].
    + intros i Hi. specialize (H (S i) ltac:(lia)). rewrite Nat.add_succ_r in H. cbn [Nat.add].
      rewrite H. destruct hs; [now destruct i|reflexivity].
    + split.
      * rewrite Hr. destruct cs; [now rewrite !skipn_nil|reflexivity].
      * intros [|i] Hi.
        -- rewrite Nat.add_0_r. pose proof (H 0 ltac:(lia)) as H0. rewrite Nat.add_0_r in H0.
           assert (H0' : kv_get m (keys_key r pos) = option_map snd (hd_error hs))
             by (rewrite H0; now destruct hs).
           pose proof (write_step_cell _ _ (hd_error cs) _ H0') as G.
           unfold cell in *. rewrite updates_get_app.
           destruct (updates_get us' (keys_key r pos)) eqn:Eu.
           ++ destruct (write_loop_key _ _ _ _ _ _ _ E' (keys_key r pos)) as (p & Hp & Ek).
              { congruence. }
              unfold keys_key in Ek. lia.
           ++ rewrite G. now destruct cs.
        -- specialize (Hc i ltac:(lia)). cbn [Nat.add] in Hc. rewrite Nat.add_succ_r.
           replace (nth_error cs (S i)) with (nth_error (tl cs) i)
             by (destruct cs; [now destruct i|reflexivity]).
           unfold cell in *. rewrite updates_get_app.
           destruct (updates_get us' _) eqn:Eu; [exact Hc|].
           destruct (updates_get (write_step _ _ _) (keys_key r (S (pos + i)))) eqn:Eu2; [|exact Hc].
           exfalso. 
           assert (Ek : keys_key r (S (pos + i)) = keys_key r pos)
             by (eapply write_step_key; rewrite Eu2; discriminate).
           unfold keys_key in Ek. lia.
Qed.

Lemma nth_error_with_keys r cs i : option_map snd (nth_error (with_keys r cs) i) = nth_error cs i.
Proof.
  unfold with_keys. generalize 0. revert i.
  induction cs as [|c cs IH]; intros [|i] k; cbn; auto.
Qed.

Lemma write_spec L f m r cs v m' :
  kv_wf m -> holds m r cs -> (1 <= max_value_len L)%N ->
  frag_write L f m r v = Ok m' ->
  kv_wf m' /\
  holds m' r (chunks (length v) (N.to_nat (max_value_len L)) v) /\
  forall k, ~ in_range r k -> kv_get m' k = kv_get m k.
Proof.
  intros Hw H Hm. unfold frag_write. rewrite (get_handles_holds m r cs Hw H). cbn [rbind].
  set (ch := chunks _ _ v).
  destruct (write_loop r (keys_len r) 0 (with_keys r cs) ch) as [us rest] eqn:E.
  destruct rest; [|discriminate]. intros Ht. apply transaction_ok in Ht. subst m'.
  destruct (write_loop_spec _ _ _ _ _ _ _ m E) as [Hrest Hcell].
  { intros i Hi. rewrite nth_error_with_keys. cbn. now apply holds_get. }
  assert (Hl : length ch <= keys_len r).
  { pose proof (f_equal (@length _) Hrest) as Hx. rewrite skipn_length in Hx. cbn in Hx. lia. }
  split; [now apply apply_updates_wf|split].
  - split.
    + unfold Nlen, keys_len in *. lia.
    + intros i Hi. destruct (keys_key_N r i Hi) as [Hp Ek].
      rewrite apply_updates_get. specialize (Hcell _ Hp). cbn [Nat.add] in Hcell.
      rewrite Ek in Hcell. exact Hcell.
  - intros k Hk. rewrite apply_updates_get.
    destruct (updates_get us k) eqn:Eu; [|reflexivity].
    exfalso. destruct (write_loop_key _ _ _ _ _ _ _ E k) as (p & Hp & ->); [congruence|].
    apply Hk. unfold in_range, keys_key, keys_len in *. lia.
Qed.

Lemma write_too_long L f m r cs v :
  kv_wf m -> holds m r cs -> (1 <= max_value_len L)%N ->
  ((r_end r - r_start r) * max_value_len L < Nlen v)%N ->
  frag_write L f m r v = Err InvalidArgument.
Proof.
  intros Hw H Hm Hlong. unfold frag_write. rewrite (get_handles_holds m r cs Hw H). cbn [rbind].
  set (ch := chunks _ _ v).
  destruct (write_loop r (keys_len r) 0 (with_keys r cs) ch) as [us rest] eqn:E.
  destruct (write_loop_spec _ _ _ _ _ _ _ m E) as [Hrest _].
  { intros i Hi. rewrite nth_error_with_keys. cbn. now apply holds_get. }
  destruct rest; [|reflexivity]. exfalso.
  assert (Hl : length ch <= keys_len r).
  { pose proof (f_equal (@length _) Hrest) as Hx. rewrite skipn_length in Hx. cbn in Hx. lia. }
  apply chunks_count in Hl; [|lia|lia].
  unfold keys_len, Nlen in *.
  assert (N.of_nat (length v) <= N.of_nat (N.to_nat (r_end r - r_start r) * N.to_nat (max_value_len L)))%N by lia.
  rewrite Nat2N.inj_mul, !N2Nat.id in H0. lia.
Qed.

Lemma updates_valid_nodup L us seen :
  (forall u, In u us -> (update_key u <= MAX_KEY)%N /\
     match u with UInsert _ v => (Nlen v <= max_value_len L)%N | _ => True end) ->
  NoDup (map update_key us) -> (forall k, In k seen -> ~ In k (map update_key us)) ->
  updates_valid L seen us = true.
Proof.
  revert seen. induction us as [|u us IH]; intros seen Hu Hn Hs; [reflexivity|].
  cbn [updates_valid]. inversion Hn as [|? ? Hni Hnd]; subst.
  destruct (Hu u (or_introl eq_refl)) as [Hk Hv].
  rewrite !andb_true_iff. repeat split.
  - lia.
  - destruct u; [lia|reflexivity].
  - apply negb_true_iff. apply not_true_is_false. intros Hx.
    apply existsb_exists in Hx as (k & Hin & Ek). apply N.eqb_eq in Ek. subst k.
    apply (Hs _ Hin). now left.
  - apply IH; [intros; apply Hu; now right|exact Hnd|].
    intros k [<-|Hin]; [exact Hni|]. intros Hx. apply (Hs _ Hin). now right.
Qed.

Lemma write_loop_valid L r todo pos hs cs us rest :
  write_loop r todo pos hs cs = (us, rest) ->
  (keys_key r (pos + todo) <= MAX_KEY + 1)%N ->
  Forall (fun c => (Nlen c <= max_value_len L)%N) cs ->
  length us <= todo /\
  NoDup (map update_key us) /\
  (forall u, In u us -> (keys_key r pos <= update_key u)%N /\ (update_key u <= MAX_KEY)%N /\
     match u with UInsert _ v => (Nlen v <= max_value_len L)%N | _ => True end).
Proof.
  revert pos hs cs us rest.
  induction todo as [|todo IH]; intros pos hs cs us rest; cbn [write_loop].
  - intros [= <- <-] _ _. cbn. split; [lia|split; [constructor|tauto]].
  - destruct (write_loop r todo (S pos) (tl hs) (tl cs)) as [us' rest'] eqn:E'.
    intros [= <- <-] Hk Hf.
    destruct (IH _ _ _ _ _ E') as (Hl & Hn & Hu).
    { cbn [Nat.add]. rewrite Nat.add_succ_r in Hk. exact Hk. }
    { destruct Hf; [constructor|assumption]. }
    assert (Hst : exists s, write_step (keys_key r pos) (hd_error hs) (hd_error cs) = s /\
       (s = [] \/ s = [URemove (keys_key r pos)] \/
        exists v, s = [UInsert (keys_key r pos) v] /\ (Nlen v <= max_value_len L)%N)).
    { eexists; split; [reflexivity|]. unfold write_step.
      destruct Hf as [|c cs Hc Hf]; destruct hs as [|[k0 old] hs]; cbn; auto.
      - right; right; eauto.
      - destruct (list_eq_dec _ _ _); [auto|]. right; right; eauto. }
    destruct Hst as (s & -> & Hs).
    assert (Hfresh : ~ In (keys_key r pos) (map update_key us')).
    { intros Hin. apply in_map_iff in Hin as (u & Eu & Hin). apply Hu in Hin as (Hx & _).
      unfold keys_key in *. lia. }
    assert (Hup : forall u, In u us' -> (keys_key r pos <= update_key u)%N /\ (update_key u <= MAX_KEY)%N /\
       match u with UInsert _ v => (Nlen v <= max_value_len L)%N | _ => True end).
    { intros u Hin. destruct (Hu u Hin) as (? & ? & ?). unfold keys_key in *. repeat split; auto; lia. }
    assert (Hme : (keys_key r pos <= MAX_KEY)%N) by (unfold keys_key, MAX_KEY in *; lia).
    destruct Hs as [->|[->|(v & -> & Hv)]]; cbn [app length map].
    + split; [lia|split; auto].
    + split; [lia|split; [constructor; auto|]]. intros u [<-|Hin]; [cbn; repeat split; auto; lia|auto].
    + split; [lia|split; [constructor; auto|]]. intros u [<-|Hin]; [cbn; repeat split; auto; lia|auto].
Qed.

(** The room the write of [v] may need: one marker and one entry per chunk and per removal. *)
Lemma fragment_transaction L f m r cs v :
  kv_wf m -> holds m r cs -> (1 <= max_value_len L)%N ->
  (r_start r <= r_end r)%N -> (r_end r - r_start r <= MAX_UPDATES)%N ->
  (r_end r <= MAX_KEY + 1)%N ->
  (Nlen v <= (r_end r - r_start r) * max_value_len L)%N ->
  exists us, frag_write L f m r v = transaction L f m us /\ transaction_valid L us = true.
Proof.
  intros Hw H Hm Hse Hn Hk Hlen. unfold frag_write. rewrite (get_handles_holds m r cs Hw H). cbn [rbind].
  set (ch := chunks _ _ v).
  destruct (write_loop r (keys_len r) 0 (with_keys r cs) ch) as [us rest] eqn:E.
  destruct (write_loop_spec _ _ _ _ _ _ _ m E) as [Hrest _].
  { intros i Hi. rewrite nth_error_with_keys. cbn. now apply holds_get. }
  assert (Hl : length ch <= keys_len r).
  { unfold ch. apply chunks_count; [lia|lia|]. unfold keys_len, Nlen in *.
    rewrite <- N2Nat.inj_mul. lia. }
  rewrite skipn_all2 in Hrest by exact Hl. subst rest.
  exists us. split; [reflexivity|].
  destruct (write_loop_valid L _ _ _ _ _ _ _ E) as (Hlu & Hnd & Hu).
  { unfold keys_key, keys_len, MAX_KEY in *. lia. }
  { unfold ch. eapply Forall_impl; [|apply chunks_bound]. intros c Hc. cbn in Hc. unfold Nlen. lia. }
  unfold transaction_valid. apply andb_true_iff. split.
  - unfold Nlen, keys_len, MAX_UPDATES in *. lia.
  - apply updates_valid_nodup; [|exact Hnd|intros k []].
    intros u Hin. destruct (Hu u Hin) as (_ & ? & ?). auto.
Qed.

Lemma delete_spec L f m r cs m' :
  kv_wf m -> holds m r cs -> frag_delete L f m r = Ok m' ->
  kv_wf m' /\ holds m' r [] /\ forall k, ~ in_range r k -> kv_get m' k = kv_get m k.
Proof.
  intros Hw H. unfold frag_delete. rewrite (get_handles_holds m r cs Hw H). cbn [rbind].
  intros Ht. apply transaction_ok in Ht. subst m'.
  assert (G : forall k, updates_get (map (fun h : N * bytes => URemove (fst h)) (with_keys r cs)) k =
     if existsb (N.eqb k) (map fst (with_keys r cs)) then Some None else None).
  { intros k. generalize (with_keys r cs). induction l as [|h l IH]; cbn; [reflexivity|].
    rewrite IH. rewrite (N.eqb_sym (fst h) k).
    destruct (existsb _ _); [now rewrite orb_true_r|]. now rewrite orb_false_r. }
  assert (Hkeys : map fst (with_keys r cs) = map (keys_key r) (seq 0 (length cs))).
  { unfold with_keys. generalize 0. clear.
    induction cs as [|c cs IH]; intros k; cbn; [reflexivity|]. f_equal. apply IH. }
  pose proof (holds_len _ _ _ H) as Hl.
  split; [now apply apply_updates_wf|split].
  - split; [unfold Nlen; cbn; lia|]. intros i Hi.
    destruct (keys_key_N r i Hi) as [Hp Ek].
    rewrite apply_updates_get, G, Hkeys.
    destruct (existsb _ _) eqn:Ex; [now destruct (N.to_nat i)|].
    rewrite <- Ek, (holds_get _ _ _ _ H Hp).
    destruct (nth_error cs (N.to_nat i)) eqn:En; [|now destruct (N.to_nat i)].
    exfalso. apply not_true_iff_false in Ex. apply Ex. apply existsb_exists.
    exists (keys_key r (N.to_nat i)). split; [|apply N.eqb_eq; now rewrite Ek].
    apply in_map, in_seq. split; [lia|]. cbn. apply nth_error_Some. congruence.
  - intros k Hk. rewrite apply_updates_get, G, Hkeys.
    destruct (existsb _ _) eqn:Ex; [|reflexivity]. exfalso.
    apply existsb_exists in Ex as (k' & Hin & Ek). apply N.eqb_eq in Ek. subst k'.
    apply in_map_iff in Hin as (p & <- & Hp). apply in_seq in Hp.
    apply Hk. unfold in_range, keys_key, keys_len in *. lia.
Qed.

(* ------------------------------------------------------------------- concat *)

Lemma cencode_app a b : cencode (a ++ b) = cencode a ++ cencode b.
Proof. apply flat_map_app. Qed.

Lemma cfind_total f values index pos : length values <= pos + f ->
  cfind_from f values index pos <> Err SPanic.
Proof.
  revert pos. induction f as [|f IH]; intros pos H; cbn [cfind_from].
  - destruct (Nat.leb_spec (length values) pos); [discriminate|lia].
  - destruct (Nat.leb_spec (length values) pos); [discriminate|].
    destruct (Nat.eqb_spec pos (length values - 1)); [discriminate|].
    destruct (nth_error values (pos + 1)) as [l|] eqn:E1;
      [|apply nth_error_None in E1; lia].
    destruct (nth_error values pos) as [i|] eqn:E2;
      [|apply nth_error_None in E2; lia].
    destruct (Nat.ltb_spec (length values) 2); [lia|].
    destruct (_ || _)%bool; [discriminate|].
    destruct (index =? i)%N; [discriminate|]. apply IH. lia.
Qed.

Lemma cfind_in_bounds f values index pos s e :
  cfind_from f values index pos = Ok (Some (s, e)) ->
  2 <= s /\ s <= e /\ e <= length values.
Proof.
  revert pos. induction f as [|f IH]; intros pos; cbn [cfind_from].
  - destruct (_ <=? _); discriminate.
  - destruct (Nat.leb_spec (length values) pos); [discriminate|].
    destruct (Nat.eqb_spec pos (length values - 1)); [discriminate|].
    destruct (nth_error values (pos + 1)) as [l|]; [|discriminate].
    destruct (nth_error values pos) as [i|]; [|discriminate].
    destruct (Nat.ltb_spec (length values) 2); [discriminate|].
    destruct (_ || _)%bool eqn:E; [discriminate|].
    destruct (index =? i)%N; [|apply IH]. intros [= <- <-].
    apply orb_false_iff in E as [E1 E2]. lia.
Qed.

(** The records before the first one of the given index. *)
Fixpoint before (l : list (N * bytes)) (i : N) : list (N * bytes) :=
  match l with
  | [] => []
  | p :: l' => if (i =? fst p)%N then [] else p :: before l' i
  end.

Lemma nth_error_length_app {A} (a b : list A) : nth_error (a ++ b) (length a) = hd_error b.
Proof. rewrite nth_error_app2, Nat.sub_diag by lia. now destruct b. Qed.

Lemma cfind_encoded post index : forall pre f,
  length (cencode post) <= f ->
  cfind_from f (pre ++ cencode post) index (length pre) =
  Ok (match find (fun p => (index =? fst p)%N) post with
      | None => None
      | Some (_, v) =>
          let s := length pre + length (cencode (before post index)) + 2 in
          Some (s, s + length v)
      end).
Proof.
  induction post as [|[i v] post IH]; intros pre f Hf.
  - cbn [cencode flat_map find]. rewrite app_nil_r.
    destruct f; cbn [cfind_from]; destruct (Nat.leb_spec (length pre) (length pre)); auto; lia.
  - change (cencode ((i, v) :: post)) with (i :: Nlen v :: v ++ cencode post) in *.
    cbn [length] in Hf. rewrite app_length in Hf.
    destruct f as [|f]; [lia|].
    set (values := pre ++ i :: Nlen v :: v ++ cencode post).
    assert (Hlen : length values = length pre + 2 + length v + length (cencode post)).
    { unfold values. rewrite app_length. cbn [length]. rewrite app_length. lia. }
    assert (E0 : nth_error values (length pre) = Some i)
      by (unfold values; now rewrite nth_error_length_app).
    assert (E1 : nth_error values (length pre + 1) = Some (Nlen v)).
    { unfold values. rewrite nth_error_app2 by lia.
      replace (length pre + 1 - length pre) with 1 by lia. reflexivity. }
    cbn [cfind_from].
    destruct (Nat.leb_spec (length values) (length pre)); [lia|].
    destruct (Nat.eqb_spec (length pre) (length values - 1)); [lia|].
    rewrite E0, E1.
    assert (Hnl : N.to_nat (Nlen v) = length v) by (unfold Nlen; lia). rewrite Hnl.
    destruct (Nat.ltb_spec (length values) 2); [lia|].
    destruct (Nat.ltb_spec (length values - 2) (length v)); [lia|].
    destruct (Nat.ltb_spec (length values - 2 - length v) (length pre)); [lia|].
    cbn [orb find before fst]. destruct (index =? i)%N eqn:Ei.
    + cbn [cencode flat_map length]. do 2 f_equal. f_equal; lia.
    + replace values with ((pre ++ i :: Nlen v :: v) ++ cencode post)
        by (unfold values; rewrite <- app_assoc; reflexivity).
      replace (length pre + 2 + length v) with (length (pre ++ i :: Nlen v :: v))
        by (rewrite app_length; cbn [length]; lia).
      rewrite IH by lia. f_equal.
      destruct (find _ post) as [[i' v']|]; [|reflexivity]. cbn zeta.
      rewrite app_length. 
      change (cencode ((i, v) :: before post index)) with (i :: Nlen v :: v ++ cencode (before post index)).
      cbn [length]. rewrite app_length. f_equal. f_equal; lia.
Qed.

Lemma find_before l i p : find (fun q => (i =? fst q)%N) l = Some p ->
  exists after, l = before l i ++ p :: after /\ fst p = i.
Proof.
  induction l as [|q l IH]; cbn; [discriminate|].
  destruct (N.eqb_spec i (fst q)) as [->|Hn].
  - intros [= ->]. exists l. auto.
  - intros H. destruct (IH H) as (a & E & Ep). exists a. split; [cbn; now rewrite <- E|exact Ep].
Qed.

(** Replacing the record of [index], or adding one. *)
Fixpoint creplace (l : list (N * bytes)) (i : N) (v : bytes) : list (N * bytes) :=
  match l with
  | [] => [(i, v)]
  | p :: l' => if (i =? fst p)%N then (i, v) :: l' else p :: creplace l' i v
  end.
Fixpoint cremove (l : list (N * bytes)) (i : N) : list (N * bytes) :=
  match l with
  | [] => []
  | p :: l' => if (i =? fst p)%N then l' else p :: cremove l' i
  end.

Lemma creplace_found l i v p after :
  l = before l i ++ p :: after -> fst p = i -> creplace l i v = before l i ++ (i, v) :: after.
Proof.
  induction l as [|q l IH]; cbn; [discriminate|].
  destruct (N.eqb_spec i (fst q)) as [->|Hn]; cbn.
  - intros [= -> ->] _. reflexivity.
  - intros [= E] Ep. f_equal. now apply IH.
Qed.

Lemma cremove_found l i p after :
  l = before l i ++ p :: after -> fst p = i -> cremove l i = before l i ++ after.
Proof.
  induction l as [|q l IH]; cbn; [discriminate|].
  destruct (N.eqb_spec i (fst q)) as [->|Hn]; cbn.
  - intros [= -> ->] _. reflexivity.
  - intros [= E] Ep. f_equal. now apply IH.
Qed.

Lemma creplace_absent l i v :
  find (fun q => (i =? fst q)%N) l = None -> creplace l i v = l ++ [(i, v)].
Proof.
  induction l as [|q l IH]; cbn; [auto|]. destruct (i =? fst q)%N; [discriminate|].
  intros H. now rewrite IH.
Qed.

Lemma firstn_length_app {A} (a b : list A) : firstn (length a) (a ++ b) = a.
Proof. rewrite firstn_app, Nat.sub_diag, firstn_all. apply app_nil_r. Qed.
Lemma skipn_length_app {A} (a b : list A) : skipn (length a) (a ++ b) = b.
Proof. rewrite skipn_app, Nat.sub_diag, skipn_all. reflexivity. Qed.
Lemma firstn_eq_app {A} (a b : list A) n : n = length a -> firstn n (a ++ b) = a.
Proof. intros ->. apply firstn_length_app. Qed.
Lemma skipn_eq_app {A} (a b : list A) n : n = length a -> skipn n (a ++ b) = b.
Proof. intros ->. apply skipn_length_app. Qed.

Lemma list_set_app {A} (a b : list A) x y : list_set (a ++ x :: b) (length a) y = a ++ y :: b.
Proof. induction a; cbn; congruence. Qed.

Lemma replace_in_spec pre i l0 old post v :
  replace_in (pre ++ i :: l0 :: old ++ post) (length pre + 2) (length pre + 2 + length old) v =
  pre ++ i :: Nlen v :: v ++ post.
Proof.
  unfold replace_in.
  assert (E : list_set (pre ++ i :: l0 :: old ++ post) (length pre + 2 - 1) (Nlen v) =
              (pre ++ [i; Nlen v]) ++ old ++ post).
  { replace (pre ++ i :: l0 :: old ++ post) with ((pre ++ [i]) ++ l0 :: old ++ post)
      by (rewrite <- app_assoc; reflexivity).
    replace (length pre + 2 - 1) with (length (pre ++ [i])) by (rewrite app_length; cbn; lia).
    rewrite list_set_app, <- !app_assoc. reflexivity. }
  rewrite E. set (h := pre ++ [i; Nlen v]).
  assert (Hh : length pre + 2 = length h) by (unfold h; rewrite app_length; cbn; lia).
  rewrite Hh. replace (length h + length old - length h) with (length old) by lia.
  replace (pre ++ i :: Nlen v :: v ++ post) with (h ++ v ++ post)
    by (unfold h; rewrite <- app_assoc; reflexivity).
  destruct (Nat.ltb_spec (length old) (length v)).
  - set (d := length v - length old).
    unfold rotate_right_from.
    replace ((h ++ old ++ post) ++ repeat 0%N d) with ((h ++ old) ++ post ++ repeat 0%N d)
      by (rewrite <- !app_assoc; reflexivity).
    rewrite (firstn_eq_app (h ++ old)) by (rewrite app_length; lia).
    rewrite (skipn_eq_app (h ++ old)) by (rewrite app_length; lia).
    assert (Hd : length (repeat 0%N d) = d) by apply repeat_length.
    replace (length (post ++ repeat 0%N d) - d) with (length post) by (rewrite app_length; lia).
    rewrite skipn_length_app, firstn_length_app.
    replace ((h ++ old) ++ repeat 0%N d ++ post) with (h ++ (old ++ repeat 0%N d) ++ post)
      by (rewrite <- !app_assoc; reflexivity).
    rewrite firstn_length_app. do 2 f_equal.
    rewrite app_assoc. apply skipn_eq_app. rewrite !app_length, Hd. unfold d. lia.
  - destruct (Nat.ltb_spec (length v) (length old)).
    + set (d := length old - length v).
      replace (length h + length old - d) with (length h + length v) by (unfold d; lia).
      unfold rotate_left_from.
      replace (h ++ old ++ post) with ((h ++ firstn (length v) old) ++ skipn (length v) old ++ post)
        by (rewrite <- !app_assoc; f_equal; rewrite app_assoc, firstn_skipn; reflexivity).
      assert (Hf : length (firstn (length v) old) = length v) by (rewrite firstn_length; lia).
      assert (Hs : length (skipn (length v) old) = d) by (rewrite skipn_length; unfold d; lia).
      rewrite (firstn_eq_app (h ++ _)) by (rewrite app_length; lia).
      rewrite (skipn_eq_app (h ++ _)) by (rewrite app_length; lia).
      rewrite (skipn_eq_app (skipn (length v) old) post d) by lia.
      rewrite (firstn_eq_app (skipn (length v) old) post d) by lia.
      set (x := firstn (length v) old) in *. set (y := skipn (length v) old) in *.
      rewrite (app_assoc (h ++ x)).
      rewrite (firstn_eq_app ((h ++ x) ++ post) y) by (rewrite app_length; lia).
      rewrite <- (app_assoc h x post), firstn_length_app. do 2 f_equal.
      rewrite app_assoc. apply skipn_eq_app. rewrite app_length. lia.
    + assert (length old = length v) by lia.
      rewrite firstn_length_app. do 2 f_equal.
      rewrite app_assoc. apply skipn_eq_app. rewrite app_length. lia.
Qed.

Lemma concat_write_encode l i v :
  match cfind (cencode l) i with
  | Ok None => Some (cencode l ++ i :: Nlen v :: v)
  | Ok (Some (s, e)) => Some (replace_in (cencode l) s e v)
  | Err _ => None
  end = Some (cencode (creplace l i v)).
Proof.
  unfold cfind.
  pose proof (cfind_encoded l i [] (length (cencode l)) (le_n _)) as E.
  cbn [app length] in E. rewrite E. clear E.
  destruct (find _ l) as [[i' old]|] eqn:Ef.
  - destruct (find_before _ _ _ Ef) as (after & El & Ei). cbn in Ei. subst i'.
    rewrite (creplace_found l i v (i, old) after El eq_refl).
    f_equal. rewrite cencode_app.
    rewrite El at 1. rewrite cencode_app.
    change (cencode ((i, old) :: after)) with (i :: Nlen old :: old ++ cencode after).
    change (cencode ((i, v) :: after)) with (i :: Nlen v :: v ++ cencode after).
    cbn [Nat.add]. apply replace_in_spec.
  - rewrite creplace_absent by exact Ef. rewrite cencode_app. cbn. now rewrite app_nil_r.
Qed.

Lemma concat_delete_encode l i s e :
  cfind (cencode l) i = Ok (Some (s, e)) ->
  firstn (length (rotate_left_from (s - 2) (e - (s - 2)) (cencode l)) - (e - (s - 2)))
    (rotate_left_from (s - 2) (e - (s - 2)) (cencode l)) = cencode (cremove l i).
Proof.
  unfold cfind.
  pose proof (cfind_encoded l i [] (length (cencode l)) (le_n _)) as E.
  cbn [app length] in E. rewrite E. clear E.
  destruct (find _ l) as [[i' old]|] eqn:Ef; [|discriminate].
  destruct (find_before _ _ _ Ef) as (after & El & Ei). cbn in Ei. subst i'.
  rewrite (cremove_found l i (i, old) after El eq_refl), cencode_app.
  set (B := cencode (before l i)). set (A := cencode after).
  assert (EC : cencode l = B ++ (i :: Nlen old :: old) ++ A).
  { rewrite El at 1. rewrite cencode_app. reflexivity. }
  rewrite EC. clear EC El Ef. cbn [Nat.add].
  intros [= <- <-].
  replace (length B + 2 - 2) with (length B) by lia.
  replace (length B + 2 + length old - length B) with (length (i :: Nlen old :: old)) by (cbn [length]; lia).
  set (R := i :: Nlen old :: old).
  unfold rotate_left_from. rewrite firstn_length_app, skipn_length_app, skipn_length_app, firstn_length_app.
  rewrite app_assoc. apply firstn_eq_app. rewrite !app_length. lia.
Qed.

Lemma clookup_replace l i v j :
  clookup (creplace l i v) j = if (j =? i)%N then Some v else clookup l j.
Proof.
  unfold clookup. induction l as [|p l IH]; cbn.
  - now destruct (j =? i)%N.
  - destruct (N.eqb_spec i (fst p)) as [E|Hn]; cbn.
    + rewrite <- E. now destruct (j =? i)%N.
    + destruct (N.eqb_spec j (fst p)) as [->|]; [|exact IH].
      destruct (N.eqb_spec (fst p) i); [congruence|reflexivity].
Qed.

Lemma clookup_remove l i j :
  NoDup (map fst l) ->
  clookup (cremove l i) j = if (j =? i)%N then None else clookup l j.
Proof.
  unfold clookup. induction l as [|p l IH]; cbn; intros Hn.
  - now destruct (j =? i)%N.
  - inversion Hn as [|? ? Hni Hnd]; subst.
    destruct (N.eqb_spec i (fst p)) as [->|Hi]; cbn.
    + destruct (N.eqb_spec j (fst p)) as [Ej|]; [|reflexivity].
      destruct (find (fun q => (j =? fst q)%N) l) as [q|] eqn:Ef; [|reflexivity].
      exfalso. apply find_some in Ef as [Hin Eq]. apply N.eqb_eq in Eq.
      apply Hni. rewrite <- Ej, Eq. now apply in_map.
    + destruct (N.eqb_spec j (fst p)) as [->|]; [|auto].
      destruct (N.eqb_spec (fst p) i); [congruence|reflexivity].
Qed.

Lemma creplace_keys l i v :
  map fst (creplace l i v) = if existsb (N.eqb i) (map fst l) then map fst l else map fst l ++ [i].
Proof.
  induction l as [|p l IH]; cbn; [reflexivity|].
  destruct (N.eqb_spec i (fst p)) as [->|]; cbn; [reflexivity|].
  rewrite IH. now destruct (existsb _ _).
Qed.

Lemma NoDup_snoc {A} (l : list A) x : NoDup l -> ~ In x l -> NoDup (l ++ [x]).
Proof.
  intros Hn Hi. apply (NoDup_Add (a:=x) (l:=l)); [|auto].
  rewrite <- (app_nil_r l) at 1. apply Add_app.
Qed.

Lemma creplace_nodup l i v : NoDup (map fst l) -> NoDup (map fst (creplace l i v)).
Proof.
  rewrite creplace_keys. destruct (existsb _ _) eqn:E; [auto|].
  intros Hn. apply NoDup_snoc; [exact Hn|]. intros Hin.
  apply not_true_iff_false in E. apply E. apply existsb_exists. exists i.
  split; [exact Hin|apply N.eqb_refl].
Qed.

Lemma cremove_incl l i p : In p (cremove l i) -> In p l.
Proof.
  induction l as [|q l IH]; cbn; [tauto|]. destruct (i =? fst q)%N; cbn; tauto.
Qed.

Lemma cremove_nodup l i : NoDup (map fst l) -> NoDup (map fst (cremove l i)).
Proof.
  induction l as [|q l IH]; cbn; [auto|]. intros Hn. inversion Hn as [|? ? Hni Hnd]; subst.
  destruct (i =? fst q)%N; cbn; [exact Hnd|]. constructor; [|auto].
  intros Hin. apply Hni. apply in_map_iff in Hin as (p & <- & Hp). apply in_map.
  now apply cremove_incl in Hp.
Qed.

Lemma concat_read_spec m key index l :
  cvalue m key = cencode l -> concat_read m key index = Ok (clookup l index).
Proof.
  unfold cvalue, concat_read. destruct (kv_get m key) as [values|].
  - intros ->. unfold cfind.
    pose proof (cfind_encoded l index [] (length (cencode l)) (le_n _)) as E.
    cbn [app length] in E. rewrite E. clear E. cbn [rbind]. unfold clookup.
    destruct (find _ l) as [[i old]|] eqn:Ef; [|reflexivity]. cbn [option_map snd].
    destruct (find_before _ _ _ Ef) as (after & El & Ei). cbn in Ei. subst i.
    set (B := cencode (before l index)).
    assert (EC : cencode l = (B ++ [index; Nlen old]) ++ old ++ cencode after).
    { rewrite El at 1. rewrite cencode_app, <- app_assoc. reflexivity. }
    rewrite EC. cbn [Nat.add].
    assert (Hh : length B + 2 = length (B ++ [index; Nlen old])) by (rewrite app_length; reflexivity).
    rewrite Hh. set (h := B ++ [index; Nlen old]).
    rewrite !app_length.
    destruct (Nat.leb_spec (length h) (length h + length old)); [|lia].
    destruct (Nat.leb_spec (length h + length old) (length h + (length old + length (cencode after)))); [|lia].
    cbn [andb]. rewrite skipn_length_app.
    replace (length h + length old - length h) with (length old) by lia.
    now rewrite firstn_length_app.
  - intros E. destruct l as [|p l]; [reflexivity|discriminate].
Qed.

Lemma cvalue_insert m key v k :
  cvalue (kv_insert m key v) k = if (k =? key)%N then v else cvalue m k.
Proof. unfold cvalue. rewrite kv_get_insert. now destruct (k =? key)%N. Qed.

Lemma cencode_byte_len l : Forall (fun p => (Nlen (snd p) <= 255)%N) l ->
  (forall p, In p l -> byte_ok (fst p) = true /\ bytes_ok (snd p) = true) ->
  bytes_ok (cencode l) = true.
Proof.
  induction 1 as [|[i v] l Hv Hl IH]; intros Hb; [reflexivity|].
  change (cencode ((i, v) :: l)) with (i :: Nlen v :: v ++ cencode l).
  destruct (Hb (i, v) (or_introl eq_refl)) as [Hi Hv2]. cbn [fst snd] in *.
  cbn [bytes_ok forallb]. rewrite Hi. fold (bytes_ok (v ++ cencode l)).
  rewrite bytes_ok_app, Hv2, IH by (intros; apply Hb; now right).
  unfold byte_ok. rewrite !andb_true_r. cbn. lia.
Qed.

Lemma concat_write_spec L f m key i v m' l :
  cvalue m key = cencode l -> concat_write L f m key i v = Ok m' ->
  (Nlen v <= 255)%N /\ m' = kv_insert m key (cencode (creplace l i v)).
Proof.
  intros Hc. unfold concat_write. destruct (N.ltb_spec 255 (Nlen v)); [discriminate|].
  change (match kv_get m key with Some x => x | None => [] end) with (cvalue m key).
  rewrite Hc. pose proof (concat_write_encode l i v) as E.
  destruct (cfind (cencode l) i) as [[[s e]|]|]; cbn [rbind]; [| |discriminate].
  - injection E as E. rewrite E. intros Ht. apply transaction_ok in Ht. cbn in Ht. auto.
  - injection E as E. rewrite E. intros Ht. apply transaction_ok in Ht. cbn in Ht. auto.
Qed.

Lemma cremove_absent l i : find (fun q => (i =? fst q)%N) l = None -> cremove l i = l.
Proof.
  induction l as [|p l IH]; cbn; [auto|]. destruct (i =? fst p)%N; [discriminate|].
  intros H. now rewrite IH.
Qed.

Lemma concat_delete_spec L f m key i m' l :
  cvalue m key = cencode l -> concat_delete L f m key i = Ok m' ->
  (m' = m /\ cremove l i = l) \/ m' = kv_insert m key (cencode (cremove l i)).
Proof.
  unfold cvalue, concat_delete. destruct (kv_get m key) as [values|].
  - intros ->. 
    pose proof (cfind_encoded l i [] (length (cencode l)) (le_n _)) as E.
    cbn [app length] in E. fold (cfind (cencode l) i) in E.
    pose proof (concat_delete_encode l i) as D.
    destruct (cfind (cencode l) i) as [[[s e]|]|] eqn:Ec; cbn [rbind]; [| |discriminate].
    + rewrite (D s e eq_refl). intros Ht. apply transaction_ok in Ht. cbn in Ht. auto.
    + intros [= <-]. left. split; [reflexivity|]. apply cremove_absent.
      injection E as E. destruct (find _ l) as [[? ?]|]; [discriminate|reflexivity].
  - intros E [= <-]. left. split; [reflexivity|]. destruct l; [reflexivity|discriminate].
Qed.

(** Invariant of histories. *)
Definition cinv (m : kv) (key : N) (spec : N -> option bytes) : Prop :=
  exists l, cvalue m key = cencode l /\ NoDup (map fst l) /\ cwf l /\
            forall i, clookup l i = spec i.

Lemma cwf_replace l i v : cwf l -> (Nlen v <= 255)%N -> cwf (creplace l i v).
Proof.
  unfold cwf. induction 1 as [|p l Hp Hl IH]; intros Hv; cbn; [auto|].
  destruct (_ =? _)%N; constructor; auto.
Qed.
Lemma cwf_remove l i : cwf l -> cwf (cremove l i).
Proof.
  unfold cwf. induction 1 as [|p l Hp Hl IH]; cbn; [auto|].
  destruct (_ =? _)%N; auto.
Qed.

Lemma cinv_write L f m key spec i v m' :
  cinv m key spec -> concat_write L f m key i v = Ok m' ->
  cinv m' key (fun j => if (j =? i)%N then Some v else spec j) /\
  forall k, k <> key -> kv_get m' k = kv_get m k.
Proof.
  intros (l & Hc & Hn & Hw & Hs) E.
  destruct (concat_write_spec _ _ _ _ _ _ _ _ Hc E) as [Hv ->]. split.
  - exists (creplace l i v). rewrite cvalue_insert, N.eqb_refl.
    split; [reflexivity|split; [now apply creplace_nodup|split; [now apply cwf_replace|]]].
    intros j. rewrite clookup_replace. now rewrite Hs.
  - intros k Hk. rewrite kv_get_insert. destruct (N.eqb_spec k key); congruence.
Qed.

Lemma cinv_delete L f m key spec i m' :
  cinv m key spec -> concat_delete L f m key i = Ok m' ->
  cinv m' key (fun j => if (j =? i)%N then None else spec j) /\
  forall k, k <> key -> kv_get m' k = kv_get m k.
Proof.
  intros (l & Hc & Hn & Hw & Hs) E.
  assert (G : forall m'', cvalue m'' key = cencode (cremove l i) ->
     cinv m'' key (fun j => if (j =? i)%N then None else spec j)).
  { intros m'' Hm. exists (cremove l i).
    split; [exact Hm|split; [now apply cremove_nodup|split; [now apply cwf_remove|]]].
    intros j. rewrite clookup_remove by exact Hn. now rewrite Hs. }
  destruct (concat_delete_spec _ _ _ _ _ _ _ Hc E) as [[-> Er]| ->].
  - split; [|auto]. apply G. now rewrite Er.
  - split.
    + apply G. now rewrite cvalue_insert, N.eqb_refl.
    + intros k Hk. rewrite kv_get_insert. destruct (N.eqb_spec k key); congruence.
Qed.
