(** Properties C15 to C18: the store is a map from keys to values, survives any loss of power,
    keeps its content and makes room when it compacts, and respects the flash. *)
From Coq Require Import Permutation.
From Verif Require Import Base Facts.
From Verif.Kv Require Import Model Proofs.
From Verif.Store Require Import Format Bits Words Geom Model Wp Entries Layout Scan Steps Ents Window Shapes Compact Room Finish Oper Redo Undo Recover System StoreSpec History PropsFormat.
Open Scope nat_scope.
Ltac Zify.zify_post_hook ::= idtac.

(** Two contents a store shows are the same map. *)
Lemma shows_perm F s m0 m : On F s m0 -> shows_running F s m0 -> shows_running F s m -> On F s m.
Proof.
  intros (h & pre & es & (L & Hb & Hr & Hpl & Hnd & Hm) & Hh & He) (N0 & F0 & _) (N1 & F1 & _).
  exists h, pre, es. split; [|split; [exact Hh|exact He]].
  repeat (split; [eassumption|]). eapply perm_trans; [exact Hm|].
  assert (E : forall k, kv_get m0 k = kv_get m k).
  { intros k. destruct (F0 k) as (l0 & E0). destruct (F1 k) as (l1 & E1). congruence. }
  apply NoDup_Permutation.
  - apply (NoDup_map_inv fst), N0.
  - apply (NoDup_map_inv fst), N1.
  - intros [k v]. rewrite <- (get_in _ N0), <- (get_in _ N1), E. reflexivity.
Qed.

Section PROPS.
Variable g : storage.
Variable F : format.
Hypothesis Hg : has_format g F.
Let G : wff F := format_wff g F Hg.

Lemma running_on s m : reachable F (Running s) -> shows_running F s m -> On F s m.
Proof.
  intros Hr Hs. destruct (reachable_holds F G _ Hr) as (m0 & H0). eapply shows_perm; [exact H0| |exact Hs].
  apply (on_shows F G), H0.
Qed.

Lemma eff_inv m c q : effect F m c q -> q =
  match c with
  | CTransaction us => Kv.Model.transaction (limits_of F) None m us
  | CInsert k v => Kv.Model.transaction (limits_of F) None m [UInsert k v]
  | CRemove k => Kv.Model.transaction (limits_of F) None m [URemove k]
  | CRemoveHandle h => Ok (kv_remove m (h_key (snd h)))
  | CClear k => if (k <=? MAX_KEY)%N then Ok (filter (fun p => (fst p <? k)%N) m) else Err InvalidArgument
  | CPrepare n => if (kv_used m + N.of_nat n <=? N.of_nat (capacity_of F))%N then Ok m else Err NoCapacity
  | CCompact => Ok m
  end.
Proof. intros []; reflexivity. Qed.

(* ----------------------------------------------------------------------- C15 *)

(** C15. A store that has never lost power, or has recovered, does with every call what the map
    does, and fails with the error of the map, in particular with NoCapacity exactly when the map
    has no capacity left; the only other error is NoLifetime, when the flash is worn out. *)
Theorem C15_calls s m c r s' l :
  reachable F (Running s) -> shows_running F s m -> call_ok F s c -> do_call F c s = (r, s', l) ->
  exists m', allowed F m (Running s) (Called c r) (Running s') m' /\ shows_running F s' m'.
Proof.
  intros Hr Hs Hc E. pose proof (running_on _ _ Hr Hs) as O.
  destruct (step_holds F G (Running s) m (Called c r) (Running s') O) as (m' & A & X).
  - econstructor; eassumption.
  - exists m'. split; [exact A|]. apply (on_shows F G), X.
Qed.

(** What a lookup gives. *)
Definition looks (s : st) (k : N) (v : option bytes) : Prop := exists l, find F k s = (Ok v, s, l).
Lemma shows_looks s m k v : shows_running F s m -> (looks s k v <-> v = kv_get m k).
Proof.
  intros (_ & Hf & _). destruct (Hf k) as (l & E). split.
  - intros (l' & E'). congruence.
  - intros ->. exists l. exact E.
Qed.
Lemma reachable_shows s : reachable F (Running s) -> exists m, shows_running F s m.
Proof. intros Hr. destruct (reachable_holds F G _ Hr) as (m & O). exists m. apply (on_shows F G), O. Qed.

(** C15, on lookups: a call that succeeds changes the keys it names and no other. *)
Theorem C15_transaction s us s' l k :
  reachable F (Running s) -> call_ok F s (CTransaction us) ->
  do_call F (CTransaction us) s = (Ok tt, s', l) ->
  forall v, looks s' k v <->
    match updates_get us k with Some o => v = o | None => looks s k v end.
Proof.
  intros Hr Hc E v. destruct (reachable_shows s Hr) as (m & Hs).
  destruct (C15_calls _ _ _ _ _ _ Hr Hs Hc E) as (m' & A & Hs').
  rewrite (shows_looks _ _ _ _ Hs'). inversion A as [? ? ? ? ? X| | | | | | |]; subst. apply eff_inv in X. symmetry in X. apply transaction_ok in X. subst m'. rewrite apply_updates_get.
  destruct (updates_get us k); [reflexivity|]. symmetry. apply shows_looks, Hs.
Qed.
Theorem C15_insert s key value s' l k :
  reachable F (Running s) -> bytes_ok value = true ->
  do_call F (CInsert key value) s = (Ok tt, s', l) ->
  forall v, looks s' k v <-> if (k =? key)%N then v = Some value else looks s k v.
Proof.
  intros Hr Hc E v. destruct (reachable_shows s Hr) as (m & Hs).
  destruct (C15_calls s m (CInsert key value) _ _ _ Hr Hs Hc E) as (m' & A & Hs').
  rewrite (shows_looks _ _ _ _ Hs'). inversion A as [? ? ? ? ? X| | | | | | |]; subst. apply eff_inv in X. symmetry in X. apply transaction_ok in X. subst m'. cbn [fold_left apply_update]. rewrite kv_get_insert.
  destruct (k =? key)%N; [reflexivity|]. symmetry. apply shows_looks, Hs.
Qed.
Theorem C15_remove s key s' l k :
  reachable F (Running s) -> do_call F (CRemove key) s = (Ok tt, s', l) ->
  forall v, looks s' k v <-> if (k =? key)%N then v = None else looks s k v.
Proof.
  intros Hr E v. destruct (reachable_shows s Hr) as (m & Hs).
  destruct (C15_calls s m (CRemove key) _ _ _ Hr Hs Logic.I E) as (m' & A & Hs').
  rewrite (shows_looks _ _ _ _ Hs'). inversion A as [? ? ? ? ? X| | | | | | |]; subst. apply eff_inv in X. symmetry in X. apply transaction_ok in X. subst m'. cbn [fold_left apply_update]. rewrite kv_get_remove.
  destruct (k =? key)%N; [reflexivity|]. symmetry. apply shows_looks, Hs.
Qed.
Theorem C15_clear s min_key s' l k :
  reachable F (Running s) -> do_call F (CClear min_key) s = (Ok tt, s', l) ->
  forall v, looks s' k v <-> if (min_key <=? k)%N then v = None else looks s k v.
Proof.
  intros Hr E v. destruct (reachable_shows s Hr) as (m & Hs).
  destruct (C15_calls s m (CClear min_key) _ _ _ Hr Hs Logic.I E) as (m' & A & Hs').
  rewrite (shows_looks _ _ _ _ Hs'). inversion A as [? ? ? ? ? X| | | | | | |]; subst. apply eff_inv in X.   destruct (min_key <=? MAX_KEY)%N; [|discriminate]. injection X as ->.
  assert (Eg : kv_get (filter (fun p => (fst p <? min_key)%N) m) k =
               if (min_key <=? k)%N then None else kv_get m k).
  { clear. induction m as [|[k0 v0] m IH]; [destruct (_ <=? _)%N; reflexivity|]. cbn [filter fst kv_get].
    destruct (N.ltb_spec k0 min_key) as [L|L]; cbn [kv_get].
    - destruct (N.eqb_spec k0 k) as [->|]; [|exact IH]. destruct (N.leb_spec min_key k); [lia|reflexivity].
    - destruct (N.eqb_spec k0 k) as [->|]; [|exact IH]. rewrite IH. destruct (N.leb_spec min_key k); [reflexivity|lia]. }
  rewrite Eg. destruct (min_key <=? k)%N; [reflexivity|]. symmetry. apply shows_looks, Hs.
Qed.
(** A handle returned by the iteration names an entry: removing it removes its key only. *)
Theorem C15_remove_handle s h s' l k :
  reachable F (Running s) -> call_ok F s (CRemoveHandle h) ->
  do_call F (CRemoveHandle h) s = (Ok tt, s', l) ->
  forall v, looks s' k v <-> if (k =? h_key (snd h))%N then v = None else looks s k v.
Proof.
  intros Hr Hc E v. destruct (reachable_shows s Hr) as (m & Hs).
  destruct (C15_calls _ _ _ _ _ _ Hr Hs Hc E) as (m' & A & Hs').
  rewrite (shows_looks _ _ _ _ Hs'). inversion A as [? ? ? ? ? X| | | | | | |]; subst. apply eff_inv in X. cbn [snd] in X. injection X as ->.
  rewrite kv_get_remove. destruct (k =? h_key (snd h))%N; [reflexivity|]. symmetry. apply shows_looks, Hs.
Qed.
(** A call that fails changes nothing. *)
Theorem C15_failed s c e s' l k :
  reachable F (Running s) -> call_ok F s c -> do_call F c s = (Err e, s', l) ->
  forall v, looks s' k v <-> looks s k v.
Proof.
  intros Hr Hc E v. destruct (reachable_shows s Hr) as (m & Hs).
  destruct (C15_calls _ _ _ _ _ _ Hr Hs Hc E) as (m' & A & Hs').
  rewrite (shows_looks _ _ _ _ Hs'), (shows_looks _ _ _ _ Hs). inversion A; subst; reflexivity.
Qed.
(** NoCapacity, exactly: a valid transaction that does not fit, and nothing else. *)
Theorem C15_no_capacity s m us r s' l :
  reachable F (Running s) -> shows_running F s m -> call_ok F s (CTransaction us) ->
  do_call F (CTransaction us) s = (r, s', l) ->
  (r = Err NoCapacity <->
   transaction_valid (limits_of F) us = true /\
   (N.of_nat (capacity_of F) < kv_used m + transaction_capacity us)%N).
Proof.
  intros Hr Hs Hc E. destruct (C15_calls _ _ _ _ _ _ Hr Hs Hc E) as (m' & A & _).
  assert (X : forall q, effect F m (CTransaction us) q -> q = Kv.Model.transaction (limits_of F) None m us).
  { intros q Hq. inversion Hq. reflexivity. }
  unfold Kv.Model.transaction, limits_of in X. cbn [total_capacity] in X. fold (limits_of F) in X.
  destruct (transaction_valid (limits_of F) us) eqn:V; cbn [negb] in X.
  2:{ split; [|intros [Y _]; discriminate]. intros ->. inversion A as [|? ? ? ? ? Y| | | | | |]; subst; apply X in Y; discriminate. }
  destruct (N.ltb_spec (N.of_nat (capacity_of F)) (kv_used m + transaction_capacity us)%N) as [L|L].
  - split; [auto|]. intros _. inversion A as [? ? ? ? ? Y|? ? ? ? ? Y|? ? ? ? ? _ Y| | | | |]; subst; apply X in Y; congruence.
  - split; [|intros [_ Y]; lia]. intros ->. inversion A as [|? ? ? ? ? Y| | | | | |]; subst; apply X in Y; discriminate.
Qed.

(* ----------------------------------------------------------------------- C16 *)

(** C16. Every history of a new device is right: calls are done or refused as C15 says, an
    interrupted call is done or not done, an interrupted start changes nothing, and every start
    succeeds, whatever the number of interruptions and whatever they leave in the flash. *)
Theorem C16_histories t : history F (Off blank_flash) t -> right F [] (Off blank_flash) t.
Proof. apply (history_right F G). apply (blank_holds F). Qed.

(** The same for one interrupted call, then one interrupted start. *)
Theorem C16_atomic s m c r s' l f' :
  reachable F (Running s) -> shows_running F s m -> call_ok F s c -> do_call F c s = (r, s', l) ->
  cut F l f' ->
  shows F (Off f') m \/ exists m', effect F m c (Ok m') /\ shows F (Off f') m'.
Proof.
  intros Hr Hs Hc E Hx. pose proof (running_on _ _ Hr Hs) as O.
  destruct (wp_out F _ _ _ _ _ _ _ (wp_call F G s m c O Hc) E) as (_ & A & _).
  destruct (A f' Hx) as [X|(m' & Ef & X)].
  - left. apply (holds_shows F G (Off f')), X.
  - right. exists m'. split; [exact Ef|]. apply (holds_shows F G (Off f')), X.
Qed.
Lemma off_holds f m : reachable F (Off f) -> shows F (Off f) m ->
  exists m0, Crash F m0 f /\ forall f', Crash F m0 f' -> shows F (Off f') m.
Proof.
  intros Hr (s & l & E & Hs). destruct (reachable_holds F G _ Hr) as (m0 & H0). exists m0. split; [exact H0|].
  destruct (boot_ok F G _ _ H0) as (s1 & l1 & E1 & O1). rewrite E in E1. injection E1 as <- <-.
  pose proof (shows_perm F s m0 m O1 (on_shows F G _ _ O1) Hs) as O.
  pose proof (on_shows F G _ _ O1) as S1.
  assert (P : Permutation m0 m).
  { destruct S1 as (N0 & F0 & _), Hs as (N1 & F1 & _). apply NoDup_Permutation.
    - apply (NoDup_map_inv fst), N0.
    - apply (NoDup_map_inv fst), N1.
    - intros [k v]. rewrite <- (get_in _ N0), <- (get_in _ N1).
      destruct (F0 k) as (? & X0). destruct (F1 k) as (? & X1). rewrite X0 in X1. injection X1 as X1 _. rewrite X1. reflexivity. }
  intros f' H'. destruct (boot_ok F G _ _ H') as (s2 & l2 & E2 & O2). exists s2, l2. split; [exact E2|].
  apply (on_shows F G). destruct O2 as (h & pre & es & (L & B1 & B2 & B3 & B4 & B5) & Y).
  exists h, pre, es. split; [|exact Y]. repeat (split; [eassumption|]). eapply perm_trans; eassumption.
Qed.
Theorem C16_start f m r s l :
  reachable F (Off f) -> shows F (Off f) m -> boot F f = (r, s, l) ->
  r = Ok tt /\ shows_running F s m /\ forall f', cut F l f' -> shows F (Off f') m.
Proof.
  intros Hr Hs E. destruct (off_holds f m Hr Hs) as (m0 & H0 & K).
  destruct Hs as (s1 & l1 & E1 & Hs). rewrite E in E1. injection E1 as -> <- <-. split; [reflexivity|]. split; [exact Hs|].
  intros f' Hx. apply K. destruct (wp_out F _ _ _ _ _ _ _ (wp_boot F G f m0 H0) E) as (_ & A & _). apply A, Hx.
Qed.

(* ----------------------------------------------------------------------- C17 *)

(** C17. A compaction, complete or interrupted, changes no lookup, and fails only when the flash
    is worn out. *)
Theorem C17_compact s m r s' l :
  reachable F (Running s) -> shows_running F s m -> do_call F CCompact s = (r, s', l) ->
  (r = Ok tt \/ r = Err NoLifetime /\ worn_out F s') /\ shows_running F s' m /\
  forall f', cut F l f' -> shows F (Off f') m.
Proof.
  intros Hr Hs E. destruct (C15_calls s m CCompact _ _ _ Hr Hs Logic.I E) as (m' & A & Hs').
  split; [|split].
  - inversion A as [|? ? ? ? ? Y|? ? ? ? ? _ _ Y| | | | |]; subst; auto. inversion Y.
  - inversion A as [? ? ? ? ? Y| | | | | | |]; subst; try assumption. inversion Y; subst. exact Hs'.
  - intros f' Hx. destruct (C16_atomic s m CCompact _ _ _ _ Hr Hs Logic.I E Hx) as [X|(m2 & Y & X)]; [exact X|].
    inversion Y; subst. exact X.
Qed.
(** As long as the content and what is asked for are within the capacity, the compactions a call
    does make the room asked for: [immediate] words can then be written without compaction. *)
Theorem C17_progress s m n r s' l :
  reachable F (Running s) -> shows_running F s m ->
  0 < n -> (kv_used m + N.of_nat n <= N.of_nat (capacity_of F))%N ->
  make_room F (2 * num_pages F) n s = (r, s', l) ->
  shows_running F s' m /\ (forall f', cut F l f' -> shows F (Off f') m) /\
  (r = Ok tt /\ (exists i l', immediate F s' = (Ok i, s', l') /\ n <= i) \/
   r = Err NoLifetime /\ worn_out F s').
Proof.
  intros Hr Hs Hn Hu E. pose proof (running_on _ _ Hr Hs) as (h & pre & es & O).
  pose proof (on_used F G _ _ _ _ _ O) as Eu.
  assert (X : wp F (Crash F m) (make_room F (2 * num_pages F) n) s
    (fun r s' => On F s' m /\ (r = Ok tt /\ (exists i l', immediate F s' = (Ok i, s', l') /\ n <= i) \/
       r = Err NoLifetime /\ worn_out F s'))).
  { eapply (wp_make_room F G (Crash F m) m n (live_len es)); [auto|exact Hn|lia| | |exact O|reflexivity].
    - intros s1 W. split; [apply (worn_on F), W|]. right. split; [reflexivity|]. eapply (worn_worn F G), W.
    - intros s1 h1 pre1 es1 O1 _ Hv. split; [exists h1, pre1, es1; exact O1|]. left. split; [reflexivity|].
      destruct (wp_eq F (immediate F) s1 (virt_size F - plen es1)) as (l1 & E1).
      { unfold immediate. eapply wp_bind_reads; [eapply (on_tail F G), O1|]. destruct O1 as (_ & Hh & _).
        eapply wp_the_head; [exact Hh|]. apply wp_ret. split; [f_equal; lia|reflexivity]. }
      exists (virt_size F - plen es1), l1. split; [exact E1|lia]. }
  destruct (wp_out F _ _ _ _ _ _ _ X E) as ((O' & Y) & A & _). split; [apply (on_shows F G), O'|]. split; [|exact Y].
  intros f' Hx. apply (holds_shows F G (Off f')), A, Hx.
Qed.

(* ----------------------------------------------------------------------- C18 *)

Lemma storage_format : num_pages F = N.to_nat (s_num_pages g) /\ page_size F = N.to_nat (s_page_size g) /\
  max_page_erases F = N.to_nat (s_max_page_erases g) /\ (2 <= s_max_word_writes g)%N.
Proof.
  pose proof Hg as H. unfold has_format, format_new in H. destruct (supported g) eqn:E; [|discriminate].
  injection H as <-. cbn [num_pages page_size max_page_erases]. repeat (split; [reflexivity|]).
  unfold supported in E. apply andb_true_iff in E as [E _]. apply andb_true_iff in E as [_ E]. apply N.leb_le, E.
Qed.
Lemma legal_respects f a : legal F f a -> respects g f a.
Proof.
  destruct storage_format as (E1 & E2 & E3 & E4).
  destruct a as [page word ws|page]; cbn [legal respects].
  - intros (H1 & H2 & H3 & H4). split; [lia|]. split.
    + pose proof (g_Q F G) as HQ. unfold virt_page_size in *.
      pose proof (Nat.div_mod (page_size F) 4 ltac:(discriminate)). lia.
    + intros i Hi. split; [apply H3, Hi|]. intros Hn. specialize (H4 i Hi (fun e => Hn (eq_sym e))). lia.
  - intros (H1 & H2). lia.
Qed.
(** C18. Every flash operation the store performs, in a call or while it starts, stays within a
    page, only clears bits except when it erases a page, and never writes a word or erases a page
    more often than the storage allows. *)
Theorem C18_call s c r s' l f a :
  reachable F (Running s) -> call_ok F s c -> do_call F c s = (r, s', l) ->
  In (f, a) l -> respects g f a.
Proof.
  intros Hr Hc E Hi. destruct (reachable_holds F G _ Hr) as (m & O).
  destruct (wp_out F _ _ _ _ _ _ _ (wp_call F G s m c O Hc) E) as (_ & _ & A).
  rewrite Forall_forall in A. apply legal_respects, (A _ Hi).
Qed.
Theorem C18_start f0 r s l f a :
  reachable F (Off f0) -> boot F f0 = (r, s, l) -> In (f, a) l -> respects g f a.
Proof.
  intros Hr E Hi. destruct (reachable_holds F G _ Hr) as (m & O).
  destruct (wp_out F _ _ _ _ _ _ _ (wp_boot F G f0 m O) E) as (_ & _ & A).
  rewrite Forall_forall in A. apply legal_respects, (A _ Hi).
Qed.
(** So at any time, whatever was done and interrupted before, no word was written and no page was
    erased more often than the storage allows. *)
Theorem C18_wear d page word :
  reachable F d -> (N.of_nat page < s_num_pages g)%N -> (N.of_nat (4 * (word + 1)) <= s_page_size g)%N ->
  (N.of_nat (writes (flash_of d) page word) <= s_max_word_writes g)%N /\
  (N.of_nat (erases (flash_of d) page) <= s_max_page_erases g)%N.
Proof.
  intros Hr Hp Hx. destruct storage_format as (E1 & E2 & E3 & E4).
  destruct (reachable_bounded F G d Hr page) as [B1 B2]; [lia|].
  specialize (B2 word). assert (X : word < virt_page_size F + 2).
  { pose proof (g_Q F G). unfold virt_page_size in *.
    assert (word + 1 <= page_size F / 4) by (apply Nat.div_le_lower_bound; lia). lia. }
  specialize (B2 X). lia.
Qed.
(** The lifetime the store reports never exceeds the total. *)
Theorem C18_lifetime s : reachable F (Running s) ->
  exists used total l, lifetime F s = (Ok (used, total), s, l) /\ used <= total.
Proof. intros Hr. destruct (reachable_shows s Hr) as (m & _ & _ & _ & _ & X). exact X. Qed.
End PROPS.

(* ------------------------------------------------------------------- examples *)

(** Part of the bits of a write. *)
Definition torn (f : flash) (a : action) (mask : N) : flash :=
  let g := fun p x => N.lor (do_action f a p x) (N.land (f p x) mask) in
  mkFlash g
    (fun p x => if (g p x =? do_action f a p x)%N then writes (do_action f a) p x else writes f p x)
    (erases f).
Lemma torn_interrupted F f page word ws mask : interrupted F f (AWrite page word ws) (torn f (AWrite page word ws) mask).
Proof.
  split; [|split; reflexivity].
  intros p x i. unfold torn. cbn [cells]. rewrite N.lor_spec, N.land_spec.
  assert (X : N.testbit (do_action f (AWrite page word ws) p x) i = true -> N.testbit (f p x) i = true).
  { cbn [do_action cells act_cells]. destruct (_ && _); [|auto]. rewrite N.land_spec. intros Y. apply andb_true_iff in Y. apply Y. }
  destruct (N.testbit mask i).
  - left. rewrite andb_true_r. destruct (N.testbit (do_action _ _ _ _) i); [symmetry; auto|reflexivity].
  - right. rewrite andb_false_r. apply orb_false_r.
Qed.

Definition ex_storage : storage := mkStorage 4 64 3 2 100.
Definition ex_format : format := mkFormat 64 3 100.
Definition ex_booted : st := snd (fst (boot ex_format blank_flash)).
Definition ex_insert (k : N) (v : bytes) (s : st) : st := snd (fst (do_call ex_format (CInsert k v) s)).
Definition ex_log (k : N) (v : bytes) (s : st) : log := snd (do_call ex_format (CInsert k v) s).
Definition ex_one : st := ex_insert 7 [1; 2; 3; 4; 5]%N ex_booted.
(** The second insertion is torn in its first write. *)
Definition ex_torn : flash :=
  match ex_log 8 [9; 9]%N ex_one with (f, a) :: _ => torn f a 65535 | [] => blank_flash end.

Lemma split_run {A} (m : M A) s r : fst (fst (m s)) = r -> m s = (r, snd (fst (m s)), snd (m s)).
Proof. intros <-. destruct (m s) as [[? ?] ?]. reflexivity. Qed.

(** A device is switched on, stores a value, loses power while it stores another, and finds the
    first one and not the second after it is switched on again. *)
Definition ex_history : list (event * device) :=
  [(Booted (Ok tt), Running ex_booted);
   (Called (CInsert 7 [1; 2; 3; 4; 5]%N) (Ok tt), Running ex_one);
   (CutDuring (CInsert 8 [9; 9]%N), Off ex_torn);
   (Booted (Ok tt), Running (snd (fst (boot ex_format ex_torn))))].
Lemma ex_runs2 : history ex_format (Off blank_flash) (firstn 2 ex_history).
Proof.
  unfold ex_history. cbn [firstn]. econstructor; [|econstructor; [|constructor]].
  - eapply step_boot. unfold boot. apply split_run. vm_compute. reflexivity.
  - eapply step_call; [reflexivity|]. apply split_run. vm_compute. reflexivity.
Qed.
Lemma ex_runs4 : history ex_format (Running ex_one) (skipn 2 ex_history).
Proof.
  unfold ex_history. cbn [skipn]. econstructor; [|econstructor; [|constructor]].
  - eapply step_cut_call; [reflexivity| |].
    + apply split_run. reflexivity.
    + fold (ex_log 8 [9; 9]%N ex_one).
      assert (X : exists f p x ws l, ex_log 8 [9; 9]%N ex_one = (f, AWrite p x ws) :: l).
      { assert (Y : match ex_log 8 [9; 9]%N ex_one with (_, AWrite _ _ _) :: _ => true | _ => false end = true)
          by (vm_compute; reflexivity).
        destruct (ex_log 8 [9; 9]%N ex_one) as [|[f [p x ws|p]] l]; try discriminate. eauto 10. }
      unfold ex_torn. destruct X as (f & p & x & ws & l & X). unfold ex_log in X |- *. rewrite X.
      exists f, (AWrite p x ws). split; [left; reflexivity|]. apply torn_interrupted.
  - eapply step_boot. unfold boot. apply split_run. vm_compute. reflexivity.
Qed.
Lemma history_app F d t e d' t' : history F d (t ++ [(e, d')]) -> history F d' t' -> history F d (t ++ (e, d') :: t').
Proof.
  revert d. induction t as [|[e0 d0] t IH]; intros d H H'; cbn [app] in *; inversion H; subst; econstructor; eauto.
Qed.
Lemma ex_runs : history ex_format (Off blank_flash) ex_history.
Proof.
  apply (history_app _ _ (firstn 1 ex_history) (Called (CInsert 7 [1; 2; 3; 4; 5]%N) (Ok tt)) (Running ex_one) (skipn 2 ex_history)).
  - exact ex_runs2.
  - exact ex_runs4.
Qed.
Lemma ex_format_ok : has_format ex_storage ex_format. Proof. reflexivity. Qed.
Lemma ex_one_reachable : reachable ex_format (Running ex_one).
Proof. right. exists (firstn 1 ex_history), (Called (CInsert 7 [1; 2; 3; 4; 5]%N) (Ok tt)). exact ex_runs2. Qed.
Lemma looks_run s k v : reachable ex_format (Running s) -> fst (fst (find ex_format k s)) = Ok v -> looks ex_format s k v.
Proof.
  intros Hr E. destruct (reachable_shows _ _ ex_format_ok s Hr) as (m & _ & Hf & _). destruct (Hf k) as (l & El).
  exists l. rewrite El in *. cbn [fst] in E. rewrite E. reflexivity.
Qed.
Example C15_nonvacuous : has_format ex_storage ex_format /\ reachable ex_format (Running ex_one) /\
  looks ex_format ex_one 7 (Some [1; 2; 3; 4; 5]%N) /\ looks ex_format ex_one 8 None.
Proof.
  split; [exact ex_format_ok|]. split; [exact ex_one_reachable|].
  split; apply looks_run; [exact ex_one_reachable|vm_compute; reflexivity|exact ex_one_reachable|vm_compute; reflexivity].
Qed.
Example C16_nonvacuous : exists f s,
  history ex_format (Off blank_flash) ex_history /\ In (CutDuring (CInsert 8 [9; 9]%N), Off f) ex_history /\
  In (Booted (Ok tt), Running s) ex_history /\ length (snd (boot ex_format f)) <> 0 /\
  looks ex_format s 7 (Some [1; 2; 3; 4; 5]%N) /\ looks ex_format s 8 None.
Proof.
  exists ex_torn, (snd (fst (boot ex_format ex_torn))).
  assert (Hr : reachable ex_format (Running (snd (fst (boot ex_format ex_torn))))).
  { right. exists (firstn 3 ex_history), (Booted (Ok tt)). exact ex_runs. }
  split; [exact ex_runs|]. split; [right; right; left; reflexivity|].
  split; [right; right; right; left; reflexivity|]. split; [vm_compute; discriminate|].
  split; apply looks_run; [exact Hr|vm_compute; reflexivity|exact Hr|vm_compute; reflexivity].
Qed.
(** A compaction that erases a page, on a reachable store that holds an entry. *)
Example C17_nonvacuous : exists s l,
  reachable ex_format (Running ex_one) /\ do_call ex_format CCompact ex_one = (Ok tt, s, l) /\
  existsb (fun p => match snd p with AErase _ => true | _ => false end) l = true /\
  looks ex_format s 7 (Some [1; 2; 3; 4; 5]%N).
Proof.
  exists (snd (fst (do_call ex_format CCompact ex_one))), (snd (do_call ex_format CCompact ex_one)).
  assert (E : do_call ex_format CCompact ex_one =
    (Ok tt, snd (fst (do_call ex_format CCompact ex_one)), snd (do_call ex_format CCompact ex_one))).
  { apply split_run. vm_compute. reflexivity. }
  split; [exact ex_one_reachable|]. split; [exact E|]. split; [vm_compute; reflexivity|].
  apply looks_run; [|vm_compute; reflexivity].
  right. exists (firstn 2 ex_history), (Called CCompact (Ok tt)).
  apply (history_app _ _ (firstn 1 ex_history) (Called (CInsert 7 [1; 2; 3; 4; 5]%N) (Ok tt)) (Running ex_one)
           [(Called CCompact (Ok tt), Running (snd (fst (do_call ex_format CCompact ex_one))))]).
  - exact ex_runs2.
  - econstructor; [|constructor]. eapply step_call; [exact Logic.I|exact E].
Qed.

(** The store uses the allowance: after an insertion, a removal and a compaction, a word was written
    twice and a page was erased. *)
Definition ex_removed : st := snd (fst (do_call ex_format (CRemove 7) ex_one)).
Example C18_nonvacuous : has_format ex_storage ex_format /\ reachable ex_format (Running ex_removed) /\
  existsb (fun x => writes (fl ex_removed) 0 x =? 2) (seq 0 16) = true /\
  exists s l, do_call ex_format CCompact ex_removed = (Ok tt, s, l) /\
    existsb (fun p => erases (fl s) p =? 1) (seq 0 3) = true.
Proof.
  split; [exact ex_format_ok|]. split; [|split].
  - right. exists (firstn 2 ex_history), (Called (CRemove 7) (Ok tt)).
    apply (history_app _ _ (firstn 1 ex_history) (Called (CInsert 7 [1; 2; 3; 4; 5]%N) (Ok tt)) (Running ex_one)
             [(Called (CRemove 7) (Ok tt), Running ex_removed)]).
    + exact ex_runs2.
    + econstructor; [|constructor]. eapply step_call; [exact Logic.I|]. apply split_run. vm_compute. reflexivity.
  - vm_compute. reflexivity.
  - exists (snd (fst (do_call ex_format CCompact ex_removed))), (snd (do_call ex_format CCompact ex_removed)).
    split; [apply split_run; vm_compute; reflexivity|]. vm_compute; reflexivity.
Qed.

Print Assumptions C15_calls.
Print Assumptions C15_transaction.
Print Assumptions C15_insert.
Print Assumptions C15_remove.
Print Assumptions C15_clear.
Print Assumptions C15_remove_handle.
Print Assumptions C15_failed.
Print Assumptions C15_no_capacity.
Print Assumptions C16_histories.
Print Assumptions C16_atomic.
Print Assumptions C16_start.
Print Assumptions C17_compact.
Print Assumptions C17_progress.
Print Assumptions C18_call.
Print Assumptions C18_start.
Print Assumptions C18_wear.
Print Assumptions C18_lifetime.
