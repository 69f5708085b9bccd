(** C73: after a storage error the store is recovered without a restart. *)
From Verif Require Import Base Facts.
From Verif.Kv Require Import Model Proofs.
From Verif.Store Require Import Format Bits Words Geom Model Wp System StoreSpec History PropsFormat PropsStore.
Open Scope nat_scope.

(** store.rs 54-60: after a storage operation failed, the store should be recovered before any other operation.  The flash is then
    as after a loss of power in the middle of that storage operation, but the store is still in memory, with the head and the
    entries it had at that point. *)

(** The flash once it has been initialized (store.rs 489-504). *)
Definition initialized (F : format) (f : flash) : flash := fl (snd (fst (recover_initialize F (mkSt f None None)))).

(** A compaction is under way in the flash: its first mark (the compact word of the oldest page) or its last one (the erase entry
    in the newest page) is there. *)
Definition compacting (F : format) (f : flash) : bool :=
  match oldest F f with
  | Ok h => match parse_compact F f (pos_page F h) with Ok Erased => false | _ => true end
  | Err _ => false
  end ||
  match latest F f with
  | Ok pos => match find_erase F f (virt_page_size F) pos (next_page F pos) with Ok (Some _) => true | _ => false end
  | Err _ => false
  end.

(** Computations that only use the flash. *)
Definition blind {A} (m : M A) : Prop := forall f, exists r f' l, forall h e, m (mkSt f h e) = (r, mkSt f' h e, l).

Lemma blind_reads {A} (g : flash -> res store_error A) : blind (reads g).
Proof. intros f. exists (g f), f, []. reflexivity. Qed.
Lemma blind_ret {A} (a : A) : blind (ret a).
Proof. intros f. exists (Ok a), f, []. reflexivity. Qed.
Lemma blind_fail {A} e : blind (@fail A e).
Proof. intros f. exists (Err e), f, []. reflexivity. Qed.
Lemma blind_lift {A} (r : res store_error A) : blind (lift r).
Proof. intros f. exists r, f, []. reflexivity. Qed.
Lemma blind_bind {A B} (m : M A) (k : A -> M B) : blind m -> (forall a, blind (k a)) -> blind (bind m k).
Proof.
  intros Hm Hk f. destruct (Hm f) as (r & f1 & l1 & E). destruct r as [a|e].
  - destruct (Hk a f1) as (r & f2 & l2 & E2). exists r, f2, (l1 ++ l2). intros h e. unfold bind. rewrite E, E2. reflexivity.
  - exists (Err e), f1, l1. intros h e'. unfold bind. rewrite E. reflexivity.
Qed.
Lemma blind_write page word ws : blind (storage_write page word ws).
Proof.
  intros f. unfold storage_write. cbn [fl]. destruct (skip_written f page word ws) as [[[w ws']|]|e]; eexists _, _, _; intros h e0; reflexivity.
Qed.
Lemma blind_erase F page : blind (storage_erase F page).
Proof. intros f. unfold storage_erase. cbn [fl]. destruct (page_erased F f page); eexists _, _, _; intros h e; reflexivity. Qed.
Lemma blind_write_slice F pos ws : blind (write_slice F pos ws).
Proof.
  unfold write_slice. apply blind_bind; [apply blind_write|]. intros []. destruct (_ <? _); [apply blind_write|apply blind_ret].
Qed.
Lemma blind_set_padding F pos : blind (set_padding F pos).
Proof.
  unfold set_padding. apply blind_bind; [apply blind_reads|]. intros w. apply blind_write_slice.
Qed.
Lemma blind_initialize F : blind (recover_initialize F).
Proof.
  unfold recover_initialize. apply blind_bind; [apply blind_reads|]. intros []; [|apply blind_ret].
  apply blind_bind; [apply blind_lift|]. intros w. apply blind_write.
Qed.

(** A computation that succeeds from one state does the same from another. *)
Definition transfer {A} (m : M A) (s s' : st) : Prop := forall a t l, m s = (Ok a, t, l) -> m s' = (Ok a, t, l).

Lemma transfer_bind {A B} (m : M A) (k : A -> M B) f h e h' e' : blind m ->
  (forall a f1 l1, m (mkSt f h e) = (Ok a, mkSt f1 h e, l1) -> transfer (k a) (mkSt f1 h e) (mkSt f1 h' e')) ->
  transfer (bind m k) (mkSt f h e) (mkSt f h' e').
Proof.
  intros Hm Hk a t l. destruct (Hm f) as (r & f1 & l1 & E). unfold bind. pose proof (E h e) as E1. rewrite E1, (E h' e'). destruct r as [b|x]; [|discriminate].
  destruct (k b (mkSt f1 h e)) as [[r2 s2] l2] eqn:E2. intros X. injection X as -> <- <-. rewrite (Hk b f1 l1 E1 _ _ _ E2). reflexivity.
Qed.
(** Once the head is set, it does not matter what it was. *)
Lemma transfer_head {A} x (k : unit -> M A) f h h' : transfer (bind (put_head x) k) (mkSt f h None) (mkSt f h' None).
Proof. intros a t l H. exact H. Qed.

Lemma transfer_erase F erase f h h' : transfer (compact_erase F erase) (mkSt f h None) (mkSt f h' None).
Proof.
  unfold compact_erase. apply transfer_bind; [apply blind_reads|]. intros r f1 _ _. destruct (fst r) as [| |i| | |]; try (intros ? ? ? X; discriminate X).
  destruct i as [page| | |]; try (intros ? ? ? X; discriminate X).
  apply transfer_bind; [apply blind_erase|]. intros _ f2 _ _. cbv zeta. apply transfer_bind; [apply blind_reads|]. intros init f3 _ _.
  destruct init as [| |[cycle prefix]]; try (intros ? ? ? X; discriminate X). intros a t l X. exact X.
Qed.

Lemma bind_ok {A B} (m : M A) (k : A -> M B) s b t l : bind m k s = (Ok b, t, l) ->
  exists a s1 l1 l2, m s = (Ok a, s1, l1) /\ k a s1 = (Ok b, t, l2) /\ l = l1 ++ l2.
Proof.
  unfold bind. destruct (m s) as [[[a|e] s1] l1]; [|discriminate]. destruct (k a s1) as [[r s2] l2] eqn:E. intros X. injection X as -> <- <-.
  exists a, s1, l1, l2. auto.
Qed.

(** The end of the recovery forgets the head, and without a compaction the entries too. *)
Lemma transfer_end F f h e : e = None \/ compacting F f = false ->
  transfer (_ <~ recover_compaction F ;; recover_operation F) (mkSt f None None) (mkSt f h e).
Proof.
  intros C a t l. unfold recover_compaction. unfold bind, reads, put_head, set_head. cbn [fl st_head st_ents].
  destruct (oldest F f) as [head|x] eqn:O; [|discriminate]. destruct C as [->|C]; [intros X; exact X|].
  unfold compacting in C. rewrite O in C. apply orb_false_iff in C. destruct C as (C & _).
  destruct (parse_compact F f (pos_page F head)) as [[| |w]|x]; try discriminate C.
  cbn [ret]. unfold recover_operation, put_ents, bind, set_ents. cbn [fl st_head st_ents]. intros X. exact X.
Qed.

(** Recovering a store in memory is opening the storage, if the entries were out of memory or no compaction is under way. *)
Lemma recover_forgets F f h e s l : boot F f = (Ok tt, s, l) -> e = None \/ compacting F (initialized F f) = false ->
  recover F (mkSt f h e) = (Ok tt, s, l).
Proof.
  unfold boot. intros B C. revert B. enough (T : transfer (recover F) (mkSt f None None) (mkSt f h e)) by apply T.
  unfold recover. apply transfer_bind; [apply blind_initialize|]. intros [] f1 l1 E1.
  assert (F1 : initialized F f = f1) by (unfold initialized; rewrite E1; reflexivity). rewrite F1 in C. clear E1 F1 l1.
  assert (T : transfer (recover_erase F) (mkSt f1 None None) (mkSt f1 h e) \/ recover_erase F (mkSt f1 None None) = (Ok tt, mkSt f1 None None, []) /\
    recover_erase F (mkSt f1 h e) = (Ok tt, mkSt f1 h e, []) \/ exists x t l, recover_erase F (mkSt f1 None None) = (Err x, t, l)).
  { unfold recover_erase, bind, reads. cbn [fl]. destruct (latest F f1) as [pos|x] eqn:L; [|right; right; eauto].
    destruct (find_erase F f1 (virt_page_size F) pos (next_page F pos)) as [[er|]|x] eqn:FE; [|right; left; split; reflexivity|right; right; eauto].
    left. destruct C as [->|C].
    - intros a t l'. pose proof (transfer_erase F er f1 None h) as TE. unfold transfer in TE. cbn [fl]. rewrite L, FE. cbn [app].
      destruct (compact_erase F er (mkSt f1 None None)) as [[[u|x] s2] l2]; intros X; [|discriminate X].
      rewrite (TE _ _ _ eq_refl). exact X.
    - unfold compacting in C. rewrite L, FE in C. rewrite orb_true_r in C. discriminate. }
  intros a t l' X. destruct T as [T|[(T1 & T2)|(x & t' & l1 & T)]].
  - apply bind_ok in X. destruct X as (u & s2 & l1 & l2 & X1 & X2 & ->). unfold bind at 1. rewrite (T _ _ _ X1). rewrite X2. reflexivity.
  - apply bind_ok in X. destruct X as (u & s2 & l1 & l2 & X1 & X2 & ->). rewrite T1 in X1. injection X1 as _ <- <-.
    unfold bind at 1. rewrite T2. rewrite (transfer_end F f1 h e C _ _ _ X2). reflexivity.
  - unfold bind at 1 in X. rewrite T in X. discriminate.
Qed.

Section PROPS.
Variable g : storage.
Variable F : format.
Hypothesis Hg : has_format g F.

(** A storage operation failed during a call and left the flash in any state between its two; the store has any head and any
    entries in memory.  Unless a compaction is under way while the entries are in memory, recovering succeeds, and the call is done or
    not done; the same if a storage operation of the recovery fails, after a restart.  The recovered store is one that a restart gives, so
    that everything proved about those holds for it. *)
Theorem C73_recover_partial s m c r s' l f' h e :
  reachable F (Running s) -> shows_running F s m -> call_ok F s c -> do_call F c s = (r, s', l) -> cut F l f' ->
  e = None \/ compacting F (initialized F f') = false ->
  exists m2 s2 l2, (m2 = m \/ effect F m c (Ok m2)) /\ recover F (mkSt f' h e) = (Ok tt, s2, l2) /\
    shows_running F s2 m2 /\ reachable F (Running s2) /\ forall f2, cut F l2 f2 -> shows F (Off f2) m2.
Proof.
  intros Hr Hs Hc E Hx C.
  assert (R : reachable F (Off f')).
  { destruct Hr as [Hr|(t & ev & Hr)]; [discriminate|]. right. exists (t ++ [(ev, Running s)]), (CutDuring c).
    rewrite <- app_assoc. apply history_app; [exact Hr|]. econstructor; [|constructor]. eapply step_cut_call; eassumption. }
  assert (S : exists m2, (m2 = m \/ effect F m c (Ok m2)) /\ shows F (Off f') m2).
  { destruct (C16_atomic g F Hg s m c r s' l f' Hr Hs Hc E Hx) as [S|(m' & Ef & S)]; [exists m|exists m']; auto. }
  destruct S as (m2 & M2 & S). pose proof S as (s2 & l2 & B & S2). exists m2, s2, l2. split; [exact M2|].
  split; [apply recover_forgets; assumption|]. destruct (C16_start g F Hg f' m2 _ _ _ R S B) as (_ & _ & K). split; [exact S2|]. split; [|exact K].
  destruct R as [R|(t & ev & R)].
  - injection R as ->. right. exists [], (Booted (Ok tt)). econstructor; [|constructor]. eapply step_boot. exact B.
  - right. exists (t ++ [(ev, Off f')]), (Booted (Ok tt)). rewrite <- app_assoc. apply history_app; [exact R|].
    econstructor; [|constructor]. eapply step_boot. exact B.
Qed.
End PROPS.
Print Assumptions C73_recover_partial.

(** What a compaction has done (store.rs 707-719, 722-747) when writing its first copy fails: it has marked the page and taken the entry at
    [pos] out of the entries in memory. *)
Definition until_first_copy (F : format) (pos : nat) : M unit :=
  head <~ the_head ;;
  t <~ reads (tail F) ;;
  w <~ lift (build_compact (Nat.max t (next_page F head) - head)) ;;
  _ <~ storage_write (pos_page F head) COMPACT_WORD [w] ;;
  remove_entry pos.
Definition ex_failed : st := snd (fst (until_first_copy ex_format 0 ex_one)).

(** But if a storage operation of a compaction fails, recovering as the documentation says may be refused, because the entries in memory are not
    those of the flash; a restart would find every entry (finding F30). *)
Theorem C73_recover_refuted : exists g F s pos s1 l1, has_format g F /\ reachable F (Running s) /\
  until_first_copy F pos s = (Ok tt, s1, l1) /\
  (exists w ws rest, map snd (snd (compact F s)) = map snd l1 ++ AWrite 1 w ws :: rest) /\
  fst (fst (recover F s1)) = Err InvalidStorage /\ fst (fst (boot F (fl s1))) = Ok tt /\
  fst (fst (find F 7 (snd (fst (boot F (fl s1)))))) = Ok (Some [1; 2; 3; 4; 5]%N).
Proof.
  exists ex_storage, ex_format, ex_one, 0, ex_failed, (snd (until_first_copy ex_format 0 ex_one)).
  split; [exact ex_format_ok|]. split; [exact ex_one_reachable|].
  split; [apply split_run; vm_compute; reflexivity|].
  split; [|split; [vm_compute; reflexivity|split; vm_compute; reflexivity]].
  exists 2, [1610727517; 67305985; 4294967045]%N, [AWrite 1 0 [3456106496%N]; AWrite 1 5 [1342175235%N]; AErase 0; AWrite 1 5 [1342175234%N]].
  vm_compute. reflexivity.
Qed.
Print Assumptions C73_recover_refuted.

(** And the firmware does not recover the store after a storage error (ctap/storage.rs 505-523 turns it into a status, nothing calls
    [recover]).  An insertion that then succeeds, and is seen, is gone after a restart (finding F31). *)
Definition ex_left : st := mkSt ex_torn (st_head ex_one) (st_ents ex_one).
Definition ex_next : st := ex_insert 9 [5; 6]%N ex_left.
Theorem C73_continue_refuted : exists g F s f' s1, has_format g F /\ reachable F (Running s) /\
  cut F (snd (do_call F (CInsert 8 [9; 9]%N) s)) f' /\
  (let left := mkSt f' (st_head s) (st_ents s) in
   fst (fst (do_call F (CInsert 9 [5; 6]%N) left)) = Ok tt /\ s1 = snd (fst (do_call F (CInsert 9 [5; 6]%N) left))) /\
  fst (fst (find F 9 s1)) = Ok (Some [5; 6]%N) /\
  fst (fst (boot F (fl s1))) = Ok tt /\ fst (fst (find F 9 (snd (fst (boot F (fl s1)))))) = Ok None.
Proof.
  exists ex_storage, ex_format, ex_one, ex_torn, ex_next. split; [exact ex_format_ok|]. split; [exact ex_one_reachable|].
  split; [|split; [split; [vm_compute; reflexivity|reflexivity]|split; [vm_compute; reflexivity|split; vm_compute; reflexivity]]].
  fold (ex_log 8 [9; 9]%N ex_one).
  assert (X : exists f p x ws l, ex_log 8 [9; 9]%N ex_one = (f, AWrite p x ws) :: l).
  { assert (Y : match ex_log 8 [9; 9]%N ex_one with (_, AWrite _ _ _) :: _ => true | _ => false end = true)
      by (vm_compute; reflexivity).
    destruct (ex_log 8 [9; 9]%N ex_one) as [|[f [p x ws|p]] l]; try discriminate. eauto 10. }
  unfold ex_torn. destruct X as (f & p & x & ws & l & X). rewrite X.
  exists f, (AWrite p x ws). split; [left; reflexivity|]. apply torn_interrupted.
Qed.
Print Assumptions C73_continue_refuted.

(** The hypotheses are met by that failed insertion, whatever is in memory. *)
Example C73_nonvacuous : compacting ex_format (initialized ex_format ex_torn) = false /\
  forall h e, fst (fst (recover ex_format (mkSt ex_torn h e))) = Ok tt.
Proof.
  assert (C : compacting ex_format (initialized ex_format ex_torn) = false) by (vm_compute; reflexivity).
  split; [exact C|]. intros h e.
  assert (B : boot ex_format ex_torn = (Ok tt, snd (fst (boot ex_format ex_torn)), snd (boot ex_format ex_torn)))
    by (unfold boot; apply split_run; vm_compute; reflexivity).
  rewrite (recover_forgets _ _ h e _ _ B (or_intror C)). reflexivity.
Qed.
