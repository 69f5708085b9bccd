(** C19 and C20. *)
From Verif Require Import Base Facts.
From Verif.Kv Require Import Model Spec Proofs.

(** C19: reading returns the concatenation of the fragments, or [None] when there are none. *)
Theorem C19_read m r cs :
  kv_wf m -> holds m r cs ->
  frag_read m r = Ok (match cs with [] => None | _ => Some (concat cs) end).
Proof. exact (read_holds m r cs). Qed.
Print Assumptions C19_read.

(** C19: reading a range returns the truncated range of the whole. *)
Theorem C19_read_range m r cs lo hi :
  kv_wf m -> holds m r cs -> (lo <= hi)%N ->
  frag_read_range m r lo hi =
  Ok (match cs with [] => None | _ => Some (slice (concat cs) lo hi) end).
Proof. exact (read_range_holds m r cs lo hi). Qed.
Print Assumptions C19_read_range.

(** C19: a successful write is read back and touches no other key; writing the empty string is
    the same as deleting. *)
Theorem C19_write L f m r v m' :
  kv_wf m -> (1 <= max_value_len L)%N -> frag_write L f m r v = Ok m' ->
  kv_wf m' /\ frag_read m' r = Ok (match v with [] => None | _ => Some v end) /\
  (forall lo hi, (lo <= hi)%N ->
     frag_read_range m' r lo hi = Ok (match v with [] => None | _ => Some (slice v lo hi) end)) /\
  (forall k, ~ in_range r k -> kv_get m' k = kv_get m k).
Proof.
  intros Hw Hm E.
  destruct (get_handles m r) as [hs|e] eqn:Eh.
  - destruct (get_handles_inv m r hs Hw Eh) as (cs & H & _).
    destruct (write_spec L f m r cs v m' Hw H Hm E) as (Hw' & H' & Ho).
    assert (Hn : (0 < N.to_nat (max_value_len L))%nat) by lia.
    pose proof (chunks_concat _ v Hn) as Hc.
    pose proof (chunks_nil _ v (length v) Hn (le_n _)) as Hz.
    split; [exact Hw'|split; [|split; [|exact Ho]]].
    + rewrite (read_holds _ _ _ Hw' H'), Hc. unfold read_result.
      destruct (chunks _ _ v) eqn:E1, v; auto; destruct Hz as [Hz1 Hz2];
        [now specialize (Hz1 eq_refl)|now specialize (Hz2 eq_refl)].
    + intros lo hi Hle. rewrite (read_range_holds _ _ _ lo hi Hw' H' Hle), Hc. unfold read_result.
      destruct (chunks _ _ v) eqn:E1, v; auto; destruct Hz as [Hz1 Hz2];
        [now specialize (Hz1 eq_refl)|now specialize (Hz2 eq_refl)].
  - unfold frag_write in E. rewrite Eh in E. discriminate.
Qed.
Print Assumptions C19_write.

(** C19: deletion removes all fragments and no other key. *)
Theorem C19_delete L f m r m' :
  kv_wf m -> frag_delete L f m r = Ok m' ->
  kv_wf m' /\ frag_read m' r = Ok None /\
  (forall k, in_range r k -> kv_get m' k = None) /\
  (forall k, ~ in_range r k -> kv_get m' k = kv_get m k).
Proof.
  intros Hw E. destruct (get_handles m r) as [hs|e] eqn:Eh.
  - destruct (get_handles_inv m r hs Hw Eh) as (cs & H & _).
    destruct (delete_spec L f m r cs m' Hw H E) as (Hw' & H' & Ho).
    split; [exact Hw'|split; [exact (read_holds _ _ _ Hw' H')|split; [|exact Ho]]].
    intros k [Hk1 Hk2]. destruct H' as [_ H'].
    specialize (H' (k - r_start r)%N ltac:(lia)).
    replace (r_start r + (k - r_start r))%N with k in H' by lia.
    rewrite H'. now destruct (N.to_nat _).
  - unfold frag_delete in E. rewrite Eh in E. discriminate.
Qed.
Print Assumptions C19_delete.

(** C19: too long values are rejected (the content is only changed by [Ok]). *)
Theorem C19_too_long L f m r cs v :
  kv_wf m -> holds m r cs -> (1 <= max_value_len L)%N ->
  ((r_end r - r_start r) * max_value_len L < Nlen v)%N ->
  frag_write L f m r v = Err InvalidArgument.
Proof. exact (write_too_long L f m r cs v). Qed.
Print Assumptions C19_too_long.

(** C19: a value that fits is written in one valid transaction, so it can only fail for lack of
    capacity, lifetime or by a storage failure. *)
Theorem C19_accepted L f m r cs v :
  kv_wf m -> holds m r cs -> (1 <= max_value_len L)%N ->
  (r_start r <= r_end r)%N -> (r_end r - r_start r <= MAX_UPDATES)%N ->
  (r_end r <= MAX_KEY + 1)%N ->
  (Nlen v <= (r_end r - r_start r) * max_value_len L)%N ->
  exists us, frag_write L f m r v = transaction L f m us /\ transaction_valid L us = true.
Proof. exact (fragment_transaction L f m r cs v). Qed.
Print Assumptions C19_accepted.

(** C19: a key range that holds no prefix of fragments is reported as corrupted by every
    operation, never misread. *)
Theorem C19_corrupt L f m r v :
  kv_wf m -> (forall cs, ~ holds m r cs) ->
  frag_read m r = Err InvalidStorage /\ frag_write L f m r v = Err InvalidStorage /\
  frag_delete L f m r = Err InvalidStorage.
Proof.
  intros Hw H. destruct (get_handles m r) as [hs|e] eqn:E.
  - destruct (get_handles_inv m r hs Hw E) as (cs & Hc & _). now destruct (H cs).
  - destruct (get_handles_err m r e Hw E) as [-> _].
    unfold frag_read, frag_write, frag_delete. rewrite E. auto.
Qed.
Print Assumptions C19_corrupt.

Example C19_nonvacuous :
  let L := mkLimits 4 100 in
  let r := mkRange 2000 2004 in
  let m := [(7, [1; 2]); (2001, [5]); (2000, [9; 9; 9; 9])]%N in
  holds m r [[9; 9; 9; 9]; [5]]%N /\ kv_wf m /\
  frag_write L None m r [1; 2; 3; 4; 5; 6; 7; 8; 9]%N =
    Ok [(7, [1; 2]); (2000, [1; 2; 3; 4]); (2001, [5; 6; 7; 8]); (2002, [9])]%N /\
  frag_write L None m r (repeat 0%N 17) = Err InvalidArgument /\
  frag_read_range m r 3 9 = Ok (Some [9; 5]%N).
Proof.
  split; [|split; [repeat constructor; cbn; intuition congruence|vm_compute; auto]].
  split; [cbn; lia|]. intros i Hi.
  assert (Hc : (i = 0 \/ i = 1 \/ i = 2 \/ i = 3)%N) by (cbn in Hi; lia).
  destruct Hc as [ -> |[ -> |[ -> | -> ]]]; reflexivity.
Qed.

(** C20: over every history of successful and failing writes and deletions, starting from any
    content that does not have the key, reading any index returns exactly what the client
    expects, and the other keys of the store are untouched. *)
Theorem C20_history L key m0 xs m spec :
  kv_get m0 key = None -> crun L key m0 xs = (m, spec) ->
  (forall i, concat_read m key i = Ok (spec i)) /\
  (forall k, k <> key -> kv_get m k = kv_get m0 k).
Proof.
  intros H0 E.
  assert (G : cinv m key spec /\ forall k, k <> key -> kv_get m k = kv_get m0 k).
  { revert E. unfold crun.
    assert (I0 : cinv m0 key (fun _ => None)).
    { exists []. unfold cvalue. rewrite H0. repeat split; constructor. }
    revert I0. generalize (fun _ : N => @None bytes). 
    assert (Hm : forall k, k <> key -> kv_get m0 k = kv_get m0 k) by auto.
    revert Hm. generalize m0 at 1 3 4. clear H0.
    induction xs as [|[f op] xs IH]; intros m1 Hm s1 I1; cbn [fold_left].
    - intros E. apply pair_equal_spec in E as [<- <-]. auto.
    - unfold cstep at 2. cbn [fst snd]. destruct op as [i v|i].
      + destruct (concat_write L f m1 key i v) as [m2|] eqn:E2.
        * destruct (cinv_write _ _ _ _ _ _ _ _ I1 E2) as [I2 Ho].
          apply IH; [|exact I2]. intros k Hk. rewrite Ho by exact Hk. auto.
        * apply IH; auto.
      + destruct (concat_delete L f m1 key i) as [m2|] eqn:E2.
        * destruct (cinv_delete _ _ _ _ _ _ _ I1 E2) as [I2 Ho].
          apply IH; [|exact I2]. intros k Hk. rewrite Ho by exact Hk. auto.
        * apply IH; auto. }
  destruct G as [(l & Hc & Hn & Hw & Hs) Ho]. split; [|exact Ho].
  intros i. rewrite (concat_read_spec m key i l Hc). now rewrite Hs.
Qed.
Print Assumptions C20_history.

(** C20: values longer than 255 bytes are rejected. *)
Theorem C20_too_long L f m key i v :
  (255 < Nlen v)%N -> concat_write L f m key i v = Err InvalidArgument.
Proof. intros H. unfold concat_write. destruct (N.ltb_spec 255 (Nlen v)); [reflexivity|lia]. Qed.
Print Assumptions C20_too_long.

(** C20: writing at most 255 bytes to a well-formed entry fails only like an insertion of the
    new entry. *)
Theorem C20_accepted L f m key i v l :
  cvalue m key = cencode l -> (Nlen v <= 255)%N ->
  exists l', concat_write L f m key i v = transaction L f m [UInsert key (cencode l')] /\
    forall j, clookup l' j = if (j =? i)%N then Some v else clookup l j.
Proof.
  intros Hc Hv. exists (creplace l i v). split; [|intros j; apply clookup_replace].
  unfold concat_write. destruct (N.ltb_spec 255 (Nlen v)); [lia|].
  change (match kv_get m key with Some x => x | None => [] end) with (cvalue m key).
  rewrite Hc. pose proof (concat_write_encode l i v) as E.
  destruct (cfind (cencode l) i) as [[[s e]|]|]; cbn [rbind]; [| |discriminate];
    injection E as E; now rewrite E.
Qed.
Print Assumptions C20_accepted.

(** C20: no entry content, however malformed, makes an operation panic or read out of bounds. *)
Theorem C20_no_panic L f m key i v :
  concat_read m key i <> Err SPanic /\
  (f <> Some SPanic -> concat_write L f m key i v <> Err SPanic /\
                       concat_delete L f m key i <> Err SPanic).
Proof.
  assert (T : forall us, f <> Some SPanic -> transaction L f m us <> Err SPanic).
  { intros us Hf. unfold transaction. destruct (negb _); [discriminate|].
    destruct (_ <? _)%N; [discriminate|]. destruct f as [e|]; [congruence|discriminate]. }
  assert (C : forall values j, cfind values j <> Err SPanic).
  { intros values j. apply cfind_total. lia. }
  split; [|intros Hf; split].
  - unfold concat_read. destruct (kv_get m key) as [values|]; [|discriminate].
    pose proof (C values i) as Ci. destruct (cfind values i) as [[[s e]|]|x] eqn:E; cbn [rbind].
    + apply cfind_in_bounds in E as (_ & H1 & H2).
      destruct (Nat.leb_spec s e); [|lia]. destruct (Nat.leb_spec e (length values)); [|lia].
      discriminate.
    + discriminate.
    + congruence.
  - unfold concat_write. destruct (_ <? _)%N; [discriminate|].
    match goal with |- context [cfind ?x i] => pose proof (C x i) as Ci; destruct (cfind x i) end;
      cbn [rbind]; [now apply T|congruence].
  - unfold concat_delete. destruct (kv_get m key) as [values|]; [|discriminate].
    pose proof (C values i) as Ci. destruct (cfind values i) as [[[s e]|]|x]; cbn [rbind];
      [now apply T|discriminate|congruence].
Qed.
Print Assumptions C20_no_panic.

Example C20_nonvacuous :
  let L := mkLimits 100 100 in
  let ops := [(None, CWrite 3 [1; 2; 3]); (None, CWrite 4 [7]); (Some NoLifetime, CDelete 3);
              (None, CWrite 3 [8]); (None, CDelete 4); (None, CWrite 9 [1; 1])]%N in
  let st := crun L 50%N [(7, [1])]%N ops in
  fst st = [(7, [1]); (50, [3; 1; 8; 9; 2; 1; 1])]%N /\
  snd st 3%N = Some [8%N] /\ snd st 4%N = None /\
  concat_read [(50, [3; 200; 8])]%N 50 3 = Err InvalidStorage.
Proof. vm_compute. auto. Qed.
