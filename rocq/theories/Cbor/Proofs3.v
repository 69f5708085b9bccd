From Verif Require Import Base Facts Cbor.Model Cbor.Spec Cbor.Proofs Cbor.Proofs2.

(* ------------------------------------------------ depth *)

Lemma max_list_nonneg l : (0 <= max_list l)%Z.
Proof. induction l as [|x l IH]; cbn [max_list fold_right]; [lia|]. unfold max_list in IH. lia. Qed.

Lemma depth_nonneg v : (0 <= depth v)%Z.
Proof.
  induction v as [n|z|bs|t|l IH|m IH|t w IH|s] using value_ind'; cbn [depth]; try lia;
    apply max_list_nonneg.
Qed.

Lemma max_list_le l d : (0 <= d)%Z -> ((max_list l <= d)%Z <-> Forall (fun x => (x <= d)%Z) l).
Proof.
  intros Hd. induction l as [|x l IH]; cbn [max_list fold_right].
  - split; [constructor|lia].
  - unfold max_list in IH. split.
    + intros H. constructor; [lia|]. apply IH. lia.
    + intros H. inversion H; subst. apply IH in H3. lia.
Qed.

Lemma Forall_map_iff {A B} (f : A -> B) (P : B -> Prop) l :
  Forall P (map f l) <-> Forall (fun x => P (f x)) l.
Proof. rewrite !Forall_forall. split.
  - intros H x Hx. apply H. apply in_map. exact Hx.
  - intros H y Hy. apply in_map_iff in Hy as (x & <- & Hx). auto.
Qed.

Definition withinb (v : value) (d : option Z) : bool :=
  match d with Some z => (depth v <=? z)%Z | None => true end.

Lemma withinb_spec v d : withinb v d = true <-> within v d.
Proof. destruct d; cbn; [rewrite Z.leb_le|]; tauto. Qed.

Lemma depth_neg_within v d : within v d -> depth_neg d = false.
Proof. destruct d as [z|]; cbn; [|reflexivity]. pose proof (depth_nonneg v). lia. Qed.

Lemma within_array a d : depth_neg d = false ->
  (within (VArray a) d <-> Forall (fun v => within v (depth_dec d)) a).
Proof.
  destruct d as [z|]; cbn [within depth depth_dec depth_neg]; intros Hd.
  - rewrite max_list_le by lia. rewrite Forall_map_iff.
    split; apply Forall_impl; intros; lia.
  - split; [intros _; apply Forall_forall; trivial|trivial].
Qed.

Lemma within_map m d : depth_neg d = false ->
  (within (VMap m) d <->
   Forall (fun p => within (fst p) (depth_dec d) /\ within (snd p) (depth_dec d)) m).
Proof.
  destruct d as [z|]; cbn [within depth depth_dec depth_neg]; intros Hd.
  - rewrite max_list_le by lia. rewrite Forall_map_iff.
    split; apply Forall_impl; intros; lia.
  - split; [intros _; apply Forall_forall; auto|trivial].
Qed.

Lemma within_tag t v d : depth_neg d = false ->
  (within (VTag t v) d <-> within v (depth_dec d)).
Proof.
  destruct d as [z|]; cbn [within depth depth_dec depth_neg]; intros Hd; [lia|tauto].
Qed.

Lemma within_leaf v d : depth v = 0%Z -> depth_neg d = false -> within v d.
Proof. destruct d as [z|]; cbn; [lia|trivial]. Qed.

Lemma depth_neg_not_within v d : depth_neg d = true -> ~ within v d.
Proof. destruct d as [z|]; cbn; [|discriminate]. pose proof (depth_nonneg v). lia. Qed.

(* ------------------------------------------------ writer *)

Section W.
Variable W : N.
Hypothesis HW : (W <= 64)%N.

Lemma encode_list_ok a d :
  Forall (fun v => forall d, encode_cbor v d =
      if withinb v d then Ok (enc v) else Err EE_TooMuchNesting) a ->
  (fix go (l : list value) : res enc_error bytes :=
     match l with
     | [] => Ok []
     | e :: r => x <- encode_cbor e d ;; y <- go r ;; Ok (x ++ y)
     end) a =
  if forallb (fun v => withinb v d) a then Ok (flat_map enc a) else Err EE_TooMuchNesting.
Proof.
  induction 1 as [|e r He Hr IH]; [reflexivity|].
  rewrite He. cbn [forallb flat_map]. destruct (withinb e d); cbn [rbind andb]; [|reflexivity].
  rewrite IH. destruct (forallb _ r); reflexivity.
Qed.

Lemma encode_map_ok m d :
  Forall (fun p =>
    (forall d, encode_cbor (fst p) d =
      if withinb (fst p) d then Ok (enc (fst p)) else Err EE_TooMuchNesting) /\
    (forall d, encode_cbor (snd p) d =
      if withinb (snd p) d then Ok (enc (snd p)) else Err EE_TooMuchNesting)) m ->
  (fix go (l : list (value * value)) : res enc_error bytes :=
     match l with
     | [] => Ok []
     | (k, w) :: r => x <- encode_cbor k d ;; y <- encode_cbor w d ;; z <- go r ;; Ok (x ++ y ++ z)
     end) m =
  if forallb (fun p => withinb (fst p) d && withinb (snd p) d) m
  then Ok (flat_map (fun p => enc (fst p) ++ enc (snd p)) m) else Err EE_TooMuchNesting.
Proof.
  induction 1 as [|[k w] r [Hk Hw] Hr IH]; [reflexivity|]. cbn [fst snd] in *.
  rewrite Hk, Hw. cbn [forallb flat_map fst snd].
  destruct (withinb k d); cbn [rbind andb]; [|reflexivity].
  destruct (withinb w d); cbn [rbind andb]; [|reflexivity].
  rewrite IH. destruct (forallb _ r); cbn [rbind]; [|reflexivity]. rewrite app_assoc. reflexivity.
Qed.

Lemma bool_eq_iff (a b : bool) : (a = true <-> b = true) -> a = b.
Proof. destruct a, b; intuition congruence. Qed.

Lemma encode_spec v : value_ok W v -> forall d,
  encode_cbor v d = if withinb v d then Ok (enc v) else Err EE_TooMuchNesting.
Proof.
  induction v as [n|z|bs|t|l IH|m IH|t w IH|s] using value_ind'; intros Hv d;
  destruct (depth_neg d) eqn:Hd;
  match goal with
  | |- context [withinb ?v _] =>
     try (replace (withinb v d) with false;
        [cbn [encode_cbor]; rewrite Hd; reflexivity
        |symmetry; apply not_true_iff_false; rewrite withinb_spec; apply depth_neg_not_within; exact Hd])
  end; inversion Hv; subst; cbn [encode_cbor]; rewrite Hd.
  - rewrite (proj2 (withinb_spec _ _)) by (apply within_leaf; auto).
    rewrite start_item_head by assumption. reflexivity.
  - rewrite (proj2 (withinb_spec _ _)) by (apply within_leaf; auto).
    rewrite start_item_head.
    + cbn [enc]. repeat f_equal. lia.
    + replace (- (z + 1))%Z with (-1 - z)%Z by lia. eapply neg_arg; eassumption.
  - rewrite (proj2 (withinb_spec _ _)) by (apply within_leaf; auto).
    rewrite start_item_head by eauto using pow_W. reflexivity.
  - rewrite (proj2 (withinb_spec _ _)) by (apply within_leaf; auto).
    rewrite start_item_head by eauto using pow_W. reflexivity.
  - rewrite encode_list_ok.
    2: { rewrite Forall_forall in *. intros v Hin d'. apply IH; auto. }
    rewrite start_item_head by assumption.
    replace (withinb (VArray l) d) with (forallb (fun v => withinb v (depth_dec d)) l).
    { destruct (forallb _ l); reflexivity. }
    apply bool_eq_iff. rewrite withinb_spec, within_array, forallb_forall, Forall_forall by exact Hd.
    split; intros H v Hin; apply withinb_spec; auto.
  - rewrite encode_map_ok.
    2: { rewrite Forall_forall in *. intros p Hin. split; intros d'; apply IH; auto; apply H1; auto. }
    rewrite start_item_head by assumption.
    replace (withinb (VMap m) d) with
      (forallb (fun p => withinb (fst p) (depth_dec d) && withinb (snd p) (depth_dec d)) m).
    { destruct (forallb _ m); reflexivity. }
    apply bool_eq_iff. rewrite withinb_spec, within_map, forallb_forall, Forall_forall by exact Hd.
    split; intros H p Hin.
    + specialize (H p Hin). apply andb_true_iff in H as [A B]. rewrite withinb_spec in A, B. auto.
    + specialize (H p Hin). apply andb_true_iff. rewrite !withinb_spec. auto.
  - rewrite IH by assumption.
    rewrite start_item_head by assumption.
    replace (withinb (VTag t w) d) with (withinb w (depth_dec d)).
    { destruct (withinb _ _); reflexivity. }
    apply bool_eq_iff. rewrite !withinb_spec. symmetry. apply within_tag. exact Hd.
  - rewrite (proj2 (withinb_spec _ _)) by (apply within_leaf; auto).
    rewrite start_item_head by apply simple_code_lt. rewrite enc_simple. reflexivity.
Qed.

(* ------------------------------------------------ maps *)

Fixpoint sorted_cmp (m : list (value * value)) : Prop :=
  match m with
  | p :: ((q :: _) as m') => value_cmp (fst p) (fst q) = Lt /\ sorted_cmp m'
  | _ => True
  end.

Lemma map_sort_sorted m : sorted_cmp m -> map_sort m = m.
Proof.
  induction m as [|p m IH]; [reflexivity|]. intros H. cbn [map_sort fold_right].
  change (fold_right map_insert [] m) with (map_sort m).
  destruct m as [|q m]; [reflexivity|]. cbn [sorted_cmp] in H. destruct H as [H1 H2].
  rewrite (IH H2). cbn [map_insert]. rewrite H1. reflexivity.
Qed.

Lemma sorted_no_dup m : sorted_cmp m -> has_dup m = false.
Proof.
  induction m as [|p m IH]; [reflexivity|]. destruct m as [|q m]; [reflexivity|].
  intros [H1 H2]. cbn [has_dup]. unfold value_eqb. rewrite H1. cbn [orb]. apply IH. exact H2.
Qed.

Lemma value_map_sorted m : sorted_cmp m -> value_map m = Some (VMap m).
Proof.
  intros H. unfold value_map. rewrite map_sort_sorted by exact H.
  rewrite sorted_no_dup by exact H. reflexivity.
Qed.

Lemma sorted_cmp_keys m :
  Forall (fun p => value_ok W (fst p) /\ value_ok W (snd p)) m ->
  (sorted_cmp m <-> keys_sorted m).
Proof.
  induction m as [|p m IH]; [tauto|]. intros H. inversion H as [|? ? [Hk Hv] Hm]; subst.
  destruct m as [|q m]; [cbn; tauto|].
  inversion Hm as [|? ? [Hk' Hv'] Hm']; subst.
  cbn [sorted_cmp keys_sorted]. rewrite (cmp_lex W HW) by assumption.
  specialize (IH Hm). cbn [sorted_cmp keys_sorted] in IH. tauto.
Qed.

(* ------------------------------------------------ reader: completeness *)

Lemma enc_length v : (1 <= length (enc v))%nat.
Proof. rewrite enc_parts, head_arg. cbn. lia. Qed.

Lemma flat_enc_length a : (length a <= length (flat_map enc a))%nat.
Proof. induction a as [|v a IH]; cbn; [lia|]. rewrite app_length. pose proof (enc_length v). lia. Qed.

Lemma flat_map_enc_length m :
  (length m <= length (flat_map (fun p : value * value => enc (fst p) ++ enc (snd p)) m))%nat.
Proof.
  induction m as [|[k v] m IH]; cbn; [lia|]. rewrite !app_length.
  pose proof (enc_length k). lia.
Qed.

Lemma Nlen_cons {A} (x : A) l : Nlen (x :: l) = (Nlen l + 1)%N.
Proof. unfold Nlen. cbn. lia. Qed.

Lemma read_array_complete dec a : forall g r,
  Forall (fun v => forall r, dec (enc v ++ r) = Ok (v, r)) a ->
  (length a <= g)%nat ->
  read_array dec g (Nlen a) (flat_map enc a ++ r) = Ok (a, r).
Proof.
  induction a as [|v a IH]; intros g r Hd Hg.
  - destruct g; reflexivity.
  - cbn [length] in Hg. destruct g as [|g]; [lia|].
    inversion Hd as [|? ? Hv Ha]; subst.
    cbn [read_array flat_map]. rewrite Nlen_cons.
    destruct (N.eqb_spec (Nlen a + 1) 0); [lia|].
    rewrite <- app_assoc, Hv. cbn [rbind].
    replace (Nlen a + 1 - 1)%N with (Nlen a) by lia.
    rewrite IH by (auto; lia). reflexivity.
Qed.

Definition opt_lt (o : option value) (m : list (value * value)) : Prop :=
  match o, m with Some k, p :: _ => value_cmp k (fst p) = Lt | _, _ => True end.

Lemma read_map_complete dec m : forall g r last,
  Forall (fun p => (forall r, dec (enc (fst p) ++ r) = Ok (fst p, r)) /\
                   (forall r, dec (enc (snd p) ++ r) = Ok (snd p, r))) m ->
  sorted_cmp m -> opt_lt last m ->
  (length m <= g)%nat ->
  read_map dec g (Nlen m) last (flat_map (fun p => enc (fst p) ++ enc (snd p)) m ++ r) = Ok (m, r).
Proof.
  induction m as [|[k v] m IH]; intros g r last Hd Hs Ho Hg.
  - destruct g; reflexivity.
  - cbn [length] in Hg. destruct g as [|g]; [lia|].
    inversion Hd as [|? ? [Hk Hv] Ha]; subst. cbn [fst snd] in *.
    cbn [read_map flat_map fst snd]. rewrite Nlen_cons.
    destruct (N.eqb_spec (Nlen m + 1) 0); [lia|].
    rewrite <- !app_assoc, Hk. cbn [rbind].
    replace (match last with
             | Some k0 => match value_cmp k0 k with Lt => false | _ => true end
             | None => false end) with false.
    2: { destruct last as [k0|]; [|reflexivity]. cbn in Ho. rewrite Ho. reflexivity. }
    rewrite Hv. cbn [rbind].
    replace (Nlen m + 1 - 1)%N with (Nlen m) by lia.
    rewrite IH; auto; try lia.
    + destruct m as [|q m]; [exact I|]. destruct Hs as [_ Hs]. exact Hs.
    + destruct m as [|q m]; [exact I|]. destruct Hs as [Hs _]. exact Hs.
Qed.

(** The first byte of a head. *)
Lemma head_major m n : N.shiftr (m * 32 + arg_info n) 5 = m.
Proof. rewrite shiftr5. pose proof (arg_info_lt n). lia. Qed.
Lemma head_info m n : N.land (m * 32 + arg_info n) 0x1F = arg_info n.
Proof. rewrite land31. pose proof (arg_info_lt n). lia. Qed.

Lemma decode_complete v : value_ok W v -> forall f d r,
  within v d -> (length (enc v) <= f)%nat ->
  decode_item W f d (enc v ++ r) = Ok (v, r).
Proof.
  induction v as [n|z|bs|t|l IH|m IH|t w IH|s] using value_ind'; intros Hv f d r Hd Hf;
  pose proof (depth_neg_within _ _ Hd) as Hneg;
  pose proof (arg_of_lt W HW _ Hv) as Harg;
  match goal with |- context [enc ?v ++ r] => pose proof (enc_length v) as Hlen; rewrite (enc_parts v) in * end;
  (destruct f as [|f]; [lia|]);
  rewrite head_arg in *; cbn [type_label arg_of body_of app] in *;
  cbn [decode_item]; rewrite Hneg; rewrite head_major, head_info;
  rewrite <- app_assoc, read_variadic_complete by exact Harg; cbn [rbind];
  inversion Hv; subst.
  - reflexivity.
  - change (1 =? 0)%N with false. change (1 =? 1)%N with true. cbn iota.
    destruct (N.leb_spec (2 ^ 63) (Z.to_N (-1 - z))) as [H|H].
    + exfalso. assert (Z.of_N (Z.to_N (-1 - z)) < 2 ^ 63)%Z by (rewrite Z2N.id by lia; lia). lia.
    + rewrite Z2N.id by lia. cbn [app]. repeat f_equal. lia.
  - change (2 =? 0)%N with false. change (2 =? 1)%N with false. change (2 =? 2)%N with true. cbn iota.
    unfold as_usize. rewrite N.mod_small by assumption.
    rewrite read_bytes_app by (unfold Nlen; lia). reflexivity.
  - change (3 =? 0)%N with false. change (3 =? 1)%N with false. change (3 =? 2)%N with false.
    change (3 =? 3)%N with true. cbn iota.
    unfold as_usize. rewrite N.mod_small by assumption.
    rewrite read_bytes_app by (unfold Nlen; lia).
    match goal with h : utf8_valid _ = true |- _ => rewrite h end. reflexivity.
  - change (4 =? 0)%N with false. change (4 =? 1)%N with false. change (4 =? 2)%N with false.
    change (4 =? 3)%N with false. change (4 =? 4)%N with true. cbn iota.
    apply within_array in Hd; [|exact Hneg].
    rewrite read_array_complete; [reflexivity| |].
    + rewrite Forall_forall in *. intros v Hin r'. apply IH; auto.
      cbn [length] in Hf. rewrite app_length in Hf.
      apply in_split in Hin as (l1 & l2 & ->). rewrite flat_map_app in Hf. cbn [flat_map] in Hf.
      rewrite !app_length in Hf. lia.
    + rewrite app_length. pose proof (flat_enc_length l). lia.
  - change (5 =? 0)%N with false. change (5 =? 1)%N with false. change (5 =? 2)%N with false.
    change (5 =? 3)%N with false. change (5 =? 4)%N with false. change (5 =? 5)%N with true. cbn iota.
    apply within_map in Hd; [|exact Hneg].
    assert (Hs : sorted_cmp m) by (apply sorted_cmp_keys; auto).
    rewrite read_map_complete; [| |exact Hs|exact I|].
    + cbn [rbind]. rewrite value_map_sorted by exact Hs. reflexivity.
    + rewrite Forall_forall in *. intros p Hin.
      assert (length (enc (fst p)) <= f /\ length (enc (snd p)) <= f)%nat as [L1 L2].
      { cbn [length] in Hf. rewrite app_length in Hf.
        apply in_split in Hin as (l1 & l2 & ->). rewrite flat_map_app in Hf. cbn [flat_map] in Hf.
        rewrite !app_length in Hf. lia. }
      specialize (Hd p Hin). specialize (IH p Hin). 
      match goal with h : forall x, In x m -> value_ok W _ /\ _ |- _ => specialize (h p Hin) end.
      split; intros r'; [apply IH|apply IH]; tauto.
    + rewrite app_length. pose proof (flat_map_enc_length m). lia.
  - change (6 =? 0)%N with false. change (6 =? 1)%N with false. change (6 =? 2)%N with false.
    change (6 =? 3)%N with false. change (6 =? 4)%N with false. change (6 =? 5)%N with false.
    change (6 =? 6)%N with true. cbn iota.
    apply within_tag in Hd; [|exact Hneg].
    rewrite IH; auto. cbn [length] in Hf. rewrite app_length in Hf. lia.
  - change (7 =? 0)%N with false. change (7 =? 1)%N with false. change (7 =? 2)%N with false.
    change (7 =? 3)%N with false. change (7 =? 4)%N with false. change (7 =? 5)%N with false.
    change (7 =? 6)%N with false. change (7 =? 7)%N with true. cbn iota. 
    destruct s; reflexivity.
Qed.

(* ------------------------------------------------ reader: soundness *)

Lemma read_array_sound dec (P : value -> Prop) :
  (forall l v r, bytes_ok l = true -> dec l = Ok (v, r) ->
     P v /\ exists p, l = p ++ r /\ (W = 64%N -> p = enc v)) ->
  forall g n l a r, bytes_ok l = true -> read_array dec g n l = Ok (a, r) ->
  Nlen a = n /\ Forall P a /\ exists p, l = p ++ r /\ (W = 64%N -> p = flat_map enc a).
Proof.
  intros Hdec. induction g as [|g IH]; intros n l a r Hl; cbn [read_array];
  destruct (N.eqb_spec n 0) as [->|Hn].
  1,3: intros E; injection E as <- <-; repeat split; [constructor|exists []; auto].
  1: discriminate.
  destruct (dec l) as [[v l1]|] eqn:Ed; cbn [rbind]; [|discriminate].
  destruct (read_array dec g (n - 1) l1) as [[vs l2]|] eqn:Er; cbn [rbind]; [|discriminate].
  intros E. injection E as <- <-.
  apply Hdec in Ed as (Pv & p & -> & Hp); [|exact Hl].
  rewrite bytes_ok_app in Hl. apply andb_true_iff in Hl as [Hl1 Hl2].
  apply IH in Er as (Hlen & HF & q & -> & Hq); [|exact Hl2].
  repeat split.
  - rewrite Nlen_cons. lia.
  - constructor; assumption.
  - exists (p ++ q). rewrite app_assoc. split; [reflexivity|]. intros E. cbn [flat_map].
    rewrite Hp, Hq by exact E. reflexivity.
Qed.

Lemma read_map_sound dec (P : value -> Prop) :
  (forall l v r, bytes_ok l = true -> dec l = Ok (v, r) ->
     P v /\ exists p, l = p ++ r /\ (W = 64%N -> p = enc v)) ->
  forall g n last l m r, bytes_ok l = true -> read_map dec g n last l = Ok (m, r) ->
  Nlen m = n /\ Forall (fun p => P (fst p) /\ P (snd p)) m /\ sorted_cmp m /\ opt_lt last m /\
  exists p, l = p ++ r /\ (W = 64%N -> p = flat_map (fun p => enc (fst p) ++ enc (snd p)) m).
Proof.
  intros Hdec. induction g as [|g IH]; intros n last l m r Hl; cbn [read_map];
  destruct (N.eqb_spec n 0) as [->|Hn].
  1,3: intros E; injection E as <- <-; repeat split;
    [constructor|destruct last; exact I|exists []; auto].
  1: discriminate.
  destruct (dec l) as [[k l1]|] eqn:Ed; cbn [rbind]; [|discriminate].
  destruct (match last with
            | Some k0 => match value_cmp k0 k with Lt => false | _ => true end
            | None => false end) eqn:Eo; [discriminate|].
  destruct (dec l1) as [[v l2]|] eqn:Ed2; cbn [rbind]; [|discriminate].
  destruct (read_map dec g (n - 1) (Some k) l2) as [[vs l3]|] eqn:Er; cbn [rbind]; [|discriminate].
  intros E. injection E as <- <-.
  apply Hdec in Ed as (Pk & p & -> & Hp); [|exact Hl].
  rewrite bytes_ok_app in Hl. apply andb_true_iff in Hl as [Hl1 Hl2].
  apply Hdec in Ed2 as (Pv & q & -> & Hq); [|exact Hl2].
  rewrite bytes_ok_app in Hl2. apply andb_true_iff in Hl2 as [Hl2 Hl3].
  apply IH in Er as (Hlen & HF & HS & HO & s & -> & Hs); [|exact Hl3].
  repeat split.
  - rewrite Nlen_cons. lia.
  - constructor; auto.
  - destruct vs as [|[k' v'] vs]; [exact I|]. split; [exact HO|exact HS].
  - destruct last as [k0|]; [|exact I]. cbn. destruct (value_cmp k0 k); auto; discriminate.
  - exists (p ++ q ++ s). rewrite <- !app_assoc. split; [reflexivity|]. intros E. cbn [flat_map fst snd].
    rewrite Hp, Hq, Hs by exact E. rewrite <- app_assoc. reflexivity.
Qed.

Lemma simple_from_integer_inv n s : simple_from_integer n = Some s -> n = simple_code s.
Proof.
  unfold simple_from_integer.
  destruct (N.eqb_spec n 20); [intros E; injection E as <-; assumption|].
  destruct (N.eqb_spec n 21); [intros E; injection E as <-; assumption|].
  destruct (N.eqb_spec n 22); [intros E; injection E as <-; assumption|].
  destruct (N.eqb_spec n 23); [intros E; injection E as <-; assumption|]. discriminate.
Qed.

Lemma decode_sound f : forall d l v r,
  (0 < W)%N -> bytes_ok l = true -> decode_item W f d l = Ok (v, r) ->
  (value_ok W v /\ within v d) /\ exists p, l = p ++ r /\ (W = 64%N -> p = enc v).
Proof.
  induction f as [|f IH]; intros d l v r HW0 Hl; cbn [decode_item]; [discriminate|].
  destruct (depth_neg d) eqn:Hneg; [discriminate|].
  destruct l as [|first l0]; [discriminate|].
  cbn [bytes_ok forallb] in Hl. apply andb_true_iff in Hl as [Hfirst Hl0].
  unfold byte_ok in Hfirst. apply N.ltb_lt in Hfirst.
  destruct (read_variadic (N.land first 0x1F) l0) as [[n l1]|] eqn:Ev; cbn [rbind]; [|discriminate].
  apply read_variadic_sound in Ev as (Hn & Hai & ->); [|exact Hl0].
  rewrite bytes_ok_app in Hl0. apply andb_true_iff in Hl0 as [_ Hl1].
  rewrite shiftr5. rewrite land31 in Hai |- *.
  assert (Hf : first = (first / 32 * 32 + arg_info n)%N) by lia.
  assert (Hmaj : (first / 32 < 8)%N) by lia.
  remember (first / 32)%N as major eqn:Em.
  assert (HP : forall b, first :: arg_bytes n ++ b = head major n ++ b).
  { intros b. rewrite head_arg. cbn [app]. rewrite <- Hf. reflexivity. }
  clear Em.
  destruct (N.eqb_spec major 0) as [->|].
  { intros E. injection E as <- <-. split; [split|].
    - constructor. exact Hn.
    - apply within_leaf; auto.
    - exists (head 0 n). split; [apply HP|]. reflexivity. }
  destruct (N.eqb_spec major 1) as [->|].
  { destruct (N.leb_spec (2 ^ 63) n); [discriminate|].
    intros E. injection E as <- <-. split; [split|].
    - constructor. change (2 ^ 63)%N with 9223372036854775808%N in *.
      change (2 ^ 63)%Z with 9223372036854775808%Z. lia.
    - apply within_leaf; auto.
    - exists (head 1 n). split; [apply HP|]. intros _. cbn [enc]. f_equal. lia. }
  destruct (N.eqb_spec major 2) as [->|].
  { destruct (read_bytes (as_usize W n) l1) as [[b l2]|] eqn:Eb; [|discriminate].
    intros E. injection E as <- <-. apply read_bytes_inv in Eb as [-> Hb].
    rewrite bytes_ok_app in Hl1. apply andb_true_iff in Hl1 as [Hl1 _].
    assert (Hsz : Nlen b = as_usize W n) by (unfold Nlen; lia).
    split; [split|].
    - constructor; [exact Hl1|]. rewrite Hsz. apply N.mod_lt. apply N.pow_nonzero. discriminate.
    - apply within_leaf; auto.
    - exists (head 2 n ++ b). rewrite HP, <- app_assoc. split; [reflexivity|].
      intros E. cbn [enc]. rewrite Hsz. unfold as_usize. rewrite E, N.mod_small by exact Hn. reflexivity. }
  destruct (N.eqb_spec major 3) as [->|].
  { destruct (read_bytes (as_usize W n) l1) as [[b l2]|] eqn:Eb; [|discriminate].
    destruct (utf8_valid b) eqn:Eu; [|discriminate].
    intros E. injection E as <- <-. apply read_bytes_inv in Eb as [-> Hb].
    rewrite bytes_ok_app in Hl1. apply andb_true_iff in Hl1 as [Hl1 _].
    assert (Hsz : Nlen b = as_usize W n) by (unfold Nlen; lia).
    split; [split|].
    - constructor; [exact Hl1|exact Eu|]. rewrite Hsz. apply N.mod_lt. apply N.pow_nonzero. discriminate.
    - apply within_leaf; auto.
    - exists (head 3 n ++ b). rewrite HP, <- app_assoc. split; [reflexivity|].
      intros E. cbn [enc]. rewrite Hsz. unfold as_usize. rewrite E, N.mod_small by exact Hn. reflexivity. }
  destruct (N.eqb_spec major 4) as [->|].
  { destruct (read_array (decode_item W f (depth_dec d)) (S (length l1)) n l1) as [[a l2]|] eqn:Ea;
      cbn [rbind]; [|discriminate].
    intros E. injection E as <- <-.
    apply (read_array_sound _ (fun v => value_ok W v /\ within v (depth_dec d))) in Ea as (Hlen & HF & p & -> & Hp); [| |exact Hl1].
    2: { intros l' v' r' Hl' Hd'. apply IH; auto. }
    split; [split|].
    - constructor; [rewrite Hlen; exact Hn|]. eapply Forall_impl; [|exact HF]. cbn beta. intuition.
    - apply within_array; [exact Hneg|]. eapply Forall_impl; [|exact HF]. cbn beta. intuition.
    - exists (head 4 n ++ p). rewrite HP, <- app_assoc. split; [reflexivity|].
      intros E. cbn [enc]. rewrite Hlen, Hp by exact E. reflexivity. }
  destruct (N.eqb_spec major 5) as [->|].
  { destruct (read_map (decode_item W f (depth_dec d)) (S (length l1)) n None l1) as [[a l2]|] eqn:Ea;
      cbn [rbind]; [|discriminate].
    apply (read_map_sound _ (fun v => value_ok W v /\ within v (depth_dec d))) in Ea
      as (Hlen & HF & HS & _ & p & -> & Hp); [| |exact Hl1].
    2: { intros l' v' r' Hl' Hd'. apply IH; auto. }
    rewrite value_map_sorted by exact HS.
    intros E. injection E as <- <-.
    assert (HF' : Forall (fun p => value_ok W (fst p) /\ value_ok W (snd p)) a)
      by (eapply Forall_impl; [|exact HF]; cbn beta; intuition).
    split; [split|].
    - constructor; [rewrite Hlen; exact Hn|exact HF'|]. apply sorted_cmp_keys; assumption.
    - apply within_map; [exact Hneg|]. eapply Forall_impl; [|exact HF]. cbn beta. intuition.
    - exists (head 5 n ++ p). rewrite HP, <- app_assoc. split; [reflexivity|].
      intros E. cbn [enc]. rewrite Hlen, Hp by exact E. reflexivity. }
  destruct (N.eqb_spec major 6) as [->|].
  { destruct (decode_item W f (depth_dec d) l1) as [[w l2]|] eqn:Ew; cbn [rbind]; [|discriminate].
    intros E. injection E as <- <-.
    apply IH in Ew as ([Hw Hd] & p & -> & Hp); [| exact HW0 | exact Hl1].
    split; [split|].
    - constructor; assumption.
    - apply within_tag; assumption.
    - exists (head 6 n ++ p). rewrite HP, <- app_assoc. split; [reflexivity|].
      intros E. cbn [enc]. rewrite Hp by exact E. reflexivity. }
  destruct (N.eqb_spec major 7) as [->|]; [|discriminate].
  unfold decode_simple.
  destruct ((23 <? first mod 32) && negb (first mod 32 =? 24))%N; [discriminate|].
  destruct (simple_from_integer n) as [s|] eqn:Es; [|discriminate].
  intros E. injection E as <- <-. apply simple_from_integer_inv in Es.
  split; [split|].
  - constructor.
  - apply within_leaf; auto.
  - exists (head 7 n). rewrite HP. split; [reflexivity|]. intros _. rewrite enc_simple, Es. reflexivity.
Qed.

End W.
