From Coq Require Import Permutation.
From Verif Require Import Base Facts Cbor.Model Cbor.Spec Cbor.Proofs Cbor.Proofs2 Cbor.Proofs3.

(* ------------------------------------------------ totality *)

Definition bad (e : dec_error) : bool :=
  match e with DE_Panic | DE_OutOfFuel => true | _ => false end.

Lemma read_bytes_length k l a b : read_bytes k l = Some (a, b) -> (length b <= length l)%nat.
Proof. intros H. apply read_bytes_inv in H as [-> _]. rewrite app_length. lia. Qed.

Lemma read_variadic_length ai l n r : read_variadic ai l = Ok (n, r) -> (length r <= length l)%nat.
Proof.
  unfold read_variadic.
  assert (G : forall k : N,
    match read_bytes k l with
    | Some (b, r0) =>
        if ((k =? 1) && (read_be b <? 24) || (read_be b <? N.shiftl 1 (8 * N.shiftr k 1)))%N
        then Err DE_NonMinimalCborEncoding
        else Ok (read_be b, r0)
    | None => Err DE_IncompleteCborData
    end = Ok (n, r) -> (length r <= length l)%nat).
  { intros k. destruct (read_bytes k l) as [[b r0]|] eqn:E; [|discriminate].
    destruct (_ || _); [discriminate|]. intros H. injection H as _ <-.
    eapply read_bytes_length; eauto. }
  destruct (ai <=? 23)%N; [intros H; injection H as _ <-; lia|].
  destruct (ai =? 24)%N; [apply G|].
  destruct (ai =? 25)%N; [apply G|].
  destruct (ai =? 26)%N; [apply G|].
  destruct (ai =? 27)%N; [apply G|]. discriminate.
Qed.

Lemma read_variadic_bad ai l e : read_variadic ai l = Err e -> bad e = false.
Proof.
  unfold read_variadic.
  assert (G : forall k : N,
    match read_bytes k l with
    | Some (b, r0) =>
        if ((k =? 1) && (read_be b <? 24) || (read_be b <? N.shiftl 1 (8 * N.shiftr k 1)))%N
        then Err DE_NonMinimalCborEncoding
        else Ok (read_be b, r0)
    | None => Err DE_IncompleteCborData
    end = Err e -> bad e = false).
  { intros k. destruct (read_bytes k l) as [[b r0]|] eqn:E.
    - destruct (_ || _); [|discriminate]. intros H. injection H as <-. reflexivity.
    - intros H. injection H as <-. reflexivity. }
  destruct (ai <=? 23)%N; [discriminate|].
  destruct (ai =? 24)%N; [apply G|].
  destruct (ai =? 25)%N; [apply G|].
  destruct (ai =? 26)%N; [apply G|].
  destruct (ai =? 27)%N; [apply G|]. intros H. injection H as <-. reflexivity.
Qed.

Lemma read_array_length dec :
  (forall l v r, dec l = Ok (v, r) -> (length r < length l)%nat) ->
  forall g n l a r, read_array dec g n l = Ok (a, r) -> (length r <= length l)%nat.
Proof.
  intros Hdec. induction g as [|g IH]; intros n l a r; cbn [read_array];
  destruct (n =? 0)%N; try discriminate.
  1,2: intros E; injection E as _ <-; lia.
  destruct (dec l) as [[v l1]|] eqn:Ed; cbn [rbind]; [|discriminate].
  destruct (read_array dec g (n - 1) l1) as [[vs l2]|] eqn:Er; cbn [rbind]; [|discriminate].
  intros E. injection E as _ <-. apply Hdec in Ed. apply IH in Er. lia.
Qed.

Lemma read_map_length dec :
  (forall l v r, dec l = Ok (v, r) -> (length r < length l)%nat) ->
  forall g n o l a r, read_map dec g n o l = Ok (a, r) -> (length r <= length l)%nat.
Proof.
  intros Hdec. induction g as [|g IH]; intros n o l a r; cbn [read_map];
  destruct (n =? 0)%N; try discriminate.
  1,2: intros E; injection E as _ <-; lia.
  destruct (dec l) as [[k l1]|] eqn:Ed; cbn [rbind]; [|discriminate].
  destruct (match o with
            | Some k0 => match value_cmp k0 k with Lt => false | _ => true end
            | None => false end); [discriminate|].
  destruct (dec l1) as [[v l2]|] eqn:Ed2; cbn [rbind]; [|discriminate].
  destruct (read_map dec g (n - 1) (Some k) l2) as [[vs l3]|] eqn:Er; cbn [rbind]; [|discriminate].
  intros E. injection E as _ <-. apply Hdec in Ed. apply Hdec in Ed2. apply IH in Er. lia.
Qed.

Lemma decode_length W f : forall d l v r,
  decode_item W f d l = Ok (v, r) -> (length r < length l)%nat.
Proof.
  induction f as [|f IH]; intros d l v r; cbn [decode_item]; [discriminate|].
  destruct (depth_neg d); [discriminate|]. destruct l as [|b l0]; [discriminate|].
  destruct (read_variadic (N.land b 0x1F) l0) as [[n l1]|] eqn:Ev; cbn [rbind]; [|discriminate].
  apply read_variadic_length in Ev. cbn [length].
  destruct (_ =? 0)%N; [intros E; injection E as _ <-; lia|].
  destruct (_ =? 1)%N.
  { destruct (_ <=? _)%N; [discriminate|]. intros E; injection E as _ <-; lia. }
  destruct (_ =? 2)%N.
  { destruct (read_bytes _ l1) as [[x y]|] eqn:Eb; [|discriminate]. apply read_bytes_length in Eb.
    intros E; injection E as _ <-; lia. }
  destruct (_ =? 3)%N.
  { destruct (read_bytes _ l1) as [[x y]|] eqn:Eb; [|discriminate]. apply read_bytes_length in Eb.
    destruct (utf8_valid x); [|discriminate]. intros E; injection E as _ <-; lia. }
  destruct (_ =? 4)%N.
  { destruct (read_array _ _ _ _) as [[x y]|] eqn:Eb; cbn [rbind]; [|discriminate].
    apply read_array_length in Eb; [|apply IH]. intros E; injection E as _ <-; lia. }
  destruct (_ =? 5)%N.
  { destruct (read_map _ _ _ _ _) as [[x y]|] eqn:Eb; cbn [rbind]; [|discriminate].
    apply read_map_length in Eb; [|apply IH]. destruct (value_map x); [|discriminate].
    intros E; injection E as _ <-; lia. }
  destruct (_ =? 6)%N.
  { destruct (decode_item _ _ _ _) as [[x y]|] eqn:Eb; cbn [rbind]; [|discriminate].
    apply IH in Eb. intros E; injection E as _ <-; lia. }
  destruct (_ =? 7)%N; [|discriminate].
  unfold decode_simple. destruct (_ && _); [discriminate|].
  destruct (simple_from_integer n); [|discriminate]. intros E; injection E as _ <-; lia.
Qed.

Lemma read_array_bad dec :
  (forall l v r, dec l = Ok (v, r) -> (length r < length l)%nat) ->
  forall g n l e, (forall l' e', (length l' <= length l)%nat -> dec l' = Err e' -> bad e' = false) ->
  (length l < g)%nat -> read_array dec g n l = Err e -> bad e = false.
Proof.
  intros Hlen. induction g as [|g IH]; intros n l e Hbad Hg; cbn [read_array];
  destruct (n =? 0)%N; try discriminate; [lia|].
  destruct (dec l) as [[v l1]|e1] eqn:Ed; cbn [rbind].
  - pose proof (Hlen _ _ _ Ed) as L.
    destruct (read_array dec g (n - 1) l1) as [[vs l2]|e2] eqn:Er; cbn [rbind]; [discriminate|].
    intros E. injection E as <-. eapply IH; [| |exact Er]; [|lia].
    intros l' e' Hl'. apply Hbad. lia.
  - intros E. injection E as <-. eapply Hbad; [|exact Ed]. lia.
Qed.

Lemma read_map_bad dec :
  (forall l v r, dec l = Ok (v, r) -> (length r < length l)%nat) ->
  forall g n o l e, (forall l' e', (length l' <= length l)%nat -> dec l' = Err e' -> bad e' = false) ->
  (length l < g)%nat -> read_map dec g n o l = Err e -> bad e = false.
Proof.
  intros Hlen. induction g as [|g IH]; intros n o l e Hbad Hg; cbn [read_map];
  destruct (n =? 0)%N; try discriminate; [lia|].
  destruct (dec l) as [[v l1]|e1] eqn:Ed; cbn [rbind].
  2: { intros E. injection E as <-. eapply Hbad; [|exact Ed]. lia. }
  pose proof (Hlen _ _ _ Ed) as L.
  destruct (match o with
            | Some k0 => match value_cmp k0 v with Lt => false | _ => true end
            | None => false end).
  { intros E. injection E as <-. reflexivity. }
  destruct (dec l1) as [[w l2]|e1] eqn:Ed2; cbn [rbind].
  2: { intros E. injection E as <-. eapply Hbad; [|exact Ed2]. lia. }
  pose proof (Hlen _ _ _ Ed2) as L2.
  destruct (read_map dec g (n - 1) (Some v) l2) as [[vs l3]|e2] eqn:Er; cbn [rbind]; [discriminate|].
  intros E. injection E as <-. eapply IH; [| |exact Er]; [|lia].
  intros l' e' Hl'. apply Hbad. lia.
Qed.

Lemma read_map_sorted dec : forall g n o l m r,
  read_map dec g n o l = Ok (m, r) -> sorted_cmp m /\ opt_lt o m.
Proof.
  induction g as [|g IH]; intros n o l m r; cbn [read_map];
  destruct (n =? 0)%N; try discriminate.
  1,2: intros E; injection E as <- _; split; [exact I|destruct o; exact I].
  destruct (dec l) as [[k l1]|] eqn:Ed; cbn [rbind]; [|discriminate].
  destruct (match o with
            | Some k0 => match value_cmp k0 k with Lt => false | _ => true end
            | None => false end) eqn:Eo; [discriminate|].
  destruct (dec l1) as [[v l2]|] eqn:Ed2; cbn [rbind]; [|discriminate].
  destruct (read_map dec g (n - 1) (Some k) l2) as [[vs l3]|] eqn:Er; cbn [rbind]; [|discriminate].
  intros E. injection E as <- _. apply IH in Er as [S O]. split.
  - destruct vs as [|q vs]; [exact I|]. split; [exact O|exact S].
  - destruct o as [k0|]; [|exact I]. cbn. destruct (value_cmp k0 k); auto; discriminate.
Qed.

Lemma decode_bad W f : forall d l e,
  (length l < f)%nat -> decode_item W f d l = Err e -> bad e = false.
Proof.
  induction f as [|f IH]; intros d l e Hf; [lia|]. cbn [decode_item].
  destruct (depth_neg d); [intros E; injection E as <-; reflexivity|].
  destruct l as [|b l0]; [intros E; injection E as <-; reflexivity|]. cbn [length] in Hf.
  destruct (read_variadic (N.land b 0x1F) l0) as [[n l1]|e1] eqn:Ev; cbn [rbind].
  2: { intros E. injection E as <-. eapply read_variadic_bad; eauto. }
  apply read_variadic_length in Ev.
  destruct (_ =? 0)%N; [discriminate|].
  destruct (_ =? 1)%N.
  { destruct (_ <=? _)%N; [|discriminate]. intros E; injection E as <-; reflexivity. }
  destruct (_ =? 2)%N.
  { destruct (read_bytes _ l1) as [[x y]|] eqn:Eb; [discriminate|].
    intros E; injection E as <-; reflexivity. }
  destruct (_ =? 3)%N.
  { destruct (read_bytes _ l1) as [[x y]|] eqn:Eb.
    - destruct (utf8_valid x); [discriminate|]. intros E; injection E as <-; reflexivity.
    - intros E; injection E as <-; reflexivity. }
  destruct (_ =? 4)%N.
  { destruct (read_array _ _ _ _) as [[x y]|e2] eqn:Eb; cbn [rbind]; [discriminate|].
    intros E; injection E as <-. eapply read_array_bad; [apply decode_length| | |exact Eb]; [|lia].
    intros l' e' Hl'. apply IH. lia. }
  destruct (_ =? 5)%N.
  { destruct (read_map _ _ _ _ _) as [[x y]|e2] eqn:Eb; cbn [rbind].
    - apply read_map_sorted in Eb as [S _]. rewrite value_map_sorted by exact S. discriminate.
    - intros E; injection E as <-. eapply read_map_bad; [apply decode_length| | |exact Eb]; [|lia].
      intros l' e' Hl'. apply IH. lia. }
  destruct (_ =? 6)%N.
  { destruct (decode_item _ _ _ _) as [[x y]|e2] eqn:Eb; cbn [rbind]; [discriminate|].
    intros E; injection E as <-. eapply IH; [|exact Eb]. lia. }
  destruct (_ =? 7)%N; [|intros E; injection E as <-; reflexivity].
  unfold decode_simple. destruct (_ && _); [intros E; injection E as <-; reflexivity|].
  destruct (simple_from_integer n); [discriminate|]. intros E; injection E as <-; reflexivity.
Qed.

Lemma read_nested_total W l d : forall e, read_nested W l d = Err e -> bad e = false.
Proof.
  intros e. unfold read_nested.
  destruct (decode_item W (S (length l)) d l) as [[v r]|e1] eqn:E; cbn [rbind].
  - destruct r; [discriminate|]. intros H; injection H as <-. reflexivity.
  - intros H; injection H as <-. eapply decode_bad; [|exact E]. lia.
Qed.

(* ------------------------------------------------ nesting limit *)

Lemma read_array_nest dec dec' (b : value -> bool) :
  (forall l v r, dec l = Ok (v, r) -> dec' l = if b v then Ok (v, r) else Err DE_TooMuchNesting) ->
  forall g n l a r, read_array dec g n l = Ok (a, r) ->
  read_array dec' g n l = if forallb b a then Ok (a, r) else Err DE_TooMuchNesting.
Proof.
  intros Hd. induction g as [|g IH]; intros n l a r; cbn [read_array];
  destruct (n =? 0)%N; try discriminate.
  1,2: intros E; injection E as <- <-; reflexivity.
  destruct (dec l) as [[v l1]|] eqn:Ed; cbn [rbind]; [|discriminate].
  destruct (read_array dec g (n - 1) l1) as [[vs l2]|] eqn:Er; cbn [rbind]; [|discriminate].
  intros E. injection E as <- <-. rewrite (Hd _ _ _ Ed). cbn [forallb].
  destruct (b v); cbn [rbind andb]; [|reflexivity].
  rewrite (IH _ _ _ _ Er). destruct (forallb b vs); reflexivity.
Qed.

Lemma read_map_nest dec dec' (b : value -> bool) :
  (forall l v r, dec l = Ok (v, r) -> dec' l = if b v then Ok (v, r) else Err DE_TooMuchNesting) ->
  forall g n o l a r, read_map dec g n o l = Ok (a, r) ->
  read_map dec' g n o l =
  if forallb (fun p => b (fst p) && b (snd p)) a then Ok (a, r) else Err DE_TooMuchNesting.
Proof.
  intros Hd. induction g as [|g IH]; intros n o l a r; cbn [read_map];
  destruct (n =? 0)%N; try discriminate.
  1,2: intros E; injection E as <- <-; reflexivity.
  destruct (dec l) as [[k l1]|] eqn:Ed; cbn [rbind]; [|discriminate].
  destruct (match o with
            | Some k0 => match value_cmp k0 k with Lt => false | _ => true end
            | None => false end) eqn:Eo; [discriminate|].
  destruct (dec l1) as [[v l2]|] eqn:Ed2; cbn [rbind]; [|discriminate].
  destruct (read_map dec g (n - 1) (Some k) l2) as [[vs l3]|] eqn:Er; cbn [rbind]; [|discriminate].
  intros E. injection E as <- <-. rewrite (Hd _ _ _ Ed). cbn [forallb fst snd].
  destruct (b k); cbn [rbind andb]; [|reflexivity]. rewrite Eo.
  rewrite (Hd _ _ _ Ed2). destruct (b v); cbn [rbind andb]; [|reflexivity].
  rewrite (IH _ _ _ _ _ Er). destruct (forallb _ vs); reflexivity.
Qed.

Lemma decode_nest W f : forall d0 l v r, decode_item W f d0 l = Ok (v, r) -> forall d,
  decode_item W f d l = if withinb v d then Ok (v, r) else Err DE_TooMuchNesting.
Proof.
  induction f as [|f IH]; intros d0 l v r; [discriminate|].
  intros E0 d. revert E0.
  assert (Hnegd : depth_neg d = true -> withinb v d = false).
  { intros H. apply not_true_iff_false. rewrite withinb_spec. apply depth_neg_not_within. exact H. }
  cbn [decode_item].
  destruct (depth_neg d0); [discriminate|]. destruct l as [|b l0]; [discriminate|].
  destruct (depth_neg d) eqn:Hneg.
  { intros _. rewrite Hnegd by reflexivity. reflexivity. }
  assert (Hleaf : forall v, depth v = 0%Z -> withinb v d = true).
  { intros w Hw. apply withinb_spec. apply within_leaf; auto. }
  destruct (read_variadic (N.land b 0x1F) l0) as [[n l1]|] eqn:Ev; cbn [rbind]; [|discriminate].
  destruct (_ =? 0)%N.
  { intros E; injection E as <- <-. rewrite Hleaf by reflexivity. reflexivity. }
  destruct (_ =? 1)%N.
  { destruct (_ <=? _)%N; [discriminate|]. intros E; injection E as <- <-.
    rewrite Hleaf by reflexivity. reflexivity. }
  destruct (_ =? 2)%N.
  { destruct (read_bytes _ l1) as [[x y]|] eqn:Eb; [|discriminate].
    intros E; injection E as <- <-. rewrite Hleaf by reflexivity. reflexivity. }
  destruct (_ =? 3)%N.
  { destruct (read_bytes _ l1) as [[x y]|] eqn:Eb; [|discriminate].
    destruct (utf8_valid x); [|discriminate].
    intros E; injection E as <- <-. rewrite Hleaf by reflexivity. reflexivity. }
  destruct (_ =? 4)%N.
  { destruct (read_array _ _ _ _) as [[x y]|] eqn:Eb; cbn [rbind]; [|discriminate].
    intros E; injection E as <- <-.
    rewrite (read_array_nest _ _ (fun v => withinb v (depth_dec d))
      (fun l v r H => IH _ l v r H (depth_dec d)) _ _ _ _ _ Eb).
    replace (withinb (VArray x) d) with (forallb (fun v => withinb v (depth_dec d)) x).
    { destruct (forallb _ x); reflexivity. }
    apply bool_eq_iff. rewrite withinb_spec, within_array, forallb_forall, Forall_forall by exact Hneg.
    split; intros H w Hin; apply withinb_spec; auto. }
  destruct (_ =? 5)%N.
  { destruct (read_map _ _ _ _ _) as [[x y]|] eqn:Eb; cbn [rbind]; [|discriminate].
    pose proof (read_map_sorted _ _ _ _ _ _ _ Eb) as [S _].
    rewrite value_map_sorted by exact S.
    intros E; injection E as <- <-.
    rewrite (read_map_nest _ _ (fun v => withinb v (depth_dec d))
      (fun l v r H => IH _ l v r H (depth_dec d)) _ _ _ _ _ _ Eb).
    replace (withinb (VMap x) d) with
      (forallb (fun p => withinb (fst p) (depth_dec d) && withinb (snd p) (depth_dec d)) x).
    { destruct (forallb _ x); cbn [rbind]; [|reflexivity].
      rewrite value_map_sorted by exact S. reflexivity. }
    apply bool_eq_iff. rewrite withinb_spec, within_map, forallb_forall, Forall_forall by exact Hneg.
    split; intros H p Hin.
    + specialize (H p Hin). apply andb_true_iff in H as [A B]. rewrite withinb_spec in A, B. auto.
    + specialize (H p Hin). apply andb_true_iff. rewrite !withinb_spec. auto. }
  destruct (_ =? 6)%N.
  { destruct (decode_item _ _ _ _) as [[x y]|] eqn:Eb; cbn [rbind]; [|discriminate].
    intros E; injection E as <- <-.
    rewrite (IH _ _ _ _ Eb (depth_dec d)).
    replace (withinb (VTag n x) d) with (withinb x (depth_dec d)).
    { destruct (withinb x (depth_dec d)); reflexivity. }
    apply bool_eq_iff. rewrite !withinb_spec. symmetry. apply within_tag. exact Hneg. }
  destruct (_ =? 7)%N; [|discriminate].
  unfold decode_simple. destruct (_ && _); [discriminate|].
  destruct (simple_from_integer n); [|discriminate].
  intros E; injection E as <- <-. rewrite Hleaf by reflexivity. reflexivity.
Qed.

Lemma read_nested_nest W l d0 v d : read_nested W l d0 = Ok v ->
  read_nested W l d = if withinb v d then Ok v else Err DE_TooMuchNesting.
Proof.
  unfold read_nested.
  destruct (decode_item W (S (length l)) d0 l) as [[w r]|] eqn:E; cbn [rbind]; [|discriminate].
  destruct r; [|discriminate]. intros H; injection H as <-.
  rewrite (decode_nest _ _ _ _ _ _ E d). destruct (withinb w d); reflexivity.
Qed.

(* ------------------------------------------------ top level round trips *)

Section W.
Variable W : N.
Hypothesis HW : (W <= 64)%N.

Lemma read_write v d bs : value_ok W v -> write_nested v d = Ok bs -> read_nested W bs d = Ok v.
Proof.
  intros Hv. unfold write_nested. rewrite (encode_spec W HW) by exact Hv.
  destruct (withinb v d) eqn:Hd; [|discriminate]. intros E. injection E as <-.
  unfold read_nested. apply withinb_spec in Hd.
  rewrite <- (app_nil_r (enc v)) at 2.
  rewrite (decode_complete W HW) by (auto; lia). reflexivity.
Qed.

Lemma read_sound l d v : (0 < W)%N -> bytes_ok l = true -> read_nested W l d = Ok v ->
  value_ok W v /\ within v d /\ (W = 64%N -> l = enc v).
Proof.
  intros HW0 Hl. unfold read_nested.
  destruct (decode_item W (S (length l)) d l) as [[w r]|] eqn:E; cbn [rbind]; [|discriminate].
  destruct r; [|discriminate]. intros H; injection H as <-.
  apply (decode_sound W HW) in E as ([Ho Hd] & p & -> & Hp); auto.
  rewrite app_nil_r. auto.
Qed.

(** The order laws, through the order of encodings. *)
Lemma cmp_eq_iff a b : value_ok W a -> value_ok W b -> (value_cmp a b = Eq <-> a = b).
Proof.
  intros Ha Hb. rewrite (cmp_lex W HW) by assumption. rewrite lexcmp_eq. split; [|intros ->; reflexivity].
  intros E. assert (E' : enc a ++ [] = enc b ++ []) by (rewrite E; reflexivity).
  apply (enc_inj_app W HW) in E'; auto. tauto.
Qed.

Lemma cmp_antisym a b : value_ok W a -> value_ok W b -> value_cmp b a = CompOpp (value_cmp a b).
Proof. intros Ha Hb. rewrite !(cmp_lex W HW) by assumption. apply lexcmp_antisym. Qed.

Lemma cmp_trans a b c : value_ok W a -> value_ok W b -> value_ok W c ->
  value_cmp a b = Lt -> value_cmp b c = Lt -> value_cmp a c = Lt.
Proof. intros Ha Hb Hc. rewrite !(cmp_lex W HW) by assumption. apply lexcmp_trans_lt. Qed.

(* ------------------------------------------------ Value::map *)

Definition keys_ok (m : list (value * value)) : Prop := Forall (fun p => value_ok W (fst p)) m.

(** Adjacent keys in non-decreasing order. *)
Fixpoint weak_sorted (m : list (value * value)) : Prop :=
  match m with
  | p :: ((q :: _) as m') => value_cmp (fst p) (fst q) <> Gt /\ weak_sorted m'
  | _ => True
  end.

Lemma map_insert_perm p m : Permutation (p :: m) (map_insert p m).
Proof.
  induction m as [|q m IH]; cbn [map_insert]; [reflexivity|].
  destruct (value_cmp (fst p) (fst q)); try reflexivity.
  rewrite perm_swap. constructor. exact IH.
Qed.

Lemma map_sort_perm m : Permutation m (map_sort m).
Proof.
  induction m as [|p m IH]; [reflexivity|]. cbn [map_sort fold_right].
  change (fold_right map_insert [] m) with (map_sort m).
  rewrite <- map_insert_perm. constructor. exact IH.
Qed.

Lemma map_insert_sorted p m :
  value_ok W (fst p) -> keys_ok m -> weak_sorted m -> weak_sorted (map_insert p m).
Proof.
  intros Hp Hm. induction m as [|q m IH]; intros Hs; [exact I|].
  inversion Hm as [|? ? Hq Hm']; subst. cbn [map_insert].
  destruct (value_cmp (fst p) (fst q)) eqn:E.
  - split; [congruence|exact Hs].
  - split; [congruence|exact Hs].
  - assert (Eq : value_cmp (fst q) (fst p) <> Gt).
    { rewrite cmp_antisym by assumption. rewrite E. discriminate. }
    destruct m as [|r m]; [split; [exact Eq|exact I]|].
    destruct Hs as [H1 H2]. specialize (IH Hm' H2). cbn [map_insert] in IH |- *.
    destruct (value_cmp (fst p) (fst r)); (split; [assumption|exact IH]).
Qed.

Lemma map_sort_weak m : keys_ok m -> weak_sorted (map_sort m).
Proof.
  induction m as [|p m IH]; intros H; [exact I|].
  inversion H as [|? ? Hp Hm]; subst. cbn [map_sort fold_right].
  change (fold_right map_insert [] m) with (map_sort m).
  apply map_insert_sorted; auto. unfold keys_ok. rewrite Forall_forall in *.
  intros q Hq. apply Hm. eapply Permutation_in; [|exact Hq]. symmetry. apply map_sort_perm.
Qed.

Lemma weak_to_strict m : keys_ok m -> weak_sorted m -> has_dup m = false -> keys_sorted m.
Proof.
  induction m as [|p m IH]; intros Hk Hs Hd; [exact I|].
  destruct m as [|q m]; [exact I|].
  inversion Hk as [|? ? Hp Hm]; subst. inversion Hm as [|? ? Hq Hm']; subst.
  cbn [has_dup] in Hd. apply orb_false_iff in Hd as [Hd1 Hd2].
  destruct Hs as [Hs1 Hs2]. unfold value_eqb in Hd1.
  cbn [keys_sorted]. split; [|apply IH; assumption].
  rewrite <- (cmp_lex W HW) by assumption.
  destruct (value_cmp (fst p) (fst q)); congruence.
Qed.

Lemma keys_sorted_lt p m : keys_sorted (p :: m) ->
  Forall (fun q => lexcmp (enc (fst p)) (enc (fst q)) = Lt) m.
Proof.
  revert p. induction m as [|q m IH]; intros p H; [constructor|].
  destruct H as [H1 H2]. constructor; [exact H1|].
  specialize (IH q H2). eapply Forall_impl; [|exact IH].
  intros r Hr. eapply lexcmp_trans_lt; eauto.
Qed.

Lemma keys_sorted_nodup m : keys_sorted m -> NoDup (map fst m).
Proof.
  induction m as [|p m IH]; intros H; [constructor|]. cbn [map].
  pose proof (keys_sorted_lt _ _ H) as HL. constructor.
  - intros Hin. apply in_map_iff in Hin as (q & E & Hin). rewrite Forall_forall in HL.
    specialize (HL q Hin). rewrite E, lexcmp_refl in HL. discriminate.
  - apply IH. destruct m; [exact I|]. destruct H as [_ H]. exact H.
Qed.

Lemma has_dup_dup m : keys_ok m -> has_dup m = true -> ~ NoDup (map fst m).
Proof.
  induction m as [|p m IH]; [discriminate|]. destruct m as [|q m]; [discriminate|].
  intros Hk Hd Hn. inversion Hk as [|? ? Hp Hm]; subst. inversion Hm as [|? ? Hq Hm']; subst.
  cbn [map] in Hn. inversion Hn as [|? ? Hnin Hn']; subst.
  cbn [has_dup] in Hd. apply orb_true_iff in Hd as [Hd|Hd].
  - unfold value_eqb in Hd. destruct (value_cmp (fst p) (fst q)) eqn:E; try discriminate.
    apply cmp_eq_iff in E; auto. apply Hnin. left. congruence.
  - exact (IH Hm Hd Hn').
Qed.

Lemma value_map_spec m : keys_ok m ->
  match value_map m with
  | Some v => exists m', v = VMap m' /\ Permutation m m' /\ keys_sorted m'
  | None => ~ NoDup (map fst m)
  end.
Proof.
  intros Hk. unfold value_map.
  assert (Hk' : keys_ok (map_sort m)).
  { unfold keys_ok in *. rewrite Forall_forall in *.
    intros q Hq. apply Hk. eapply Permutation_in; [|exact Hq]. symmetry. apply map_sort_perm. }
  destruct (has_dup (map_sort m)) eqn:E.
  - intros Hn. eapply has_dup_dup; [exact Hk'|exact E|].
    eapply Permutation_NoDup; [|exact Hn]. apply Permutation_map. apply map_sort_perm.
  - exists (map_sort m). split; [reflexivity|]. split; [apply map_sort_perm|].
    apply weak_to_strict; auto using map_sort_weak.
Qed.

(* ------------------------------------------------ destructuring *)

Lemma keys_sorted_tail p m : keys_sorted (p :: m) -> keys_sorted m.
Proof. destruct m; [trivial|]. intros [_ H]. exact H. Qed.

Lemma peek_value_spec m k : keys_ok m -> value_ok W k -> keys_sorted m ->
  let '(o, m') := peek_value m k in
  (forall v, o = Some v <-> In (k, v) m) /\
  keys_ok m' /\ keys_sorted m' /\
  (forall p, In p m' <-> In p m /\ lexcmp (enc k) (enc (fst p)) = Lt).
Proof.
  intros Hm Hk. induction m as [|[k0 v0] m IH]; intros Hs.
  - cbn. repeat split; try tauto; try constructor. discriminate.
  - inversion Hm as [|? ? Hk0 Hm']; subst. cbn [fst] in Hk0.
    pose proof (keys_sorted_lt _ _ Hs) as HL. cbn [fst] in HL.
    pose proof (keys_sorted_tail _ _ Hs) as Hs'.
    cbn [peek_value]. rewrite (cmp_lex W HW) by assumption.
    destruct (lexcmp (enc k0) (enc k)) eqn:E.
    + apply lexcmp_eq in E. assert (k0 = k).
      { assert (E' : enc k0 ++ [] = enc k ++ []) by (rewrite E; reflexivity).
        apply (enc_inj_app W HW) in E'; tauto. }
      subst k0. rewrite Forall_forall in HL. split; [|split; [exact Hm'|split; [exact Hs'|]]].
      * intros v. split.
        -- intros H. injection H as ->. left. reflexivity.
        -- intros [H|H]; [congruence|]. specialize (HL _ H). cbn [fst] in HL.
           rewrite lexcmp_refl in HL. discriminate.
      * intros p. split.
        -- intros H. split; [right; exact H|apply HL; exact H].
        -- intros [[<-|H] H2]; [|exact H]. cbn [fst] in H2. rewrite lexcmp_refl in H2. discriminate.
    + specialize (IH Hm' Hs'). destruct (peek_value m k) as [o m'].
      destruct IH as (A & B & C & D). split; [|split; [exact B|split; [exact C|]]].
      * intros v. rewrite A. split; [right; assumption|]. intros [H|H]; [|exact H].
        injection H as -> _. rewrite lexcmp_refl in E. discriminate.
      * intros p. rewrite D. split; [intros [H1 H2]; split; [right|]; assumption|].
        intros [[<-|H] H2]; [|tauto]. cbn [fst] in H2. rewrite lexcmp_antisym, E in H2. discriminate.
    + assert (E2 : lexcmp (enc k) (enc k0) = Lt) by (rewrite lexcmp_antisym, E; reflexivity).
      split; [|split; [exact Hm|split; [exact Hs|]]].
      * intros v. split; [discriminate|]. intros [H|H].
        -- injection H as -> _. rewrite lexcmp_refl in E. discriminate.
        -- rewrite Forall_forall in HL. specialize (HL _ H). cbn [fst] in HL.
           rewrite HL in E. discriminate.
      * intros p. split; [|tauto]. intros H. split; [exact H|].
        destruct H as [<-|H]; [exact E2|].
        rewrite Forall_forall in HL. specialize (HL _ H). eapply lexcmp_trans_lt; eauto.
Qed.

Lemma destructure_spec keys : forall m, keys_ok m -> Forall (value_ok W) keys ->
  keys_sorted m -> keys_sorted (map (fun k => (k, k)) keys) ->
  Forall2 (fun k o => forall v, o = Some v <-> In (k, v) m) keys (destructure m keys).
Proof.
  induction keys as [|k ks IH]; intros m Hm Hk Hs Hks; [constructor|].
  inversion Hk as [|? ? Hk0 Hk']; subst.
  cbn [destructure]. pose proof (peek_value_spec m k Hm Hk0 Hs) as P.
  destruct (peek_value m k) as [o m'].
  destruct P as (A & B & C & D). constructor; [exact A|].
  cbn [map] in Hks. pose proof (keys_sorted_lt _ _ Hks) as HL.
  pose proof (keys_sorted_tail _ _ Hks) as Hks'.
  specialize (IH m' B Hk' C Hks').
  assert (HL' : Forall (fun k' => lexcmp (enc k) (enc k') = Lt) ks).
  { apply Forall_map_iff in HL. exact HL. }
  clear - IH D HL'.
  induction IH as [|k' o' ks os Hx Hr IHr]; constructor.
  - inversion HL'; subst. intros v. rewrite Hx, D. cbn [fst]. tauto.
  - apply IHr. inversion HL'; subst. assumption.
Qed.

(* ------------------------------------------------ CTAP2 order *)

Lemma major_of_label v : major_of v = type_label v.
Proof.
  unfold major_of. rewrite enc_parts, head_arg. cbn [app hd].
  pose proof (arg_info_lt (arg_of v)). lia.
Qed.

Lemma arg_bytes_len_mono m n : (m < n)%N -> (length (arg_bytes m) <= length (arg_bytes n))%nat.
Proof.
  intros H. unfold arg_bytes.
  destruct (N.ltb_spec m 24); destruct (N.ltb_spec n 24);
  destruct (N.ltb_spec m (2 ^ 8)); destruct (N.ltb_spec n (2 ^ 8));
  destruct (N.ltb_spec m (2 ^ 16)); destruct (N.ltb_spec n (2 ^ 16));
  destruct (N.ltb_spec m (2 ^ 32)); destruct (N.ltb_spec n (2 ^ 32));
  cbn [be_bytes length]; lia.
Qed.

Lemma scalar_body v : scalar v = true ->
  length (body_of v) = match v with VBytes _ | VText _ => N.to_nat (arg_of v) | _ => 0%nat end.
Proof. destruct v; cbn; try discriminate; intros _; unfold Nlen; lia. Qed.

Lemma scalar_len_mono a b : scalar a = true -> scalar b = true -> type_label a = type_label b ->
  ((arg_of a < arg_of b)%N -> (length (enc a) <= length (enc b))%nat) /\
  (arg_of a = arg_of b -> length (enc a) = length (enc b)).
Proof.
  intros Ha Hb Ht. rewrite !enc_parts, !head_arg, !app_length. cbn [length].
  rewrite (scalar_body a Ha), (scalar_body b Hb).
  split.
  - intros H. pose proof (arg_bytes_len_mono _ _ H).
    destruct a, b; try discriminate; lia.
  - intros ->. destruct a, b; try discriminate; lia.
Qed.

Lemma ctap2_scalar a b : value_ok W a -> value_ok W b -> scalar a = true -> scalar b = true ->
  value_cmp a b = ctap2_order a b.
Proof.
  intros Ha Hb Sa Sb. rewrite (cmp_lex W HW) by assumption.
  unfold ctap2_order. rewrite !major_of_label.
  assert (E : lexcmp (enc a) (enc b) =
    match N.compare (type_label a) (type_label b) with
    | Eq => match N.compare (arg_of a) (arg_of b) with Eq => lexcmp (body_of a) (body_of b) | c => c end
    | c => c end).
  { rewrite (enc_parts a), (enc_parts b). apply (lexcmp_head W HW); apply (arg_of_lt W HW); assumption. }
  destruct (N.compare_spec (type_label a) (type_label b)) as [Et|Et|Et]; try exact E.
  destruct (scalar_len_mono a b Sa Sb Et) as [M1 M2].
  destruct (scalar_len_mono b a Sb Sa (eq_sym Et)) as [M3 _].
  destruct (N.compare_spec (arg_of a) (arg_of b)) as [Ea|Ea|Ea].
  - rewrite (M2 Ea), Nat.compare_refl. reflexivity.
  - specialize (M1 Ea). destruct (Nat.compare_spec (length (enc a)) (length (enc b))); try lia;
    [reflexivity|exact E].
  - specialize (M3 Ea). destruct (Nat.compare_spec (length (enc a)) (length (enc b))); try lia;
    [reflexivity|exact E].
Qed.

End W.
