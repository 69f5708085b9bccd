From Verif Require Import Base Facts Cbor.Model Cbor.Spec.

(** Induction principle for values with hypotheses for all components. *)
Section ValueInd.
  Variable P : value -> Prop.
  Hypothesis HU : forall n, P (VUnsigned n).
  Hypothesis HN : forall z, P (VNegative z).
  Hypothesis HB : forall b, P (VBytes b).
  Hypothesis HT : forall t, P (VText t).
  Hypothesis HA : forall a, Forall P a -> P (VArray a).
  Hypothesis HM : forall m, Forall (fun p => P (fst p) /\ P (snd p)) m -> P (VMap m).
  Hypothesis HG : forall t w, P w -> P (VTag t w).
  Hypothesis HS : forall s, P (VSimple s).
  Fixpoint value_ind' (v : value) : P v :=
    match v with
    | VUnsigned n => HU n
    | VNegative z => HN z
    | VBytes b => HB b
    | VText t => HT t
    | VArray a =>
        HA a ((fix go (l : list value) : Forall P l :=
          match l with
          | [] => Forall_nil _
          | e :: r => Forall_cons e (value_ind' e) (go r)
          end) a)
    | VMap m =>
        HM m ((fix go (l : list (value * value)) : Forall (fun p => P (fst p) /\ P (snd p)) l :=
          match l with
          | [] => Forall_nil _
          | (k, w) :: r =>
              Forall_cons (k, w) (conj (value_ind' k) (value_ind' w)) (go r)
          end) m)
    | VTag t w => HG t w (value_ind' w)
    | VSimple s => HS s
    end.
End ValueInd.

(* ------------------------------------------------------------------ heads *)

Lemma lor_shift5 label x : (x < 32)%N -> N.lor x (N.shiftl label 5) = (label * 32 + x)%N.
Proof.
  intros Hx. rewrite N.lor_comm.
  rewrite N.shiftl_mul_pow2. change (2 ^ 5)%N with 32%N.
  assert (Hd : N.land (label * 32) x = 0%N).
  { apply N.bits_inj. intros i. rewrite N.land_spec, N.bits_0.
    destruct (N.ltb_spec i 5) as [Hi|Hi].
    - replace (label * 32)%N with (N.shiftl label 5) by (rewrite N.shiftl_mul_pow2; reflexivity).
      rewrite N.shiftl_spec_low by assumption. reflexivity.
    - replace (N.testbit x i) with false; [apply andb_false_r|].
      symmetry. destruct (N.eq_dec x 0) as [->|Hne]; [apply N.bits_0|].
      apply N.bits_above_log2. 
      assert (N.log2 x < 5)%N; [|lia].
      apply N.log2_lt_pow2; [lia|]. exact Hx. }
  rewrite <- N.lxor_lor by exact Hd. rewrite <- N.add_nocarry_lxor by exact Hd. reflexivity.
Qed.

Lemma start_item_head label n : (n < 2 ^ 64)%N -> start_item label n = head label n.
Proof.
  intros Hn. unfold start_item, head.
  destruct (N.leb_spec n 23); destruct (N.ltb_spec n 24); try lia.
  { cbn [be_bytes]. rewrite lor_shift5 by lia. reflexivity. }
  destruct (N.leb_spec n 0xFF); destruct (N.ltb_spec n (2 ^ 8)); try lia.
  { rewrite lor_shift5 by lia. reflexivity. }
  destruct (N.leb_spec n 0xFFFF); destruct (N.ltb_spec n (2 ^ 16)); try lia.
  { rewrite lor_shift5 by lia. reflexivity. }
  destruct (N.leb_spec n 0xFFFFFFFF); destruct (N.ltb_spec n (2 ^ 32)); try lia;
    rewrite lor_shift5 by lia; reflexivity.
Qed.

(** The two fields of the initial byte. *)
Lemma shiftr5 b : N.shiftr b 5 = (b / 32)%N.
Proof. rewrite N.shiftr_div_pow2. reflexivity. Qed.
Lemma land31 b : N.land b 0x1F = (b mod 32)%N.
Proof. change 0x1F%N with (N.ones 5). rewrite N.land_ones. reflexivity. Qed.

Lemma read_bytes_app k a b : length a = N.to_nat k -> read_bytes k (a ++ b) = Some (a, b).
Proof.
  intros H. unfold read_bytes.
  replace (Nlen (a ++ b) <? k)%N with false.
  - rewrite firstn_app, skipn_app, <- H, Nat.sub_diag, firstn_all, skipn_all.
    cbn. rewrite app_nil_r. reflexivity.
  - symmetry. apply N.ltb_ge. rewrite Nlen_app. unfold Nlen. lia.
Qed.

Lemma read_bytes_inv k l a b :
  read_bytes k l = Some (a, b) -> l = a ++ b /\ length a = N.to_nat k.
Proof.
  unfold read_bytes. destruct (N.ltb_spec (Nlen l) k) as [?|H]; [discriminate|].
  intros E. injection E as <- <-. rewrite firstn_skipn. split; [reflexivity|].
  apply firstn_length_le. unfold Nlen in H. lia.
Qed.

(** Reading the argument: exactly the shortest forms are accepted. *)
Definition arg_info (n : N) : N :=
  if (n <? 24)%N then n else if (n <? 2 ^ 8)%N then 24%N
  else if (n <? 2 ^ 16)%N then 25%N else if (n <? 2 ^ 32)%N then 26%N else 27%N.
Definition arg_bytes (n : N) : bytes :=
  if (n <? 24)%N then [] else if (n <? 2 ^ 8)%N then be_bytes 1 n
  else if (n <? 2 ^ 16)%N then be_bytes 2 n else if (n <? 2 ^ 32)%N then be_bytes 4 n
  else be_bytes 8 n.

Lemma head_arg major n : head major n = (major * 32 + arg_info n)%N :: arg_bytes n.
Proof.
  unfold head, arg_info, arg_bytes.
  destruct (n <? 24)%N; [reflexivity|].
  destruct (n <? 2 ^ 8)%N; [reflexivity|].
  destruct (n <? 2 ^ 16)%N; [reflexivity|].
  destruct (n <? 2 ^ 32)%N; reflexivity.
Qed.

Lemma arg_info_lt n : (arg_info n < 28)%N.
Proof.
  unfold arg_info.
  destruct (N.ltb_spec n 24); [lia|].
  destruct (n <? 2 ^ 8)%N; [lia|].
  destruct (n <? 2 ^ 16)%N; [lia|].
  destruct (n <? 2 ^ 32)%N; lia.
Qed.

Lemma read_variadic_complete n r :
  (n < 2 ^ 64)%N -> read_variadic (arg_info n) (arg_bytes n ++ r) = Ok (n, r).
Proof.
  intros Hn. unfold read_variadic, arg_info, arg_bytes.
  destruct (N.ltb_spec n 24) as [H|H].
  { destruct (N.leb_spec n 23); [reflexivity|lia]. }
  destruct (N.ltb_spec n (2 ^ 8)) as [H1|H1].
  { cbn [N.leb N.eqb]. 
    change (24 <=? 23)%N with false. change (24 =? 24)%N with true. cbn iota.
    rewrite read_bytes_app by (rewrite be_bytes_length; reflexivity).
    unfold read_be. rewrite of_be_be_bytes, N.mod_small by exact H1.
    destruct (N.ltb_spec n 24); [lia|].
    change (N.shiftl 1 (8 * N.shiftr 1 1)) with 1%N.
    destruct (N.ltb_spec n 1); [lia|]. reflexivity. }
  destruct (N.ltb_spec n (2 ^ 16)) as [H2|H2].
  { change (25 <=? 23)%N with false. change (25 =? 24)%N with false.
    change (25 =? 25)%N with true. cbn iota.
    rewrite read_bytes_app by (rewrite be_bytes_length; reflexivity).
    unfold read_be. rewrite of_be_be_bytes, N.mod_small by exact H2.
    change (2 =? 1)%N with false.
    change (N.shiftl 1 (8 * N.shiftr 2 1)) with 256%N.
    destruct (N.ltb_spec n 256); [lia|]. reflexivity. }
  destruct (N.ltb_spec n (2 ^ 32)) as [H3|H3].
  { change (26 <=? 23)%N with false. change (26 =? 24)%N with false.
    change (26 =? 25)%N with false. change (26 =? 26)%N with true. cbn iota.
    rewrite read_bytes_app by (rewrite be_bytes_length; reflexivity).
    unfold read_be. rewrite of_be_be_bytes, N.mod_small by exact H3.
    change (4 =? 1)%N with false.
    change (N.shiftl 1 (8 * N.shiftr 4 1)) with (2 ^ 16)%N.
    destruct (N.ltb_spec n (2 ^ 16)); [lia|]. reflexivity. }
  change (27 <=? 23)%N with false. change (27 =? 24)%N with false.
  change (27 =? 25)%N with false. change (27 =? 26)%N with false. 
  change (27 =? 27)%N with true. cbn iota.
  rewrite read_bytes_app by (rewrite be_bytes_length; reflexivity).
  unfold read_be. rewrite of_be_be_bytes, N.mod_small by exact Hn.
  change (8 =? 1)%N with false.
  change (N.shiftl 1 (8 * N.shiftr 8 1)) with (2 ^ 32)%N.
  destruct (N.ltb_spec n (2 ^ 32)); [lia|]. reflexivity.
Qed.

Lemma arg_case n k :
  (match k with
   | 1%nat => 24 <= n < 2 ^ 8 | 2%nat => 2 ^ 8 <= n < 2 ^ 16
   | 4%nat => 2 ^ 16 <= n < 2 ^ 32 | 8%nat => 2 ^ 32 <= n < 2 ^ 64
   | _ => False end)%N ->
  arg_bytes n = be_bytes k n /\
  arg_info n = (match k with 1%nat => 24 | 2%nat => 25 | 4%nat => 26 | _ => 27 end)%N.
Proof.
  unfold arg_bytes, arg_info.
  destruct (N.ltb_spec n 24); destruct (N.ltb_spec n (2 ^ 8));
  destruct (N.ltb_spec n (2 ^ 16)); destruct (N.ltb_spec n (2 ^ 32));
  destruct k as [|[|[|[|[|[|[|[|[|k]]]]]]]]]; intros Hk; try contradiction; try lia;
  split; reflexivity.
Qed.

Lemma read_variadic_sound ai l n r :
  bytes_ok l = true -> read_variadic ai l = Ok (n, r) ->
  (n < 2 ^ 64)%N /\ ai = arg_info n /\ l = arg_bytes n ++ r.
Proof.
  intros Hl. unfold read_variadic.
  assert (G : forall k : N,
    (k = 1 \/ k = 2 \/ k = 4 \/ k = 8)%N ->
    match read_bytes k l with
    | Some (b, r0) =>
        if ((k =? 1) && (read_be b <? 24) || (read_be b <? N.shiftl 1 (8 * N.shiftr k 1)))%N
        then Err DE_NonMinimalCborEncoding
        else Ok (read_be b, r0)
    | None => Err DE_IncompleteCborData
    end = Ok (n, r) ->
    (n < 2 ^ 64)%N /\ arg_info n = (match k with 1 => 24 | 2 => 25 | 4 => 26 | _ => 27 end)%N
    /\ l = arg_bytes n ++ r).
  { intros k Hk E. destruct (read_bytes k l) as [[b r0]|] eqn:Eb; [|discriminate].
    destruct ((k =? 1) && (read_be b <? 24) || (read_be b <? N.shiftl 1 (8 * N.shiftr k 1)))%N eqn:Ec;
      [discriminate|].
    injection E as En Er. subst r0. unfold read_be in *. subst n.
    apply read_bytes_inv in Eb as [-> Hlen].
    rewrite bytes_ok_app in Hl. apply andb_true_iff in Hl as [Hb _].
    pose proof (of_be_bound b Hb) as Hbd.
    apply orb_false_iff in Ec as [Ec1 Ec2].
    apply N.ltb_ge in Ec2.
    assert (Hbb : be_bytes (length b) (of_be b) = b) by (apply be_bytes_of_be; exact Hb).
    destruct Hk as [Hk | [Hk | [Hk | Hk]]]; subst k.
    - change (N.to_nat 1) with 1%nat in Hlen. rewrite Hlen in *.
      change (1 =? 1)%N with true in Ec1. cbn [andb] in Ec1. apply N.ltb_ge in Ec1.
      change (256 ^ N.of_nat 1)%N with (2 ^ 8)%N in Hbd.
      destruct (arg_case (of_be b) 1) as [-> ->]; [lia|]. rewrite Hbb. repeat split. lia.
    - change (N.to_nat 2) with 2%nat in Hlen. rewrite Hlen in *.
      change (N.shiftl 1 (8 * N.shiftr 2 1)) with (2 ^ 8)%N in Ec2.
      change (256 ^ N.of_nat 2)%N with (2 ^ 16)%N in Hbd.
      destruct (arg_case (of_be b) 2) as [-> ->]; [lia|]. rewrite Hbb. repeat split. lia.
    - change (N.to_nat 4) with 4%nat in Hlen. rewrite Hlen in *.
      change (N.shiftl 1 (8 * N.shiftr 4 1)) with (2 ^ 16)%N in Ec2.
      change (256 ^ N.of_nat 4)%N with (2 ^ 32)%N in Hbd.
      destruct (arg_case (of_be b) 4) as [-> ->]; [lia|]. rewrite Hbb. repeat split. lia.
    - change (N.to_nat 8) with 8%nat in Hlen. rewrite Hlen in *.
      change (N.shiftl 1 (8 * N.shiftr 8 1)) with (2 ^ 32)%N in Ec2.
      change (256 ^ N.of_nat 8)%N with (2 ^ 64)%N in Hbd.
      destruct (arg_case (of_be b) 8) as [-> ->]; [lia|]. rewrite Hbb. repeat split. lia. }
  destruct (N.leb_spec ai 23) as [H|H].
  { intros E. injection E as <- <-. unfold arg_info, arg_bytes.
    destruct (N.ltb_spec ai 24); [|lia]. repeat split. lia. }
  destruct (N.eqb_spec ai 24) as [-> | ].
  { intros E. apply (G 1%N) in E; [|tauto]. destruct E as (? & <- & ?). auto. }
  destruct (N.eqb_spec ai 25) as [-> | ].
  { intros E. apply (G 2%N) in E; [|tauto]. destruct E as (? & <- & ?). auto. }
  destruct (N.eqb_spec ai 26) as [-> | ].
  { intros E. apply (G 4%N) in E; [|tauto]. destruct E as (? & <- & ?). auto. }
  destruct (N.eqb_spec ai 27) as [-> | ].
  { intros E. apply (G 8%N) in E; [|tauto]. destruct E as (? & <- & ?). auto. }
  discriminate.
Qed.
