From Verif Require Import Base Facts.
From Verif.Clock Require Import Model Spec.

Definition P24 : N := 16777216.
Definition ts_val (t : timestamp) : N := (epoch t * P24 + tick t)%N.
Definition ts_ok (t : timestamp) : Prop := (tick t < P24)%N.

Lemma hw_ok T : (hw_counter T < P24)%N.
Proof. unfold hw_counter. change (2 ^ 24)%N with P24. apply N.mod_lt. unfold P24. lia. Qed.

(** The clock, seen as a number, advances by exactly the real ticks. *)
Lemma tickle_val now T T' : ts_ok now -> tick now = hw_counter T ->
  (T <= T' < T + 2 ^ 24)%N ->
  ts_val (tickle now T') = (ts_val now + (T' - T))%N /\
  ts_ok (tickle now T') /\ tick (tickle now T') = hw_counter T'.
Proof.
  unfold ts_ok, ts_val, tickle, hw_counter. change (2 ^ 24)%N with P24. unfold P24. cbn [epoch tick].
  intros H1 H2 H3. split; [|split; [lia|reflexivity]].
  destruct (N.ltb_spec (T' mod 16777216) (tick now)); lia.
Qed.

Lemma clock_val Ts : forall now T, ts_ok now -> tick now = hw_counter T -> regular T Ts ->
  let c := clock_after now Ts in
  ts_val c = (ts_val now + (last Ts T - T))%N /\ ts_ok c /\ tick c = hw_counter (last Ts T) /\
  (T <= last Ts T)%N.
Proof.
  induction Ts as [|T1 Ts IH]; intros now T H1 H2 H3; cbn [clock_after fold_left].
  - cbn [last]. rewrite N.sub_diag, N.add_0_r. repeat split; auto. lia.
  - destruct H3 as [H3 H4].
    destruct (tickle_val now T T1 H1 H2 H3) as (A & B & C).
    destruct (IH (tickle now T1) T1 B C H4) as (D & E & F & G). unfold clock_after in *.
    assert (L : last (T1 :: Ts) T = last Ts T1).
    { clear. revert T1. induction Ts as [|a Ts IH]; intros; [reflexivity|].
      change (last (T1 :: a :: Ts) T) with (last (a :: Ts) T). rewrite (IH a).
      change (last (a :: Ts) T1) with (match Ts with [] => a | _ => last Ts T1 end).
      destruct Ts; [reflexivity|]. clear. revert n. induction Ts as [|b Ts IH]; intros; [reflexivity|].
      exact (IH b). }
    rewrite L. repeat split; auto; [|lia]. rewrite D, A. lia.
Qed.

Lemma shiftr24 s : N.shiftr s 24 = (s / P24)%N.
Proof. rewrite N.shiftr_div_pow2. reflexivity. Qed.
Lemma land24 s : N.land s 0xffffff = (s mod P24)%N.
Proof. change 0xffffff%N with (N.ones 24). rewrite N.land_ones. reflexivity. Qed.

Lemma add_ticks_val t d : ts_ok t ->
  ts_ok (add_ticks t d) /\
  ts_val (add_ticks t d) = (epoch t * P24 + sat_add (tick t) d)%N.
Proof.
  intro H. unfold ts_ok, ts_val, add_ticks. cbn [epoch tick]. rewrite shiftr24, land24.
  set (s := sat_add (tick t) d). split; [apply N.mod_lt; unfold P24; lia|].
  pose proof (N.div_mod s P24 ltac:(unfold P24; lia)). lia.
Qed.

Lemma ts_geb_val a b : ts_ok a -> ts_ok b -> ts_geb a b = (ts_val b <=? ts_val a)%N.
Proof.
  unfold ts_ok, ts_geb, ts_val, P24. intros H1 H2.
  destruct (N.ltb_spec (epoch b) (epoch a)); destruct (N.eqb_spec (epoch a) (epoch b));
  destruct (N.leb_spec (tick b) (tick a)); cbn [orb andb];
  destruct (N.leb_spec (epoch b * 16777216 + tick b) (epoch a * 16777216 + tick a)); try reflexivity; lia.
Qed.

Lemma delta_le freq ms : (delta_tick freq ms <= ms * freq / 1000)%N.
Proof.
  unfold delta_tick, sat_mul. destruct (N.leb_spec (ms * freq) U32_MAX); [lia|].
  etransitivity; [apply N.le_min_l|].
  apply N.div_le_lower_bound; [lia|].
  pose proof (N.mul_div_le ms 100 ltac:(lia)) as Ha. pose proof (N.mul_div_le freq 10 ltac:(lia)) as Hb.
  set (a := (ms / 100)%N) in *. set (b := (freq / 10)%N) in *. clearbody a b.
  replace (1000 * (a * b))%N with ((100 * a) * (10 * b))%N by lia.
  apply N.mul_le_mono; assumption.
Qed.

Lemma first_call T : tickle ts_default T = mkTs 0 (hw_counter T).
Proof. unfold tickle, ts_default. cbn [tick epoch]. destruct (N.ltb_spec (hw_counter T) 0); [lia|reflexivity]. Qed.

(** After at least one call the clock is in step with the hardware counter. *)
Lemma clock_synced T0 Ts : regular T0 Ts ->
  let c := clock_after ts_default (T0 :: Ts) in
  ts_ok c /\ tick c = hw_counter (last Ts T0).
Proof.
  intro H. cbn [clock_after fold_left]. rewrite first_call.
  pose proof (clock_val Ts (mkTs 0 (hw_counter T0)) T0 (hw_ok T0) eq_refl H) as (A & B & C & D).
  split; assumption.
Qed.

Lemma regular_app Ts : forall T0 Us, regular T0 (Ts ++ Us) <-> regular T0 Ts /\ regular (last Ts T0) Us.
Proof.
  induction Ts as [|T Ts IH]; intros T0 Us; cbn [app regular].
  - cbn [last]. tauto.
  - rewrite IH.
    assert (L : last (T :: Ts) T0 = last Ts T).
    { clear. revert T T0. induction Ts as [|a Ts IH]; intros; [reflexivity|].
      change (last (T :: a :: Ts) T0) with (last (a :: Ts) T0). rewrite (IH a T0). symmetry. apply IH. }
    rewrite L. tauto.
Qed.

Lemma timer_query_core freq c T0 T ms between T' :
  ts_ok c -> tick c = hw_counter T0 ->
  regular T0 (T :: between ++ [T']) ->
  (let (c1, d) := make_timer freq c T ms in
   snd (is_elapsed (clock_after c1 between) T' d)) =
  (T + N.min (delta_tick freq ms) (U32_MAX - hw_counter T) <=? T')%N.
Proof.
  intros Hok Ht [H1 H2]. apply regular_app in H2 as [H2 [H3 _]].
  destruct (tickle_val c T0 T Hok Ht H1) as (A & B & C).
  unfold make_timer. cbn [fst snd].
  destruct (clock_val between (tickle c T) T B C H2) as (D & E & F & G).
  set (c2 := clock_after (tickle c T) between) in *.
  destruct (tickle_val c2 (last between T) T' E F H3) as (I & J & K).
  unfold is_elapsed. cbn [snd].
  destruct (add_ticks_val (tickle c T) (delta_tick freq ms) B) as [L M].
  rewrite ts_geb_val by assumption. rewrite I, D, M.
  unfold ts_val. rewrite C. unfold sat_add.
  pose proof (hw_ok T) as Hh. unfold P24, U32_MAX in *.
  set (e := (epoch (tickle c T) * 16777216)%N). set (h := hw_counter T) in *.
  set (dl := delta_tick freq ms). set (lb := last between T) in *. clearbody e h dl lb. clear - G H3 Hh.
  change (2 ^ 24)%N with 16777216%N in H3.
  destruct (N.leb_spec (T + N.min dl (4294967295 - h)) T');
  match goal with |- (?a <=? ?b)%N = _ => destruct (N.leb_spec a b) end; try reflexivity; lia.
Qed.

Lemma last_cons {A} (Ts : list A) T T0 : last (T :: Ts) T0 = last Ts T.
Proof.
  revert T T0. induction Ts as [|a Ts IH]; intros; [reflexivity|].
  change (last (T :: a :: Ts) T0) with (last (a :: Ts) T0). rewrite (IH a T0). symmetry. apply IH.
Qed.

Lemma timer_query_exact freq before T ms between T' :
  (forall T0, regular T0 [] -> match before with
     | [] => regular T (between ++ [T'])
     | b :: bs => regular b (bs ++ T :: between ++ [T'])
     end) ->
  timer_query freq before T ms between T' =
  (T + N.min (delta_tick freq ms) (U32_MAX - hw_counter T) <=? T')%N.
Proof.
  intro H. specialize (H 0%N I). unfold timer_query.
  destruct before as [|b bs].
  - cbn [clock_after fold_left].
    assert (E : make_timer freq ts_default T ms = make_timer freq (mkTs 0 (hw_counter T)) T ms).
    { unfold make_timer. rewrite first_call. f_equal; unfold tickle; cbn [tick epoch];
      destruct (N.ltb_spec (hw_counter T) (hw_counter T)); try lia; reflexivity. }
    rewrite E. apply (timer_query_core freq (mkTs 0 (hw_counter T)) T T ms between T' (hw_ok T) eq_refl).
    split; [change (2^24)%N with 16777216%N; lia|exact H].
  - pose proof (proj1 (regular_app bs b _) H) as [H1 H2].
    destruct (clock_synced b bs H1) as [A B].
    apply (timer_query_core freq _ (last bs b)); assumption.
Qed.
