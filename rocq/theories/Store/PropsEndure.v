(** Property C75: how many insertions a store accepts before its flash is worn out. *)
From Coq Require Import Permutation ZArith.
From Verif Require Import Base Facts.
From Verif.Kv Require Import Model Proofs.
From Verif.Store Require Import Format Bits Words Geom Model Wp Entries Layout Scan Steps Ents Window Shapes Compact Room Finish Oper Redo Undo Recover System StoreSpec History PropsFormat PropsStore Endure.
Open Scope nat_scope.
Ltac Zify.zify_post_hook ::= idtac.

(* ------------------------------------------------------------ specification *)

(** A sequence of insertions, all of which succeed. *)
Inductive inserts (F : format) : st -> list (N * bytes) -> st -> Prop :=
| inserts_nil s : inserts F s [] s
| inserts_cons s k v s1 l ops s' : insert F k v s = (Ok tt, s1, l) -> inserts F s1 ops s' ->
    inserts F s ((k, v) :: ops) s'.
(** The content afterwards, and the words written: each entry has one more than its value. *)
Definition inserted (m : kv) (ops : list (N * bytes)) : kv :=
  fold_left (fun m p => kv_insert m (fst p) (snd p)) ops m.
Definition written (ops : list (N * bytes)) : N := fold_right (fun p n => entry_size (snd p) + n)%N 0%N ops.
(** The content uses at most [lim] words before and after each of the insertions. *)
Definition within (lim : N) (m : kv) (ops : list (N * bytes)) : Prop :=
  forall a b, ops = a ++ b -> (kv_used (inserted m a) <= lim)%N.
(** What the store accepts, with an entry of at most [big] words. *)
Definition fine (F : format) (big : N) (p : N * bytes) : Prop :=
  (fst p <= MAX_KEY)%N /\ bytes_ok (snd p) = true /\ length (snd p) <= max_value F /\ (entry_size (snd p) <= big)%N.

Section BOUND.
Variable g : storage.
(** The words of a page that hold entries, the longest entry that a page boundary may cut, and the words
    the store leaves between its oldest and its newest entry. *)
Definition page_words : N := (s_page_size g / 4 - 2)%N.
Definition cut_words : N := ((N.min ((page_words - 1) * 4) 1023 + 3) / 4)%N.
Definition room_words : N := ((s_num_pages g - 1) * (page_words - 1) - cut_words)%N.
Definition log_words : N := ((s_num_pages g - 1) * page_words - cut_words)%N.
Definition erasures : N := (s_max_page_erases g * s_num_pages g)%N.
(** The lifetime is enough to write [n] words after [u] words of it were used: the words of all pages over
    all erasures, in the proportion that the content leaves free, less what the compactions cost. *)
Definition enough (lim big u n : N) : Prop :=
  let x := (room_words + 1 - big)%N in
  let b := (page_words + cut_words)%N in
  ((n + erasures) * (x + b) + (x - lim) * u + (b + lim) * log_words < (x - lim) * (erasures * page_words))%N.
End BOUND.

(* --------------------------------------------------------------------- proof *)

Lemma inserted_cons m k v ops : inserted m ((k, v) :: ops) = inserted (kv_insert m k v) ops.
Proof. reflexivity. Qed.
Lemma within_head lim m ops : within lim m ops -> (kv_used m <= lim)%N.
Proof. intros H. exact (H [] ops eq_refl). Qed.
Lemma within_tail lim m k v ops : within lim m ((k, v) :: ops) -> within lim (kv_insert m k v) ops.
Proof. intros H a b E. rewrite <- inserted_cons. apply (H ((k, v) :: a) b). rewrite E. reflexivity. Qed.

Section PROPS.
Variable g : storage.
Variable F : format.
Hypothesis Hg : has_format g F.
Let G : wff F := format_wff g F Hg.

Lemma format_of : F = mkFormat (N.to_nat (s_page_size g)) (N.to_nat (s_num_pages g)) (N.to_nat (s_max_page_erases g)).
Proof. clear G. unfold has_format, format_new in Hg. destruct (supported g); congruence. Qed.
Lemma words_of : page_words g = N.of_nat (virt_page_size F) /\ cut_words g = N.of_nat (max_prefix F) /\
  room_words g = N.of_nat (virt_size F) /\ log_words g = N.of_nat (window_size F) /\
  erasures g = N.of_nat (max_page_erases F * num_pages F).
Proof.
  assert (E1 : page_words g = N.of_nat (virt_page_size F)).
  { unfold page_words, virt_page_size. rewrite Nat2N.inj_sub, Nat2N.inj_div.
    replace (page_size F) with (N.to_nat (s_page_size g)) by (rewrite format_of; reflexivity).
    rewrite N2Nat.id. reflexivity. }
  assert (E2 : cut_words g = N.of_nat (max_prefix F)).
  { unfold cut_words, max_prefix, to_words, max_value. rewrite Nat2N.inj_div, Nat2N.inj_add, Nat2N.inj_min, Nat2N.inj_mul, Nat2N.inj_sub, N2Nat.id, E1.
    reflexivity. }
  assert (E3 : N.of_nat (num_pages F) = s_num_pages g) by (rewrite format_of; apply N2Nat.id).
  assert (E4 : N.of_nat (max_page_erases F) = s_max_page_erases g) by (rewrite format_of; apply N2Nat.id).
  split; [exact E1|]. split; [exact E2|]. unfold room_words, log_words, erasures, virt_size, window_size.
  rewrite !Nat2N.inj_sub, !Nat2N.inj_mul, !Nat2N.inj_sub, E1, E2, E3, E4. repeat split; reflexivity.
Qed.

Section RUN.
Variable lim big : nat.
Hypothesis HQX : virt_page_size F <= virt_size F + 1 - big.
Hypothesis Hbig : lim + big <= capacity_of F.
Variable base : Z.
Let HbV : big <= virt_size F.
Proof. pose proof (cap_eq F G). lia. Qed.
Let HlX : lim <= virt_size F + 1 - big.
Proof. pose proof (cap_eq F G). lia. Qed.

Lemma run_all : forall ops n s h pre es m,
  on F s h pre es m -> good F lim big base n h pre es ->
  Forall (fine F (N.of_nat big)) ops -> within (N.of_nat lim) m ops ->
  (base + (Z.of_nat (virt_size F + 1 - big) - Z.of_nat lim) * Z.of_nat (max_page_erases F * num_pages F * virt_page_size F)
   > Z.of_nat (virt_size F + 1 - big + (virt_page_size F + max_prefix F)) *
     (Z.of_N (N.of_nat n + written ops) + Z.of_nat (max_page_erases F * num_pages F)))%Z ->
  exists s', inserts F s ops s' /\ shows_running F s' (inserted m ops).
Proof.
  induction ops as [|[k v] ops IH]; intros n s h pre es m O Hgd Hf Hw Hb.
  - exists s. split; [constructor|]. apply (on_shows F G). exists h, pre, es. exact O.
  - destruct (Forall_inv Hf) as (F1 & F2 & F3 & F4). pose proof (Forall_inv_tail Hf) as Hf'. cbn [fst snd] in F1, F2, F3, F4.
    pose proof (within_head _ _ _ Hw) as Hu. rewrite <- (on_used F G _ _ _ _ _ O) in Hu.
    assert (Hl : live_len es <= lim) by lia. rewrite <- to_words_of in F4.
    assert (Hz : 1 + to_words (length v) <= big) by lia.
    assert (Wn : written ((k, v) :: ops) = (N.of_nat (1 + to_words (length v)) + written ops)%N)
      by (rewrite to_words_of; reflexivity).
    rewrite Wn in Hb.
    destruct (insert F k v s) as [[r s1] lg] eqn:E.
    assert (K : r = Ok tt /\ exists h' pre' es', on F s1 h' pre' es' (kv_insert m k v) /\
      good F lim big base (n + (1 + to_words (length v))) h' pre' es').
    { refine (proj1 (wp_out F (fun _ => True) (insert F k v) s (fun r s1 => r = Ok tt /\ exists h' pre' es', on F s1 h' pre' es' (kv_insert m k v) /\
        good F lim big base (n + (1 + to_words (length v))) h' pre' es') r s1 lg _ E)).
      eapply (track_insert F G lim big HQX HbV HlX base n s h pre es m k v); try eassumption.
      - intros h' pre' es' Eh Hgd' s'. exfalso.
        pose proof (good_end F lim big HlX base n h' pre' es' Eh Hgd') as X.
        assert (Y : (Z.of_nat (virt_size F + 1 - big + (virt_page_size F + max_prefix F)) * Z.of_nat (n + max_page_erases F * num_pages F) <=
          Z.of_nat (virt_size F + 1 - big + (virt_page_size F + max_prefix F)) *
          (Z.of_N (N.of_nat n + (N.of_nat (1 + to_words (length v)) + written ops)) + Z.of_nat (max_page_erases F * num_pages F)))%Z).
        { apply Z.mul_le_mono_nonneg_l; [apply Nat2Z.is_nonneg|]. set (e := max_page_erases F * num_pages F). clearbody e.
          set (w := written ops). clearbody w. set (t := to_words (length v)). clearbody t. clear. lia. }
        apply Z.gt_lt in Hb. apply (Z.lt_irrefl (Z.of_nat (virt_size F + 1 - big + (virt_page_size F + max_prefix F)) *
          (Z.of_N (N.of_nat n + (N.of_nat (1 + to_words (length v)) + written ops)) + Z.of_nat (max_page_erases F * num_pages F)))%Z).
        eapply Z.lt_le_trans; [exact Hb|]. eapply Z.le_trans; [exact X|exact Y].
      - intros s' h' pre' es' O' Hgd'. split; [reflexivity|]. exists h', pre', es'. auto. }
    destruct K as (-> & h' & pre' & es' & O' & Hgd').
    destruct (IH _ s1 h' pre' es' (kv_insert m k v) O' Hgd' Hf' (within_tail _ _ _ _ _ Hw)) as (s' & X1 & X2).
    { replace (N.of_nat (n + (1 + to_words (length v))) + written ops)%N
        with (N.of_nat n + (N.of_nat (1 + to_words (length v)) + written ops))%N by (rewrite Nat2N.inj_add; lia). exact Hb. }
    exists s'. split; [econstructor; eassumption|]. rewrite inserted_cons. exact X2.
Qed.
End RUN.

(** C75. From any store a device can be in, a sequence of insertions that never fills the store above
    [lim] words, and whose entries have at most [big] words, succeeds as long as the lifetime it
    still has is enough for the words they write; and the content is then that of the map. *)
Theorem C75_endurance s m u total l lim big ops :
  reachable F (Running s) -> shows_running F s m -> lifetime F s = (Ok (u, total), s, l) ->
  Forall (fine F big) ops -> within lim m ops ->
  (lim + big <= N.of_nat (capacity_of F))%N -> (page_words g + big <= room_words g + 1)%N ->
  enough g lim big (N.of_nat u) (written ops) ->
  exists s', inserts F s ops s' /\ shows_running F s' (inserted m ops).
Proof.
  intros Hr Hs Ht Hf Hw Hc Hq He. destruct (running_on g F Hg _ _ Hr Hs) as (h & pre & es & O).
  destruct (lifetime_on F G _ _ _ _ _ O) as (lg & E & _). rewrite Ht in E. injection E as -> _ _.
  destruct words_of as (W1 & W2 & W3 & W4 & W5). unfold enough in He. rewrite W1, W2, W3, W4, W5 in He. rewrite W1, W3 in Hq.
  rewrite <- (N2Nat.id lim) in *. rewrite <- (N2Nat.id big) in *.
  set (li := N.to_nat lim) in *. set (bi := N.to_nat big) in *. clearbody li bi. clear lim big.
  assert (HQX : virt_page_size F <= virt_size F + 1 - bi) by lia.
  assert (HC : li + bi <= capacity_of F) by lia. pose proof (cap_eq F G) as (CE & _).
  pose proof (within_head _ _ _ Hw) as Hu. rewrite <- (on_used F G _ _ _ _ _ O) in Hu.
  pose proof O as ((_ & _ & (Hi & _) & _) & _). pose proof (iw_win F G _ _ _ Hi) as Hwin.
  eapply (run_all li bi HQX HC _ ops 0 s h pre es m O); [|exact Hf|exact Hw|].
  { apply good_start; [exact HQX|lia|lia|exact Hwin|lia]. }
  unfold base_of. set (u := h * virt_page_size F + pre + plen es) in *. clearbody u.
  clear - He HQX HC CE.
  set (x := virt_size F + 1 - bi) in *.
  replace (N.of_nat (virt_size F) + 1 - N.of_nat bi)%N with (N.of_nat x) in He by (unfold x; lia).
  assert (Hx : li <= x) by (unfold x; lia). clearbody x.
  set (b := virt_page_size F + max_prefix F) in *.
  replace (N.of_nat (virt_page_size F) + N.of_nat (max_prefix F))%N with (N.of_nat b) in He by (unfold b; lia). clearbody b.
  set (e := max_page_erases F * num_pages F) in *. clearbody e. set (q := virt_page_size F) in *. clearbody q.
  set (w := window_size F) in *. clearbody w. set (n := written ops) in *. clearbody n. clear - He Hx.
  apply N2Z.inj_lt in He. 
  assert (Hs : Z.of_N (N.of_nat x - N.of_nat li) = (Z.of_nat x - Z.of_nat li)%Z) by lia.
  repeat rewrite ?N2Z.inj_add, ?N2Z.inj_mul in He. rewrite !Hs in He.
  rewrite !nat_N_Z in He. rewrite !Nat2Z.inj_add, !Nat2Z.inj_mul, N.add_0_l.
  apply Z.lt_gt, Z.lt_0_sub. apply Z.lt_0_sub in He.
  match type of He with (0 < ?p)%Z => match goal with |- (0 < ?q)%Z => replace q with p by ring end end. exact He.
Qed.

(** The signature counter: one entry of four bytes under the same key, over and over. *)
Theorem C75_counter s m u total l lim key values :
  reachable F (Running s) -> shows_running F s m -> lifetime F s = (Ok (u, total), s, l) ->
  (key <= MAX_KEY)%N -> Forall (fun v => length v = 4 /\ bytes_ok v = true) values ->
  (kv_used m <= lim)%N -> (kv_used (kv_remove m key) + 2 <= lim)%N ->
  (lim + 2 <= N.of_nat (capacity_of F))%N -> (page_words g + 2 <= room_words g + 1)%N ->
  enough g lim 2 (N.of_nat u) (2 * N.of_nat (length values)) ->
  exists s', inserts F s (map (pair key) values) s' /\ shows_running F s' (inserted m (map (pair key) values)).
Proof.
  intros Hr Hs Ht Hk Hv Hu1 Hu2 Hc Hq He.
  assert (Sz : forall v : bytes, length v = 4 -> entry_size v = 2%N)
    by (intros v E; rewrite <- to_words_of, E; reflexivity).
  eapply (C75_endurance s m u total l lim 2 (map (pair key) values)); try eassumption.
  - apply Forall_map. eapply Forall_impl; [|exact Hv]. intros v (E & B). split; [exact Hk|]. split; [exact B|]. cbn [snd]. rewrite E.
    split; [|rewrite (Sz v E); reflexivity]. pose proof (g_Q F G). unfold max_value.
    apply Nat.min_glb; [lia|]. apply Nat.leb_le. reflexivity.
  - intros a b E.
    assert (X : forall a m, (kv_used m <= lim)%N -> (kv_used (kv_remove m key) + 2 <= lim)%N ->
      Forall (fun p => fst p = key /\ length (snd p) = 4) a -> (kv_used (inserted m a) <= lim)%N).
    { clear - Sz. induction a as [|[k v] a IH]; intros m H1 H2 H3; [exact H1|]. destruct (Forall_inv H3) as (E' & E).
      pose proof (Forall_inv_tail H3) as H4. cbn [fst snd] in E', E. subst k. rewrite inserted_cons. apply IH; [| |exact H4].
      - unfold kv_insert. rewrite used_app. cbn [kv_used fold_right snd]. rewrite (Sz v E). lia.
      - replace (kv_remove (kv_insert m key v) key) with (kv_remove m key); [exact H2|].
        unfold kv_insert, kv_remove. rewrite filter_app. cbn [filter fst]. rewrite N.eqb_refl. cbn [negb]. rewrite app_nil_r.
        clear. induction m as [|[k0 v0] m IHm]; [reflexivity|]. cbn [filter fst].
        destruct (key =? k0)%N eqn:E0; destruct (k0 =? key)%N eqn:E1; cbn [negb filter fst]; rewrite ?E0, ?E1; cbn [negb];
          try exact IHm; f_equal; exact IHm. }
    apply X; try assumption. assert (Fa : Forall (fun p : N * bytes => fst p = key /\ length (snd p) = 4) (a ++ b)).
    { rewrite <- E. apply Forall_map. eapply Forall_impl; [|exact Hv]. intros v (E1 & _). split; [reflexivity|exact E1]. }
    apply Forall_app in Fa. apply Fa.
  - replace (written (map (pair key) values)) with (2 * N.of_nat (length values))%N; [exact He|].
    clear - Hv Sz. induction Hv as [|v vs (E & _) _ IH]; [reflexivity|]. cbn [map written fold_right snd length]. unfold written in IH.
    rewrite <- IH, (Sz v E). lia.
Qed.
End PROPS.

(** The storage of customization.rs 243-253: 20 pages of 4096 bytes, erased at most 10000 times. *)
Definition board : storage := mkStorage 4 4096 20 2 10000.
(** As long as the rest of the content stays within 75000 bytes (150 credentials of 500 bytes), and at
    most a million words of the lifetime were used before, the counter can be stored 500 times per day
    for ten years. *)
Theorem C75_ten_years F s m u total l key values :
  has_format board F -> reachable F (Running s) -> shows_running F s m ->
  lifetime F s = (Ok (u, total), s, l) -> (N.of_nat u <= 1000000)%N ->
  (key <= MAX_KEY)%N -> Forall (fun v => length v = 4 /\ bytes_ok v = true) values ->
  (N.of_nat (length values) <= 500 * 365 * 10)%N ->
  (kv_used m <= 75000 / 4 + 2)%N -> (kv_used (kv_remove m key) <= 75000 / 4)%N ->
  exists s', inserts F s (map (pair key) values) s' /\ shows_running F s' (inserted m (map (pair key) values)).
Proof.
  intros Hg Hr Hs Ht Hu Hk Hv Hn H1 H2.
  assert (W : page_words board = 1022%N /\ cut_words board = 256%N /\ room_words board = 19143%N /\
    log_words board = 19162%N /\ erasures board = 200000%N) by (vm_compute; repeat split).
  destruct W as (W1 & W2 & W3 & W4 & W5).
  assert (D : (75000 / 4 = 18750)%N) by (vm_compute; reflexivity). rewrite D in *.
  eapply (C75_counter board F Hg s m u total l 18752 key values); try eassumption; try lia.
  - destruct (words_of board F Hg) as (_ & _ & E & _ & _). rewrite W3 in E.
    assert (En : N.of_nat (num_pages F) = 20%N) by (rewrite (format_of board F Hg); reflexivity).
    pose proof (cap_eq F (format_wff board F Hg)). lia.
  - unfold enough. rewrite W1, W2, W3, W4, W5. set (n := N.of_nat (length values)) in *. clearbody n.
    set (uu := N.of_nat u) in *. clearbody uu. clear - Hu Hn. cbv zeta. lia.
Qed.

(** A new device with eight small pages: 3000 insertions of the counter are fine. *)
Definition small : storage := mkStorage 4 64 8 2 100.
Definition small_format : format := mkFormat 64 8 100.
Definition small_booted : st := snd (fst (boot small_format blank_flash)).
Example C75_nonvacuous : exists u total l,
  has_format small small_format /\ reachable small_format (Running small_booted) /\
  shows_running small_format small_booted [] /\
  lifetime small_format small_booted = (Ok (u, total), small_booted, l) /\
  (10 + 2 <= N.of_nat (capacity_of small_format))%N /\ (page_words small + 2 <= room_words small + 1)%N /\
  enough small 10 2 (N.of_nat u) (2 * 3000).
Proof.
  assert (Hf : has_format small small_format) by (vm_compute; reflexivity).
  assert (E : boot small_format blank_flash = (Ok tt, small_booted, snd (boot small_format blank_flash)))
    by (assert (Eb : fst (fst (boot small_format blank_flash)) = Ok tt) by (vm_compute; reflexivity);
        unfold small_booted; destruct (boot small_format blank_flash) as [[r0 s0] l0]; cbn [fst snd] in *; rewrite Eb; reflexivity).
  assert (El : match fst (fst (lifetime small_format small_booted)) with Ok (u, _) => u | Err _ => 1 end = 0)
    by (vm_compute; reflexivity).
  assert (Hs : shows_running small_format small_booted []).
  { refine (proj1 (proj2 (C16_start small small_format Hf _ _ _ _ _ _ _ E))).
    - left. reflexivity.
    - apply (holds_shows small_format (format_wff _ _ Hf) (Off blank_flash)), blank_holds. }
  assert (Hr : reachable small_format (Running small_booted)).
  { right. exists [], (Booted (Ok tt)). econstructor; [eapply step_boot, E|constructor]. }
  destruct (running_on small small_format Hf _ _ Hr Hs) as (h & pre & es & O).
  destruct (lifetime_on small_format (format_wff _ _ Hf) _ _ _ _ _ O) as (lg & Ev & _).
  eexists. eexists. exists lg. split; [exact Hf|]. split; [exact Hr|]. split; [exact Hs|]. split; [exact Ev|].
  rewrite Ev in El. cbn [fst] in El. rewrite El.
  repeat split; vm_compute; try reflexivity; discriminate.
Qed.

Print Assumptions C75_endurance.
Print Assumptions C75_counter.
Print Assumptions C75_ten_years.
