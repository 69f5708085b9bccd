(** The touch: an invariant of the call. *)
From Verif Require Import Base.
From Verif Require Import Touch.Model Touch.Spec.
Local Open Scope nat_scope.

Section Call.
Context (c : config) (s0 : state).

Definition pressed (a : list item) : Prop := exists x n y, pressed_after c s0 a x n y.
Definition quiet (a : list item) : Prop := forall x n y, ~ pressed_after c s0 a x n y.
Definition first_alarm (a : list item) : Prop :=
  exists x y, expires_after c s0 a x y /\ now (fst s0) + ticks c <= now (fst (run c s0 x)) /\ quiet x.
Definition late_alarm (a : list item) : Prop :=
  exists x n y z, a = x ++ Ev (Press n) :: y ++ Ev Expire :: z /\ listens (fst (run c s0 x)) n /\
    due (fst (run c s0 (x ++ Ev (Press n) :: y))).

Lemma run_app a b s : run c s (a ++ b) = run c (run c s a) b. Proof. apply fold_left_app. Qed.
Lemma run_snoc a i s : run c s (a ++ [i]) = step c (run c s a) i. Proof. rewrite run_app. reflexivity. Qed.

Lemma pressed_app a i : pressed a -> pressed (a ++ [i]).
Proof. intros (x & n & y & -> & L). exists x, n, (y ++ [i]). split; [rewrite <- app_assoc; reflexivity|exact L]. Qed.
Lemma first_app a i : first_alarm a -> first_alarm (a ++ [i]).
Proof. intros (x & y & (-> & D) & R). exists x, (y ++ [i]). split; [split; [rewrite <- app_assoc; reflexivity|exact D]|exact R]. Qed.
Lemma late_app a i : late_alarm a -> late_alarm (a ++ [i]).
Proof.
  intros (x & n & y & z & -> & L & D). exists x, n, y, (z ++ [i]). split; [|auto].
  rewrite <- app_assoc. cbn [app]. rewrite <- app_assoc. reflexivity.
Qed.

Lemma snoc_split a (i : item) x j y : a ++ [i] = x ++ j :: y ->
  (x = a /\ i = j /\ y = []) \/ exists y', y = y' ++ [i] /\ a = x ++ j :: y'.
Proof.
  induction y as [|k y' _] using rev_ind.
  - intros H. apply app_inj_tail in H. destruct H as (-> & ->). left. auto.
  - intros H. change (x ++ j :: y' ++ [k]) with (x ++ (j :: y') ++ [k]) in H. rewrite app_assoc in H.
    apply app_inj_tail in H. destruct H as (-> & ->). right. exists y'. auto.
Qed.

Lemma quiet_app a i : quiet a -> (forall n, i = Ev (Press n) -> ~ listens (fst (run c s0 a)) n) -> quiet (a ++ [i]).
Proof.
  intros Q N x n y (E & L). destruct (snoc_split _ _ _ _ _ E) as [(-> & -> & ->)|(y' & -> & ->)].
  - exact (N n eq_refl L).
  - exact (Q x n y' (conj eq_refl L)).
Qed.

Definition touch_in (q : list upcall) : Prop := exists n, In (UButton n true) q.

(** What holds at each place. *)
Definition here (a : list item) (k : kernel) (p : process) : Prop :=
  match place_of p with
  | Count | Enable _ | Register =>
      buttons_sub k = false /\ alarm_sub k = false /\ alarm k = None /\ queue k = [] /\ touched p = false /\ expired p = false /\ quiet a
  | Init | Subscribe =>
      buttons_sub k = true /\ alarm_sub k = false /\ alarm k = None /\ ~ In UAlarm (queue k) /\ touched p = false /\ expired p = false /\
      (~ touch_in (queue k) -> quiet a)
  | SetAlarm =>
      buttons_sub k = true /\ alarm_sub k = true /\ alarm k = None /\ ~ In UAlarm (queue k) /\ touched p = false /\ expired p = false /\
      (~ touch_in (queue k) -> quiet a)
  | Wait =>
      buttons_sub k = true /\ alarm_sub k = true /\
      (touched p = false -> expired p = false -> ~ touch_in (queue k) -> alarm k <> None -> quiet a) /\
      (alarm k <> None -> ~ In UAlarm (queue k) /\ expired p = false) /\
      (alarm k = None -> expired p = false -> In UAlarm (queue k)) /\
      (forall q1 q2, queue k = q1 ++ UAlarm :: q2 -> (expired p = false /\ ~ In UAlarm q2) /\
         (touched p = false -> ~ touch_in q1 -> first_alarm a) /\ (touched p = true \/ touch_in q1 -> late_alarm a)) /\
      (expired p = true -> touched p = false /\ first_alarm a)
  | Unregister | Disable _ | Unsubscribe | Stop =>
      (touched p = true \/ expired p = true) /\ (expired p = true -> alarm k = None /\ touched p = false /\ first_alarm a) /\
      (alarm k = None -> expired p = false -> late_alarm a) /\
      match place_of p with
      | Disable n => n <= buttons c /\ forall m, m < n -> enabled k m = false
      | Unsubscribe | Stop => forall m, m < buttons c -> enabled k m = false
      | _ => True
      end
  | Over Confirmed => pressed a /\ idle k /\ forall m, m < buttons c -> enabled k m = false
  | Over TimedOut => first_alarm a /\ idle k /\ forall m, m < buttons c -> enabled k m = false
  | Over Failed => In (Run false) a /\ buttons_sub k = false /\ alarm_sub k = false /\ queue k = []
  | Over Panicked => In (Run false) a \/ late_alarm a
  end.

Definition inv (a : list item) (k : kernel) (p : process) : Prop :=
  now (fst s0) <= now k /\ (forall t, alarm k = Some t -> now (fst s0) + ticks c <= t) /\
  (touched p = true -> pressed a) /\ (touch_in (queue k) -> pressed a) /\ here a k p.

Lemma touch_snoc q u : touch_in (q ++ [u]) -> touch_in q \/ exists n, u = UButton n true.
Proof. intros (n & H). apply in_app_iff in H. destruct H as [H|[H|[]]]; [left; exists n; exact H|right; exists n; exact H]. Qed.
Lemma touch_in_app q u : touch_in q -> touch_in (q ++ u).
Proof. intros (n & H). exists n. apply in_app_iff. auto. Qed.
Lemma touch_filter q : touch_in (filter is_button q) <-> touch_in q.
Proof. split; intros (n & H); exists n; [apply filter_In in H; tauto|apply filter_In; auto]. Qed.

Lemma nil_cons_mid {A} (u : A) q1 q2 : [] = q1 ++ u :: q2 -> False. Proof. destruct q1; discriminate. Qed.

Lemma snoc_alarm q u q1 q2 : q ++ [u] = q1 ++ UAlarm :: q2 ->
  (u = UAlarm /\ q1 = q /\ q2 = []) \/ exists q2', q2 = q2' ++ [u] /\ q = q1 ++ UAlarm :: q2'.
Proof.
  induction q2 as [|k y' _] using rev_ind.
  - intros H. apply app_inj_tail in H. destruct H as (-> & ->). left. auto.
  - intros H. change (q1 ++ UAlarm :: y' ++ [k]) with (q1 ++ (UAlarm :: y') ++ [k]) in H. rewrite app_assoc in H.
    apply app_inj_tail in H. destruct H as (-> & ->). right. exists y'. auto.
Qed.

(** The history only grows. *)
Lemma here_app a i k p : (quiet a -> quiet (a ++ [i])) -> here a k p -> here (a ++ [i]) k p.
Proof.
  intros N. unfold here. destruct (place_of p) as [|n| | | | | | |n| | |[]].
  1,2,3: intros (A & B & C & D & E & F & G); auto 10.
  1,2,3: intros (A & B & C & D & E & F & G); auto 10.
  - intros (A & B & C & D & E & F & G). repeat split; auto.
    + apply D. auto.
    + apply D. auto.
    + apply (F _ _ H).
    + apply (F _ _ H).
    + intros. apply first_app, (F _ _ H); auto.
    + intros. apply late_app, (F _ _ H); auto.
    + apply G. auto.
    + apply first_app, G. auto.
  - intros (A & B & C & D). repeat split; auto; try (apply B; auto; fail). apply first_app, B; auto. intros. apply late_app, C; auto.
  - intros (A & B & C & D). split; [exact A|]. split; [|split; [intros; apply late_app, C; auto|exact D]].
    intros X. destruct (B X) as (? & ? & ?). auto using first_app.
  - intros (A & B & C & D). split; [exact A|]. split; [|split; [intros; apply late_app, C; auto|exact D]].
    intros X. destruct (B X) as (? & ? & ?). auto using first_app.
  - intros (A & B & C & D). split; [exact A|]. split; [|split; [intros; apply late_app, C; auto|exact D]].
    intros X. destruct (B X) as (? & ? & ?). auto using first_app.
  - intros (A & B & C). auto using pressed_app.
  - intros (A & B & C). auto using first_app.
  - intros (A & B & C). split; [apply in_app_iff; auto|auto].
  - intros [A|A]; [left; apply in_app_iff; auto|right; apply late_app, A].
Qed.

Lemma inv_app a i k p : (quiet a -> quiet (a ++ [i])) -> inv a k p -> inv (a ++ [i]) k p.
Proof. intros N (A & B & C & D & E). unfold inv. auto 10 using pressed_app, here_app. Qed.

Lemma inv_button a n (b : bool) k p : run c s0 a = (k, p) -> inv a k p ->
  inv (a ++ [Ev (if b then Press n else Release n)]) (button_event n b k) p.
Proof.
  intros R I. unfold button_event. destruct (buttons_sub k && enabled k n) eqn:L.
  - apply andb_true_iff in L. destruct L as (L & L'). destruct I as (A & B & C & D & E).
    assert (P : b = true -> pressed (a ++ [Ev (if b then Press n else Release n)])).
    { intros ->. exists a, n, []. split; [reflexivity|]. rewrite R. split; assumption. }
    set (i := Ev (if b then Press n else Release n)) in *.
    assert (Q : b = false -> quiet a -> quiet (a ++ [i])) by (intros -> X; apply quiet_app; [exact X|discriminate]).
    assert (T : forall (q : list upcall), ~ touch_in (q ++ [UButton n b]) -> b = false /\ ~ touch_in q).
    { intros q N. split; [destruct b; [destruct N; exists n; apply in_app_iff; cbn; auto|reflexivity]|intros X; apply N, touch_in_app, X]. }
    assert (NA : forall q, ~ In UAlarm q -> ~ In UAlarm (q ++ [UButton n b])).
    { intros q N X. apply in_app_iff in X. destruct X as [X|[X|[]]]; [auto|discriminate]. }
    unfold inv. cbn [now alarm queue set_queue]. split; [exact A|]. split; [exact B|]. split; [intros; apply pressed_app, C; auto|]. split.
    { intros X. apply touch_snoc in X. destruct X as [X|(m & X)]; [apply pressed_app, D, X|injection X as _ ->; apply P; reflexivity]. }
    clear A B C D. unfold here in *. cbn [buttons_sub alarm_sub alarm queue enabled set_queue] in *.
    destruct (place_of p) as [|m| | | | | | |m| | |[]].
    1,2,3: destruct E as (E & _); congruence.
    1,2,3: destruct E as (E1 & E2 & E3 & E4 & E5 & E6 & E7); repeat (split; [auto|]); intros X; destruct (T _ X) as (-> & Y); auto.
    + destruct E as (E1 & E2 & E3 & E4 & E5 & E6 & E7). split; [exact E1|]. split; [exact E2|]. split; [|split; [|split; [|split]]].
      * intros X1 X2 X3 X4. destruct (T _ X3) as (-> & Y). auto.
      * intros X. destruct (E4 X). auto.
      * intros X Y. apply in_app_iff. auto.
      * intros q1 q2 X. apply snoc_alarm in X. destruct X as [(X & _)|(q2' & -> & X)]; [discriminate|].
        destruct (E6 _ _ X) as ((F1 & F0) & F2 & F3). auto 10 using first_app, late_app.
      * intros X. destruct (E7 X). auto using first_app.
    + destruct E as (E1 & E2 & E3 & E4). repeat split; auto; try (apply E2; auto; fail); [apply first_app, E2; auto|intros; apply late_app, E3; auto].
    + destruct E as (E1 & E2 & E3 & E4). split; [auto|]. split; [intros X; destruct (E2 X) as (? & ? & ?); auto using first_app|].
      split; [intros; apply late_app, E3; auto|exact E4].
    + destruct E as (E1 & E2 & E3 & E4). split; [auto|]. split; [intros X; destruct (E2 X) as (? & ? & ?); auto using first_app|].
      split; [intros; apply late_app, E3; auto|exact E4].
    + destruct E as (E1 & E2 & E3 & E4). split; [auto|]. split; [intros X; destruct (E2 X) as (? & ? & ?); auto using first_app|].
      split; [intros; apply late_app, E3; auto|exact E4].
    + destruct E as (_ & (E & _) & _). congruence.
    + destruct E as (_ & (E & _) & _). congruence.
    + destruct E as (_ & E & _). congruence.
    + destruct E as [E|E]; [left; apply in_app_iff; auto|right; apply late_app, E].
  - apply inv_app; [|exact I]. intros Q. apply quiet_app; [exact Q|]. intros m E. destruct b; [|discriminate]. injection E as <-.
    rewrite R. cbn [fst]. intros (X & Y). rewrite X, Y in L. discriminate.
Qed.

Lemma quiet_other a i : (forall n, i <> Ev (Press n)) -> quiet a -> quiet (a ++ [i]).
Proof. intros N Q. apply quiet_app; [exact Q|]. intros n E. destruct (N n E). Qed.

Lemma inv_time a d k p : run c s0 a = (k, p) -> inv a k p -> inv (a ++ [Ev (Time d)]) (happen (Time d) k) p.
Proof.
  intros R I. apply inv_app; [apply quiet_other; discriminate|]. destruct I as (A & B & C & D & E).
  split; [cbn [now happen]; lia|]. split; [exact B|]. split; [exact C|]. split; [exact D|exact E].
Qed.

Lemma inv_expire a k p : run c s0 a = (k, p) -> inv a k p -> inv (a ++ [Ev Expire]) (happen Expire k) p.
Proof.
  intros R I. assert (Q : quiet a -> quiet (a ++ [Ev Expire])) by (apply quiet_other; discriminate).
  pose proof (inv_app a (Ev Expire) k p Q I) as I'. cbn [happen]. destruct (alarm k) as [t|] eqn:AL; [|exact I'].
  destruct (t <=? now k) eqn:LE; [|exact I']. apply Nat.leb_le in LE. destruct I as (A & B & C & D & E). destruct I' as (A' & _ & C' & D' & E').
  specialize (B t AL).
  assert (F : quiet a -> first_alarm (a ++ [Ev Expire])).
  { intros X. exists a, []. split; [split; [reflexivity|]; rewrite R; exists t; auto|]. rewrite R. split; [cbn [fst]; lia|exact X]. }
  assert (G : pressed a -> late_alarm (a ++ [Ev Expire])).
  { intros (x & n & y & H & L). exists x, n, y, []. split; [rewrite H, <- app_assoc; reflexivity|]. split; [exact L|]. rewrite <- H, R. exists t. auto. }
  destruct (alarm_sub k) eqn:AS; (split; [exact A'|]; split; [discriminate|]; split; [exact C'|]; split).
  - intros X. cbn [queue set_queue] in X. apply touch_snoc in X. destruct X as [X|(n & X)]; [apply D', X|discriminate].
  - clear E'. unfold here in *. cbn [buttons_sub alarm_sub alarm queue enabled set_queue no_alarm] in *.
    destruct (place_of p) as [|m| | | | | | |m| | |[]].
    1,2,3,4,5,6: destruct E as (_ & _ & E & _); congruence.
    + destruct E as (E1 & E2 & E3 & E4 & E5 & E6 & E7). assert (AN : alarm k <> None) by congruence. destruct (E4 AN) as (E8 & E9).
      split; [exact E1|]. split; [exact AS|]. split; [congruence|]. split; [congruence|]. split; [intros; apply in_app_iff; cbn; auto|].
      split; [|congruence]. intros q1 q2 X. apply snoc_alarm in X. destruct X as [(_ & -> & ->)|(q2' & -> & X)].
      * split; [auto|]. split; [auto|]. intros [X|X]; auto.
      * destruct E8. rewrite X. apply in_app_iff. cbn. auto.
    + destruct E as (E1 & E2 & E3 & E4). assert (E5 : expired p <> true) by (intros X; destruct (E2 X); congruence).
      split; [exact E1|]. split; [congruence|]. split; [|exact I]. intros _ _. apply G. destruct E1; [auto|congruence].
    + destruct E as (E1 & E2 & E3 & E4). assert (E5 : expired p <> true) by (intros X; destruct (E2 X); congruence).
      split; [exact E1|]. split; [congruence|]. split; [|exact E4]. intros _ _. apply G. destruct E1; [auto|congruence].
    + destruct E as (E1 & E2 & E3 & E4). assert (E5 : expired p <> true) by (intros X; destruct (E2 X); congruence).
      split; [exact E1|]. split; [congruence|]. split; [|exact E4]. intros _ _. apply G. destruct E1; [auto|congruence].
    + destruct E as (E1 & E2 & E3 & E4). assert (E5 : expired p <> true) by (intros X; destruct (E2 X); congruence).
      split; [exact E1|]. split; [congruence|]. split; [|exact E4]. intros _ _. apply G. destruct E1; [auto|congruence].
    + destruct E as (_ & (_ & _ & E & _) & _). congruence.
    + destruct E as (_ & (_ & _ & E & _) & _). congruence.
    + destruct E as (_ & _ & E & _). congruence.
    + destruct E as [E|E]; [left; apply in_app_iff; auto|right; apply late_app, E].
  - exact D'.
  - clear E'. unfold here in *. cbn [buttons_sub alarm_sub alarm queue enabled set_queue no_alarm] in *.
    destruct (place_of p) as [|m| | | | | | |m| | |[]].
    1,2,3,4,5,6: destruct E as (_ & _ & E & _); congruence.
    + destruct E as (_ & E & _). congruence.
    + destruct E as (E1 & E2 & E3 & E4). assert (E5 : expired p <> true) by (intros X; destruct (E2 X); congruence).
      split; [exact E1|]. split; [congruence|]. split; [|exact I]. intros _ _. apply G. destruct E1; [auto|congruence].
    + destruct E as (E1 & E2 & E3 & E4). assert (E5 : expired p <> true) by (intros X; destruct (E2 X); congruence).
      split; [exact E1|]. split; [congruence|]. split; [|exact E4]. intros _ _. apply G. destruct E1; [auto|congruence].
    + destruct E as (E1 & E2 & E3 & E4). assert (E5 : expired p <> true) by (intros X; destruct (E2 X); congruence).
      split; [exact E1|]. split; [congruence|]. split; [|exact E4]. intros _ _. apply G. destruct E1; [auto|congruence].
    + destruct E as (E1 & E2 & E3 & E4). assert (E5 : expired p <> true) by (intros X; destruct (E2 X); congruence).
      split; [exact E1|]. split; [congruence|]. split; [|exact E4]. intros _ _. apply G. destruct E1; [auto|congruence].
    + destruct E as (_ & (_ & _ & E & _) & _). congruence.
    + destruct E as (_ & (_ & _ & E & _) & _). congruence.
    + destruct E as (E0 & E1 & E2 & E3). split; [apply in_app_iff; auto|auto].
    + destruct E as [E|E]; [left; apply in_app_iff; auto|right; apply late_app, E].
Qed.

Lemma both_filters q : filter is_button (filter (fun u => negb (is_button u)) q) = [].
Proof. induction q as [|u q IH]; [reflexivity|]. cbn. destruct (is_button u) eqn:E; cbn; [exact IH|rewrite E; exact IH]. Qed.

Lemma inv_run a ok k p : run c s0 a = (k, p) -> inv a k p ->
  inv (a ++ [Run ok]) (fst (proceed c ok (k, p))) (snd (proceed c ok (k, p))).
Proof.
  intros R I. assert (Q : quiet a -> quiet (a ++ [Run ok])) by (apply quiet_other; discriminate).
  pose proof (inv_app a (Run ok) k p Q I) as I'. clear I Q R. set (a' := a ++ [Run ok]) in *.
  assert (RF : ok = false -> In (Run false) a') by (intros ->; apply in_app_iff; cbn; auto). clearbody a'. clear a.
  destruct p as [l tc ex]. cbn [proceed place_of].
  destruct I' as (A & B & C & D & E). cbn [touched] in C.
  unfold here in E. cbn [place_of touched expired] in E.
  destruct l as [|m| | | | | | |m| | |o]; cbn [place_of touched expired] in *.
  - (* Count *) destruct ok; cbn; (split; [exact A|]; split; [exact B|]; split; [exact C|]; split; [exact D|]); cbn; [exact E|]. split; [auto|tauto].
  - (* Enable *) destruct (m <? buttons c); [destruct ok|]; cbn; (split; [exact A|]; split; [exact B|]; split; [exact C|]; split; [exact D|]); cbn; try exact E.
    split; [auto|tauto].
  - (* Register *) destruct E as (E1 & E2 & E3 & E4 & E5 & E6 & E7).
    destruct ok; cbn; (split; [exact A|]; split; [exact B|]; split; [exact C|]); cbn; rewrite E4; cbn; (split; [intros (n & [])|]); unfold here; cbn;
      rewrite ?E4; cbn; auto 10.
  - (* Init *) destruct ok; cbn; (split; [exact A|]; split; [exact B|]; split; [exact C|]; split; [exact D|]); cbn; [exact E|]. auto.
  - (* Subscribe *) destruct E as (E1 & E2 & E3 & E4 & E5 & E6 & E7).
    destruct ok; cbn; (split; [exact A|]; split; [exact B|]; split; [exact C|]); cbn; rewrite ?both_filters.
    + split; [rewrite touch_filter; exact D|]. unfold here; cbn. rewrite touch_filter. assert (NA : ~ In UAlarm (filter is_button (queue k))) by (intros X; apply filter_In in X; destruct X; discriminate). auto 10.
    + split; [intros (n & [])|]. repeat (split; [auto; fail|]). first [reflexivity | apply both_filters].
  - (* SetAlarm *) destruct E as (E1 & E2 & E3 & E4 & E5 & E6 & E7).
    destruct ok; cbn; (split; [exact A|]; split; [|split; [exact C|split; [exact D|]]]); unfold here; cbn; auto.
    + intros t X. injection X as <-. lia.
    + split; [auto|]. split; [auto|]. split; [auto|]. split; [auto|]. split; [discriminate|]. split; [|congruence]. intros q1 q2 X. destruct E4. rewrite X. apply in_app_iff. cbn. auto.
  - (* Wait *) destruct E as (E1 & E2 & E3 & E4 & E5 & E6 & E7).
    destruct (tc || ex) eqn:TE.
    + cbn. split; [exact A|]; split; [exact B|]; split; [exact C|]; split; [exact D|]. unfold here; cbn.
      split; [apply orb_true_iff, TE|]. split; [|split; [|exact I]].
      * intros X. destruct (E7 X) as (-> & F). split; [|auto]. destruct (alarm k) eqn:AL; [|reflexivity].
        destruct (E4 ltac:(discriminate)). congruence.
      * intros X Y. subst ex. specialize (E5 X eq_refl). apply in_split in E5. destruct E5 as (q1 & q2 & E5).
        destruct (E6 _ _ E5) as (_ & _ & F). apply F. left. destruct tc; [reflexivity|discriminate].
    + apply orb_false_iff in TE. destruct TE as (-> & ->). destruct (queue k) as [|u q] eqn:QK.
      * split; [exact A|]; split; [exact B|]; split; [exact C|]; split; [cbn; rewrite QK; exact D|]. unfold here; cbn. rewrite QK. auto 10.
      * destruct u as [n [|]|]; cbn; (split; [exact A|]; split; [exact B|]).
        -- assert (P : pressed a') by (apply D; exists n; left; reflexivity).
           split; [auto|]. split; [auto|]. unfold here; cbn. split; [exact E1|]. split; [exact E2|]. split; [discriminate|].
           split; [intros X; destruct (E4 X) as (Y & _); split; [intros Z; apply Y; right; exact Z|reflexivity]|].
           split; [intros X Y; destruct (E5 X Y) as [Z|Z]; [discriminate|exact Z]|].
           split; [|discriminate]. intros q1 q2 X. destruct (E6 (UButton n true :: q1) q2 ltac:(rewrite X; reflexivity)) as ((_ & F0) & _ & F).
           split; [auto|]. split; [discriminate|]. intros _. apply F. right. exists n. left. reflexivity.
        -- split; [auto|]. split; [intros (m & X); apply D; exists m; right; exact X|]. unfold here; cbn. split; [exact E1|]. split; [exact E2|].
           split; [intros _ _ X; apply E3; auto; intros (m & [Y|Y]); [discriminate|apply X; exists m; exact Y]|].
           split; [intros X; destruct (E4 X) as (Y & _); split; [intros Z; apply Y; right; exact Z|reflexivity]|].
           split; [intros X Y; destruct (E5 X Y) as [Z|Z]; [discriminate|exact Z]|].
           split; [|discriminate]. intros q1 q2 X. destruct (E6 (UButton n false :: q1) q2 ltac:(rewrite X; reflexivity)) as ((_ & F0) & F1 & F2).
           split; [auto|]. split; [intros _ Y; apply F1; auto; intros (m & [Z|Z]); [discriminate|apply Y; exists m; exact Z]|].
           intros [Y|(m & Y)]; [discriminate|]. apply F2. right. exists m. right. exact Y.
        -- destruct (E6 [] q eq_refl) as ((_ & F0) & F1 & _).
           split; [discriminate|]. split; [intros (m & X); apply D; exists m; right; exact X|]. unfold here; cbn. split; [exact E1|]. split; [exact E2|].
           split; [discriminate|].
           split; [intros X; destruct (E4 X) as (Y & _); destruct Y; left; reflexivity|].
           split; [discriminate|]. split; [intros q1 q2 X; destruct F0; rewrite X; apply in_app_iff; right; left; reflexivity|].
           intros _. split; [reflexivity|]. apply F1; [reflexivity|]. intros (m & []).
  - (* Unregister *) destruct E as (E1 & E2 & E3 & _). cbn. split; [exact A|]; split; [exact B|]; split; [exact C|]. split.
    + intros (n & X). apply filter_In in X. destruct X. discriminate.
    + unfold here; cbn. split; [auto|]. split; [auto|]. split; [auto|]. split; [lia|]. intros. lia.
  - (* Disable *) destruct E as (E1 & E2 & E3 & E4 & E5). destruct (m <? buttons c) eqn:LT; [destruct ok|]; cbn; (split; [exact A|]; split; [exact B|]; split; [exact C|]).
    + split; [exact D|]. unfold here; cbn. apply Nat.ltb_lt in LT. split; [auto|]. split; [auto|]. split; [auto|]. split; [lia|].
      intros m' H. destruct (m' =? m) eqn:EQ; [reflexivity|]. apply Nat.eqb_neq in EQ. apply E5. lia.
    + cbn. rewrite both_filters. split; [intros (n & [])|]. repeat (split; [auto; fail|]). first [reflexivity | apply both_filters].
    + split; [exact D|]. unfold here; cbn. apply Nat.ltb_ge in LT. split; [auto|]. split; [auto|]. split; [auto|]. intros m' H. apply E5. lia.
  - (* Unsubscribe *) destruct E as (E1 & E2 & E3 & E4). cbn. split; [exact A|]; split; [exact B|]; split; [exact C|]. split.
    + cbn. rewrite touch_filter. exact D.
    + unfold here; cbn. auto.
  - (* Stop *) destruct E as (E1 & E2 & E3 & E4). destruct ok; cbn [negb].
    + destruct (alarm k) as [t|] eqn:AL.
      * assert (EX : ex = false) by (destruct ex; [destruct (E2 eq_refl); congruence|reflexivity]). subst ex.
        destruct E1 as [->|E1]; [|discriminate]. cbn. split; [exact A|]. split; [discriminate|]. split; [exact C|].
        cbn. rewrite both_filters. split; [intros (n & [])|]. pose proof (both_filters (queue k)). unfold here, idle; cbn in *. auto 10.
      * destruct ex.
        -- destruct (E2 eq_refl) as (_ & -> & F). cbn. split; [exact A|]. split; [cbn; rewrite AL; exact B|]. split; [exact C|].
           cbn. rewrite both_filters. split; [intros (n & [])|]. pose proof (both_filters (queue k)). unfold here, idle; cbn in *. auto 10.
        -- cbn. split; [exact A|]. split; [rewrite AL; exact B|]. split; [exact C|]. split; [exact D|]. unfold here; cbn. right. auto.
    + cbn. split; [exact A|]. split; [exact B|]. split; [exact C|]. split; [exact D|]. unfold here; cbn. auto.
  - (* Over *) cbn. split; [exact A|]. split; [exact B|]. split; [exact C|]. split; [exact D|]. exact E.
Qed.

Lemma inv_step a i k p : run c s0 a = (k, p) -> inv a k p -> inv (a ++ [i]) (fst (step c (k, p) i)) (snd (step c (k, p) i)).
Proof.
  intros R I. destruct i as [[n|n|d|]|ok].
  - exact (inv_button a n true k p R I).
  - exact (inv_button a n false k p R I).
  - exact (inv_time a d k p R I).
  - exact (inv_expire a k p R I).
  - exact (inv_run a ok k p R I).
Qed.

Lemma inv_all k p : s0 = (k, p) -> inv [] k p -> forall a, inv a (fst (run c s0 a)) (snd (run c s0 a)).
Proof.
  intros E I a. induction a as [|i a IH] using rev_ind; [rewrite E; exact I|].
  rewrite run_snoc. destruct (run c s0 a) as [k' p'] eqn:R. apply inv_step; [exact R|exact IH].
Qed.
End Call.

Lemma quiet_nil c s0 : quiet c s0 [].
Proof. intros x n y (E & _). destruct x; discriminate. Qed.

Lemma call_inv c k ms a : idle k -> ms <> 0 ->
  inv c (wait_with_timeout ms k) a (fst (run c (wait_with_timeout ms k) a)) (snd (run c (wait_with_timeout ms k) a)).
Proof.
  intros (I1 & I2 & I3 & I4) M. unfold wait_with_timeout. apply Nat.eqb_neq in M. rewrite M.
  apply (inv_all _ _ k (mkProcess Count false false) eq_refl). split; [cbn; lia|]. split; [rewrite I3; discriminate|]. split; [discriminate|].
  split; [rewrite I4; intros (n & [])|]. unfold here; cbn. auto 10 using quiet_nil.
Qed.
