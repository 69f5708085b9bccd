(** C74: random bytes. *)
From Verif Require Import Base.
From Verif Require Import Rng.Model Rng.Spec Rng.Proofs.
Local Open Scope nat_scope.

(** A call that says that it filled the buffer did: every byte of it is a byte that the hardware gave after the request of this call, in order, none
    is used twice, and none of the former content is left. *)
Theorem C74_filled : forall b k l, idle k -> ends (run (fill_buffer b k) l) true ->
  exists a r, l = a ++ Run true :: r /\ place_of (snd (run (fill_buffer b k) a)) = Command /\ length b <= length (supplied r) /\ buf (snd (run (fill_buffer b k) l)) = firstn (length b) (supplied r).
Proof.
  intros b k l I E. pose proof (here_all b k I l) as H. unfold here in H. unfold ends in E. rewrite E in H.
  destruct H as (a & r & (E1 & E2) & _ & L & F). exists a, r. auto.
Qed.
Print Assumptions C74_filled.

(** A call only fails if a system call fails; the buffer is then as before. *)
Theorem C74_failed : forall b k l, idle k -> ends (run (fill_buffer b k) l) false ->
  In (Run false) l /\ buf (snd (run (fill_buffer b k) l)) = b.
Proof.
  intros b k l I E. pose proof (here_all b k I l) as H. unfold here in H. unfold ends in E. rewrite E in H. destruct H as (_ & F & G). auto.
Qed.
Print Assumptions C74_failed.

(** After a call the kernel neither has the buffer nor anything to tell: later bytes of the hardware do not reach it. *)
Theorem C74_clean : forall b k l, idle k -> over (run (fill_buffer b k) l) ->
  idle (fst (run (fill_buffer b k) l)) /\ forall l', buf (snd (run (fill_buffer b k) (l ++ l'))) = buf (snd (run (fill_buffer b k) l)).
Proof.
  intros b k l I (r & E). pose proof (here_all b k I l) as H. unfold here in H. unfold ends in E. rewrite E in H.
  assert (D : idle (fst (run (fill_buffer b k) l))) by (destruct r; [destruct H as (? & ? & _ & H & _); exact H|apply H]). split; [exact D|].
  intros l'. rewrite run_app. destruct (run (fill_buffer b k) l) as [k1 p1]. cbn [fst snd] in *. destruct D as (_ & _ & D & _). clear - E D.
  induction l' as [|i l' IH] using rev_ind; [reflexivity|]. rewrite run_snoc.
  assert (G : run (k1, p1) l' = (k1, p1)).
  { clear IH. induction l' as [|j l' IH]; [reflexivity|]. cbn [run fold_left]. fold (run (step (k1, p1) j) l').
    assert (S : step (k1, p1) j = (k1, p1)) by (destruct j; cbn; [rewrite D|rewrite E]; reflexivity). rewrite S. exact IH. }
  rewrite G. destruct i; cbn; [rewrite D|rewrite E]; reflexivity.
Qed.
Print Assumptions C74_clean.

(** There is no wait without an end: once the hardware has given enough bytes after the request, the call ends within two steps. *)
Theorem C74_ends : forall b k l l', idle k -> b <> [] -> place_of (snd (run (fill_buffer b k) l)) = Command ->
  length b <= length (supplied l') -> ends (run (fill_buffer b k) (l ++ Run true :: l' ++ [Run true; Run true])) true.
Proof.
  intros b k l l' I B P L. set (m := l ++ Run true :: l').
  assert (EQ : l ++ Run true :: l' ++ [Run true; Run true] = m ++ [Run true; Run true]) by (unfold m; rewrite <- app_assoc; reflexivity).
  rewrite EQ. clear EQ. pose proof (here_all b k I m) as H. pose proof (later_asked (fill_buffer b k) l l' P) as W. fold m in W. rewrite run_app.
  unfold here in H. unfold later in W. destruct (run (fill_buffer b k) m) as [k1 p1] eqn:R. cbn [fst snd] in *. destruct (place_of p1) as [| | | |r] eqn:E; try destruct W.
  - destruct H as (a & r & Q & A & S & C & D & F & G & J). destruct (asked_once b k l l' a r (conj eq_refl P) Q) as (-> & ->).
    unfold ends. cbn [run fold_left step proceed]. rewrite E. destruct (is_filled p1) eqn:X.
    + reflexivity.
    + destruct (J ltac:(lia) B) as [Y|Y]; [|discriminate Y]. destruct (pending k1) as [|n]; [lia|]. reflexivity.
  - unfold ends. cbn [run fold_left step proceed]. rewrite E. cbn [proceed]. rewrite E. cbn [snd]. destruct r; [exact E|exfalso].
    assert (N : forall x s, place_of (snd s) = Wait \/ place_of (snd s) = Over true -> place_of (snd (run s x)) <> Over false).
    { clear. induction x as [|i x IH]; intros s W; [cbn; destruct W as [-> | ->]; discriminate|]. apply (IH (step s i)). destruct s as [k p]. cbn [snd] in W.
      destruct i as [bs|ok]; cbn [step].
      - unfold entropy. destruct (missing k); [exact W|]. destruct (shared k); exact W.
      - unfold proceed. destruct W as [W|W]; rewrite W; [|right; exact W]. destruct (is_filled p); [right; reflexivity|]. destruct (pending k); left; [exact W|reflexivity]. }
    apply (N l' (step (run (fill_buffer b k) l) (Run true))).
    + destruct (run (fill_buffer b k) l) as [k2 p2]. cbn [snd] in P. cbn [step proceed]. rewrite P. left. reflexivity.
    + change (place_of (snd (run (step (run (fill_buffer b k) l) (Run true)) l')) = Over false). unfold m in R. rewrite run_app in R.
      change (run (run (fill_buffer b k) l) (Run true :: l')) with (run (step (run (fill_buffer b k) l) (Run true)) l') in R. rewrite R. exact E.
Qed.
Print Assumptions C74_ends.

(** Over any number of calls in which no system call fails, the buffers are filled with bytes of the hardware, and no byte of the hardware is used twice. *)
Theorem C74_once : forall cs k xs k', idle k -> fill_all k cs = Some (xs, k') -> Forall (fun c => no_failure (snd c)) cs ->
  map (@length byte) xs = map (fun c => length (fst c)) cs /\ subsequence (concat xs) (flat_map (fun c => supplied (snd c)) cs) /\ idle k'.
Proof.
  induction cs as [|[b l] cs IH]; intros k xs k' I E F; cbn [fill_all] in E.
  - injection E as <- <-. cbn. repeat split; try apply I. constructor.
  - unfold fill_bytes in E. destruct (place_of (snd (run (fill_buffer b k) l))) as [| | | |r] eqn:P; try discriminate E.
    inversion F as [|? ? F1 F2]; subst. cbn [snd] in F1.
    pose proof (C74_clean b k l I (ex_intro _ r P)) as (D & _).
    destruct r; [|destruct (F1 (proj1 (C74_failed b k l I P)))]. destruct (C74_filled b k l I P) as (a & r & -> & _ & L & X).
    destruct (fill_all _ cs) as [[ys k2]|] eqn:Y; [|discriminate E]. injection E as <- <-. destruct (IH _ _ _ D Y F2) as (M & S & J).
    cbn [map fst concat flat_map snd]. rewrite M, X, firstn_length. repeat split; try apply J; [f_equal; lia|]. apply subseq_app; [|exact S].
    rewrite supplied_app. cbn [supplied flat_map app]. eapply subseq_trans; [apply subseq_firstn|apply subseq_right].
Qed.
Print Assumptions C74_once.

(** But a failure is not noticed: fill_bytes ignores the result, so that a key of 32 zeros is returned as if it were random (finding F32). *)
Theorem C74_silent_refuted : forall k, idle k -> exists l k', gen_uniform_u8x32 k l = Some (repeat 0%N 32, k') /\ idle k' /\
  exists k'' , gen_uniform_u8x32 k' l = Some (repeat 0%N 32, k'').
Proof. intros [s u w m p] (A & B & C & D). cbn in A, B, C, D. subst. exists [Run true; Run true; Run false]. eexists. repeat split. eexists. reflexivity. Qed.
Print Assumptions C74_silent_refuted.

(** The hardware gives bytes in words of four; between two calls it goes on. *)
Definition rest : kernel := mkKernel false false 0 0 0.
Definition word (n : nat) : item := Entropy [N.of_nat n; N.of_nat (n + 1); N.of_nat (n + 2); N.of_nat (n + 3)].
Definition ex_call (n : nat) : list item := [word n; Run true; Run true; Run true; word (n + 4); Run true; word (n + 8); word (n + 12); Run true; Run true; word (n + 16)].
Example C74_nonvacuous : idle rest /\ Forall (fun c => no_failure (snd c)) [(repeat 0%N 6, ex_call 0); (repeat 0%N 5, ex_call 20)] /\
  fill_all rest [(repeat 0%N 6, ex_call 0); (repeat 0%N 5, ex_call 20)] = Some ([[4; 5; 6; 7; 8; 9]; [24; 25; 26; 27; 28]]%N, mkKernel false false 5 0 0) /\
  place_of (snd (run (fill_buffer (repeat 0%N 6) rest) [word 0; Run true; Run true])) = Command /\
  ends (run (fill_buffer (repeat 0%N 6) rest) (ex_call 0)) true.
Proof.
  split; [repeat split|]. split; [|repeat split].
  constructor; [|constructor; [|constructor]]; intros H; cbn in H; repeat (destruct H as [H|H]; [discriminate|]); exact H.
Qed.
Example C74_failed_nonvacuous : ends (run (fill_buffer [1; 2]%N rest) [Run true; Run false]) false. Proof. reflexivity. Qed.
