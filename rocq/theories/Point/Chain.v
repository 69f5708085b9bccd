(** The order of the base point and the table of its multiples, by computation. *)
From Verif Require Import Base Curve.Fp Curve.Link Curve.Fast Point.Hints Point.Table.
From Verif Require Int.Spec Field.Spec Field.Model Field.Proofs Curve.Spec Curve.Group.
From Coq Require Import Lia Field Ring.
Open Scope Z_scope.
Ltac Zify.zify_post_hook ::= idtac.
Add Field F_field'' : field_F.
Notation "'let?' x ':=' m 'in' k" := (match m with Some x => k | None => None end)
  (at level 200, x pattern, m at level 100, k at level 200, right associativity).

(** ** Steps *)
Definition pair := (Z * Z)%type.
Definition aff (P : pair) : point := Affine (of_Z (fst P)) (of_Z (snd P)).
Definition next (m x1 y1 x2 : Z) : pair :=
  let x := red (m * m + (p + p - x1 - x2)) in (x, red (m * (x1 + p - x) + (p - y1))).
Definition dbl (m : Z) (P : pair) : option pair :=
  let (x, y) := P in
  if red (m * (y + y)) =? red (3 * (x * x) - 3) then Some (next m x y x) else None.
Definition add2 (m : Z) (P Q : pair) : option pair :=
  let (x1, y1) := P in let (x2, y2) := Q in
  if negb (x1 mod p =? x2 mod p) && (red (m * (x1 + p - x2)) =? red (y1 + p - y2)) then Some (next m x1 y1 x2) else None.
Definition neg (P : pair) : pair := (fst P, p - snd P).

Lemma of_p : of_Z p = f0. Proof. apply of_mod. reflexivity. Qed.
Lemma of_red x : of_Z (red x) = of_Z x. Proof. rewrite red_spec. apply of_modp. Qed.
Lemma red_eq x y : (red x =? red y) = true -> of_Z x = of_Z y.
Proof. intros H. apply Z.eqb_eq in H. rewrite <- of_red, H. apply of_red. Qed.
Lemma next_third m x1 y1 x2 : aff (next m x1 y1 x2) = Group.third F fmul fsub (of_Z m) (of_Z x1) (of_Z y1) (of_Z x2).
Proof.
  unfold aff, next, Group.third. cbv zeta. cbn [fst snd].
  assert (E : of_Z (red (m * m + (p + p - x1 - x2))) = fsub (fsub (fmul (of_Z m) (of_Z m)) (of_Z x1)) (of_Z x2)).
  { rewrite of_red, of_add, !of_sub, of_add, of_mul, of_p. ring. }
  rewrite E. f_equal. rewrite of_red, of_add, of_mul, !of_sub, of_add, E, of_p. ring.
Qed.
Lemma dbl_ok m P Q : valid (aff P) -> dbl m P = Some Q -> plus (aff P) (aff P) = aff Q.
Proof.
  destruct P as [x y]. unfold dbl. intros V H. destruct (red _ =? red _) eqn:E; [|discriminate]. injection H as <-.
  rewrite next_third. apply red_eq in E. rewrite of_sub, !of_mul, of_add in E.
  assert (Ny : of_Z y <> f0) by exact (Group.y_n0 F f0 f1 fadd fmul fsub fopp fdiv finv field_F fa fb no_root _ _ V).
  apply (Group.plus_on_line F f0 f1 fadd fmul fsub fopp fdiv finv field_F dec fa fb two no_root); [exact V|exact V| |].
  - intros (_ & Z). apply Ny. exact (Group.self_opp F f0 f1 fadd fmul fsub fopp fdiv finv field_F dec two _ Z).
  - unfold Group.on_line. cbn [fst snd]. split; [ring|]. rewrite E. change (of_Z 3) with (fadd (fadd f1 f1) f1). replace fa with (fopp (fadd (fadd f1 f1) f1)) by (unfold fa, f1; rewrite <- !of_add, <- of_opp; reflexivity). ring.
Qed.
Lemma add2_ok m P Q R : valid (aff P) -> valid (aff Q) -> add2 m P Q = Some R -> plus (aff P) (aff Q) = aff R.
Proof.
  destruct P as [x1 y1], Q as [x2 y2]. unfold add2. intros VP VQ H.
  destruct (negb _ && _) eqn:E; [|discriminate]. injection H as <-. rewrite next_third. apply andb_prop in E. destruct E as (N & E).
  apply red_eq in E. rewrite of_mul, !of_sub, !of_add, of_p in E. rewrite negb_true_iff, Z.eqb_neq in N.
  assert (Nx : of_Z x1 <> of_Z x2) by (rewrite of_eq; exact N).
  assert (Nd : fsub (of_Z x1) (of_Z x2) <> f0) by exact (Group.sub_n0 F f0 f1 fadd fmul fsub fopp fdiv finv field_F _ _ Nx).
  apply (Group.plus_on_line F f0 f1 fadd fmul fsub fopp fdiv finv field_F dec fa fb two no_root); [exact VP|exact VQ| |].
  - intros (Z & _). exact (Nx Z).
  - unfold Group.on_line. cbn [aff fst snd Group.valid] in *.
    assert (L : fmul (of_Z m) (fsub (of_Z x1) (of_Z x2)) = fsub (of_Z y1) (of_Z y2)).
    { transitivity (fmul (of_Z m) (fsub (fadd (of_Z x1) f0) (of_Z x2))); [ring|]. rewrite E. ring. }
    split; [exact L|].
    apply (Group.cancel_l F f0 f1 fadd fmul fsub fopp fdiv finv field_F dec (fsub (of_Z x1) (of_Z x2))); [exact Nd|].
    transitivity (fmul (fmul (of_Z m) (fsub (of_Z x1) (of_Z x2))) (fadd (of_Z y1) (of_Z y2))); [ring|]. rewrite L.
    transitivity (fsub (fmul (of_Z y1) (of_Z y1)) (fmul (of_Z y2) (of_Z y2))); [ring|]. rewrite VP, VQ. ring.
Qed.
Lemma aff_neg P : aff (neg P) = opposite (aff P).
Proof. destruct P as [x y]. unfold neg, aff. cbn [fst snd Group.opposite]. f_equal. rewrite of_sub, of_p. ring. Qed.

(** [P] is the multiple [k] of the base point. *)
Definition is (k : Z) (P : pair) : Prop := 0 <= k /\ mult k G = aff P.
Lemma is_valid k P : is k P -> valid (aff P).
Proof. intros (_ & <-). apply mult_valid, G_valid. Qed.
Lemma is_dbl m k P Q : is k P -> dbl m P = Some Q -> is (2 * k) Q.
Proof.
  intros H E. pose proof (dbl_ok m P Q (is_valid _ _ H) E) as S. destruct H as (Hk & H). split; [lia|].
  rewrite mult_2, H by (exact Hk || exact G_valid). exact S.
Qed.
Lemma is_add m j k P Q R : is j P -> is k Q -> add2 m P Q = Some R -> is (j + k) R.
Proof.
  intros HP HQ E. pose proof (add2_ok m P Q R (is_valid _ _ HP) (is_valid _ _ HQ) E) as S. destruct HP as (Hj & HP), HQ as (Hk & HQ).
  split; [lia|]. rewrite mult_add, HP, HQ by (assumption || exact G_valid). exact S.
Qed.
Lemma mult_sub j k P : 0 <= k <= j -> valid P -> plus (mult j P) (opposite (mult k P)) = mult (j - k) P.
Proof.
  intros H V. replace j with (j - k + k) at 1 by ring. rewrite mult_add by (assumption || lia).
  rewrite plus_assoc, plus_opposite, plus_0_r by auto using mult_valid, opposite_valid. reflexivity.
Qed.
Lemma is_sub m j k P Q R : is j P -> is k Q -> k <= j -> add2 m P (neg Q) = Some R -> is (j - k) R.
Proof.
  intros HP HQ L E. assert (VN : valid (aff (neg Q))) by (rewrite aff_neg; apply opposite_valid, (is_valid _ _ HQ)).
  pose proof (add2_ok m P (neg Q) R (is_valid _ _ HP) VN E) as S. destruct HP as (Hj & HP), HQ as (Hk & HQ).
  split; [lia|]. rewrite <- (mult_sub j k) by (exact G_valid || lia). rewrite HP, HQ, <- aff_neg. exact S.
Qed.

(** ** Lists of steps *)
Fixpoint doubles (ms : list Z) (P : pair) : option (list pair) :=
  match ms with
  | [] => Some [P]
  | m :: ms' => let? Q := dbl m P in let? l := doubles ms' Q in Some (P :: l)
  end.
Lemma doubles_ok ms : forall P k l, is k P -> doubles ms P = Some l ->
  forall i Q, nth_error l i = Some Q -> is (2 ^ Z.of_nat i * k) Q.
Proof.
  induction ms as [|m ms IH]; intros P k l H E i Q Hi; cbn [doubles] in E.
  - injection E as <-. destruct i as [|i]; [injection Hi as <-; rewrite Z.mul_1_l; exact H|destruct i; discriminate].
  - destruct (dbl m P) as [R|] eqn:ED; [|discriminate]. destruct (doubles ms R) as [l'|] eqn:EL; [|discriminate]. injection E as <-.
    destruct i as [|i]; [injection Hi as <-; rewrite Z.mul_1_l; exact H|]. cbn [nth_error] in Hi.
    pose proof (IH R (2 * k) l' (is_dbl m k P R H ED) EL i Q Hi) as HS.
    replace (2 ^ Z.of_nat (S i) * k) with (2 ^ Z.of_nat i * (2 * k)); [exact HS|]. rewrite Nat2Z.inj_succ, Z.pow_succ_r by lia. ring.
Qed.
(** The multiple reached by steps from the multiple [k]; None if one is negative. *)
Fixpoint sums (D : list pair) (ops : list (bool * nat * Z)) (k : Z) (P : pair) : option (Z * pair) :=
  match ops with
  | [] => Some (k, P)
  | (s, i, m) :: ops' =>
      let? Q := nth_error D i in
      let j := 2 ^ Z.of_nat i in
      if (s : bool) then let? R := add2 m P Q in sums D ops' (k + j) R
      else if j <=? k then let? R := add2 m P (neg Q) in sums D ops' (k - j) R else None
  end.
Definition powers (D : list pair) : Prop := forall i Q, nth_error D i = Some Q -> is (2 ^ Z.of_nat i) Q.
Lemma sums_ok D ops : powers D -> forall k P k' P', is k P -> sums D ops k P = Some (k', P') -> is k' P'.
Proof.
  intros HD. induction ops as [|[[s i] m] ops IH]; intros k P k' P' H E; cbn [sums] in E.
  - injection E as <- <-. exact H.
  - destruct (nth_error D i) as [Q|] eqn:EQ; [|discriminate]. specialize (HD i Q EQ). destruct s.
    + destruct (add2 m P Q) as [R|] eqn:ER; [|discriminate]. exact (IH _ _ _ _ (is_add _ _ _ _ _ _ H HD ER) E).
    + destruct (Z.leb_spec (2 ^ Z.of_nat i) k) as [L|]; [|discriminate]. destruct (add2 m P (neg Q)) as [R|] eqn:ER; [|discriminate].
      exact (IH _ _ _ _ (is_sub _ _ _ _ _ _ H HD L ER) E).
Qed.

(** ** Tables *)
(** The multiples for the indices below 2^c, given those below 2^(c - 1). *)
Fixpoint extend (Q : pair) (j : Z) (T : list (Z * pair)) (ms : list Z) : option (list (Z * pair) * list Z) :=
  match T with
  | [] => Some ([], ms)
  | (k, P) :: T' =>
      match ms with
      | [] => None
      | m :: ms' => let? R := add2 m P Q in let? (r, ms'') := extend Q j T' ms' in Some ((k + j, R) :: r, ms'')
      end
  end.
Fixpoint table (D : list pair) (c : nat) (i : nat) (T : list (Z * pair)) (ms : list Z) : option (list (Z * pair)) :=
  match c with
  | O => Some T
  | S c' =>
      let? Q := nth_error D i in
      let j := 2 ^ Z.of_nat i in
      let? (r, ms') := extend Q j T ms in
      table D c' (i + 64) (T ++ (j, Q) :: r) ms'
  end.
Definition good (T : list (Z * pair)) : Prop := Forall (fun '(k, P) => is k P) T.
Lemma extend_ok Q j T : is j Q -> forall ms r ms', good T -> extend Q j T ms = Some (r, ms') -> good r.
Proof.
  intros HQ. induction T as [|[k P] T IH]; intros ms r ms' HT E; cbn [extend] in E; [injection E as <- <-; apply Forall_nil|].
  destruct ms as [|m ms]; [discriminate|]. destruct (add2 m P Q) as [R|] eqn:ER; [|discriminate].
  destruct (extend Q j T ms) as [[r0 ms0]|] eqn:EX; [|discriminate]. injection E as <- <-. inversion HT as [|? ? HP HT']; subst.
  apply Forall_cons; [exact (is_add _ _ _ _ _ _ HP HQ ER)|exact (IH _ _ _ HT' EX)].
Qed.
Lemma table_ok D c : powers D -> forall i T ms T', good T -> table D c i T ms = Some T' -> good T'.
Proof.
  intros HD. induction c as [|c IH]; intros i T ms T' HT E; cbn [table] in E; [injection E as <-; exact HT|].
  destruct (nth_error D i) as [Q|] eqn:EQ; [|discriminate]. specialize (HD i Q EQ).
  destruct (extend _ _ T ms) as [[r ms0]|] eqn:EX; [|discriminate]. apply (IH _ _ _ _) in E; [exact E|].
  apply Forall_app. split; [exact HT|]. apply Forall_cons; [exact HD|exact (extend_ok _ _ _ HD _ _ _ HT EX)].
Qed.
(** Limbs that stand for an element. *)
Definition limbs_ok (l : list Z) : bool :=
  (length l =? 9)%nat && forallb (fun '(i, d) => (0 <=? d) && (d <? if Nat.even i then 2 ^ 30 else 2 ^ 29)) (combine (seq 0 9) l) && (nth 8 l 0 <? 2 ^ 29).
Lemma limbs_ok_spec l : limbs_ok l = true -> Field.Spec.is_limbs l.
Proof.
  unfold limbs_ok. rewrite !andb_true_iff. intros ((L & C) & C8). apply Nat.eqb_eq in L. apply Z.ltb_lt in C8. split; [exact L|]. split; [|exact C8].
  intros i Hi. rewrite forallb_forall in C. specialize (C (i, nth i l 0)). cbv beta iota in C. rewrite andb_true_iff, Z.leb_le, Z.ltb_lt in C. apply C.
  replace (i, nth i l 0) with (nth i (combine (seq 0 9) l) (0%nat, 0)).
  - apply nth_In. rewrite combine_length, seq_length, L. exact Hi.
  - rewrite combine_nth by (rewrite seq_length, L; reflexivity). rewrite seq_nth by exact Hi. reflexivity.
Qed.
Definition stands (l : list Z) (x : Z) : bool := limbs_ok l && (red (Field.Spec.number l) =? red (x * 2 ^ 257)).
Lemma stands_ok l x : stands l x = true -> Field.Spec.represents l (val (of_Z x)).
Proof.
  unfold stands. rewrite andb_true_iff, Z.eqb_eq, !red_spec. intros (L & E). split; [apply limbs_ok_spec, L|]. split; [apply val_range|].
  rewrite val_of, Zmult_mod_idemp_l. exact E.
Qed.
(** The multiple in each entry. *)
Definition entry (t : nat) (e : nat) : Z :=
  let bit k := if Nat.testbit e k then 2 ^ (64 * Z.of_nat k + 32 * Z.of_nat t) else 0 in
  bit 0%nat + bit 1%nat + bit 2%nat + bit 3%nat.
Definition entry_ok (t e : nat) (kP : Z * pair) : bool :=
  let '(k, (x, y)) := kP in let (lx, ly) := PRECOMPUTED t (e - 1) in (k =? entry t e) && stands lx x && stands ly y.
Definition table_good (D : list pair) (t : nat) : bool :=
  match table D 4 (32 * t) [] (nth t table_chords []) with
  | Some T => (length T =? 15)%nat && forallb (fun '(e, kP) => entry_ok t e kP) (combine (seq 1 15) T)
  | None => false
  end.
Definition order_good (D : list pair) : bool :=
  match nth_error D 256 with
  | Some P =>
      match sums D order_steps (2 ^ 256) P, D with
      | Some (k, R), (x, y) :: _ => (k =? Int.Spec.n - 1) && (fst R =? x) && (snd R =? p - y)
      | _, _ => false
      end
  | None => false
  end.
Definition base : pair := match Curve.Spec.G with Curve.Spec.Affine x y => (x, y) | Curve.Spec.Infinity => (0, 0) end.
Definition good_list (o : option (list pair)) : bool :=
  match o with
  | Some D => order_good D && table_good D 0 && table_good D 1
  | None => false
  end.
Lemma all_good_true : good_list (doubles tangents base) = true. Proof. vm_cast_no_check (eq_refl true). Qed.

Lemma base_is : is 1 base.
Proof. split; [discriminate|]. rewrite mult_1. reflexivity. Qed.
Opaque base order_steps table_chords tangents PRECOMPUTED G Int.Spec.n sums table doubles.
Lemma doubles_hd ms P l : doubles ms P = Some l -> nth_error l 0 = Some P.
Proof.
  Transparent doubles. destruct ms as [|m ms]; cbn [doubles]; [intros E; injection E as <-; reflexivity|].
  destruct (dbl m P) as [Q|]; [|discriminate]. destruct (doubles ms Q); [|discriminate]. intros E. injection E as <-. reflexivity.
Qed.
Opaque doubles.
Lemma good_chain ms : good_list (doubles ms base) = true ->
  exists D, powers D /\ order_good D = true /\ table_good D 0 = true /\ table_good D 1 = true /\ nth_error D 0 = Some base.
Proof.
  intros A. destruct (doubles ms base) as [D|] eqn:E; [|discriminate]. unfold good_list in A.
  exists D. split.
  - intros i Q Hi. pose proof (doubles_ok _ _ _ _ base_is E i Q Hi) as HS. rewrite Z.mul_1_r in HS. exact HS.
  - rewrite !andb_true_iff in A. destruct A as ((A & B) & C). pose proof (doubles_hd _ _ _ E). repeat split; assumption.
Qed.
Lemma chain : exists D, powers D /\ order_good D = true /\ table_good D 0 = true /\ table_good D 1 = true /\ nth_error D 0 = Some base.
Proof. exact (good_chain tangents all_good_true). Qed.
Theorem order : mult Int.Spec.n G = Infinity.
Proof.
  destruct chain as (D & HD & O & _ & _ & H0). unfold order_good in O. destruct (nth_error D 256) as [P|] eqn:EP; [|discriminate].
  destruct (sums D order_steps (2 ^ 256) P) as [[k R]|] eqn:ES; [|discriminate]. destruct D as [|[x y] D']; [discriminate|].
  rewrite !andb_true_iff, !Z.eqb_eq in O. destruct O as ((-> & Ex) & Ey).
  pose proof (HD 256%nat P EP) as HP. change (2 ^ Z.of_nat 256) with (2 ^ 256) in HP.
  pose proof (sums_ok _ _ HD _ _ _ _ HP ES) as (Hn & HR). cbn [nth_error] in H0. assert (H0' : (x, y) = base) by congruence.
  assert (ER : R = neg base) by (rewrite <- H0'; destruct R as [u v]; cbn [fst snd] in Ex, Ey; unfold neg; cbn [fst snd]; congruence).
  rewrite ER, aff_neg in HR. destruct base_is as (_ & B). rewrite mult_1 in B. rewrite <- B in HR.
  replace Int.Spec.n with (1 + (Int.Spec.n - 1)) by ring. rewrite (mult_add 1 (Int.Spec.n - 1) G Z.le_0_1 Hn G_valid), (mult_1 G), HR.
  apply plus_opposite.
Qed.
(** The entries of the table. *)
Theorem table_entries t e : (t < 2)%nat -> (1 <= e <= 15)%nat ->
  exists x y, mult (entry t e) G = Affine x y /\
    Field.Spec.represents (fst (PRECOMPUTED t (e - 1))) (val x) /\ Field.Spec.represents (snd (PRECOMPUTED t (e - 1))) (val y).
Proof.
  intros Ht He. destruct chain as (D & HD & _ & T0 & T1 & _).
  assert (T : table_good D t = true) by (destruct t as [|[|t]]; [exact T0|exact T1|lia]). clear T0 T1. unfold table_good in T.
  destruct (table D 4 (32 * t) [] (nth t table_chords [])) as [T'|] eqn:ET; [|discriminate].
  pose proof (table_ok _ _ HD _ _ _ _ (Forall_nil _) ET) as GT. rewrite andb_true_iff, Nat.eqb_eq in T. destruct T as (L & C).
  rewrite forallb_forall in C. pose proof (nth_In T' (0, (0, 0)) (n := e - 1) ltac:(lia)) as IN.
  specialize (C (e, nth (e - 1) T' (0, (0, 0)))). cbv beta iota in C.
  assert (IC : In (e, nth (e - 1) T' (0, (0, 0))) (combine (seq 1 15) T')).
  { replace (e, nth (e - 1) T' (0, (0, 0))) with (nth (e - 1) (combine (seq 1 15) T') (0%nat, (0, (0, 0)))).
    - apply nth_In. rewrite combine_length, seq_length, L. lia.
    - rewrite combine_nth by (rewrite seq_length; symmetry; exact L). rewrite seq_nth by lia. f_equal. lia. }
  specialize (C IC). unfold good in GT. rewrite Forall_forall in GT. specialize (GT _ IN).
  destruct (nth (e - 1) T' (0, (0, 0))) as [k [x y]]. unfold entry_ok in C. destruct (PRECOMPUTED t (e - 1)) as [lx ly]. cbn [fst snd].
  rewrite !andb_true_iff, Z.eqb_eq in C. destruct C as ((-> & Sx) & Sy). destruct GT as (_ & M).
  exists (of_Z x), (of_Z y). split; [exact M|]. split; apply stands_ok; assumption.
Qed.
