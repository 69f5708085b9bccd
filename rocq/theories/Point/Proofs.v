(** The arithmetic of points computes the formulas of Curve/Formulas.v, hence sums. *)
From Verif Require Import Base Field.Model Curve.Fp Curve.Link Point.Model.
From Verif Require Int.Spec Field.Spec Field.Convert Field.Props Curve.Group Curve.Formulas.
From Coq Require Import Lia Field Ring.
Open Scope Z_scope.
Ltac Zify.zify_post_hook ::= idtac.
Add Field F_field'' : field_F.

Definition rep (l : limbs) (x : F) : Prop := Field.Spec.represents l (val x).
Definition rep3 (P : projective) (X Y Z : F) : Prop := rep (jx P) X /\ rep (jy P) Y /\ rep (jz P) Z.
Definition rep2 (P : affine) (X Y : F) : Prop := rep (ax P) X /\ rep (ay P) Y.
Notation F2 := (fadd f1 f1).
Notation F3 := (fadd (fadd f1 f1) f1).
Lemma rep_eq l x y : rep l x -> x = y -> rep l y. Proof. intros H <-. exact H. Qed.
Lemma r_add a b x y : rep a x -> rep b y -> exists r, add false a b = Some r /\ rep r (fadd x y).
Proof. intros Ha Hb. exact (Field.Convert.rep_add false a b _ _ Ha Hb). Qed.
Lemma r_sub a b x y : rep a x -> rep b y -> exists r, sub false a b = Some r /\ rep r (fsub x y).
Proof. intros Ha Hb. exact (Field.Convert.rep_sub false a b _ _ Ha Hb). Qed.
Lemma r_mul a b x y : rep a x -> rep b y -> exists r, mul false a b = Some r /\ rep r (fmul x y).
Proof. intros Ha Hb. destruct (Field.Convert.rep_mul_release a b _ _ Ha Hb) as (r & E & H & _). exists r. split; [exact E|exact H]. Qed.
Lemma r_square a x : rep a x -> exists r, square false a = Some r /\ rep r (fmul x x).
Proof. intros Ha. destruct (Field.Convert.rep_square_release a _ Ha) as (r & E & H & _). exists r. split; [exact E|exact H]. Qed.
Lemma of_scale k x : (k * val x) mod p = val (fmul (of_Z k) x).
Proof. unfold fmul. rewrite !val_of. symmetry. apply Zmult_mod_idemp_l. Qed.
Lemma r_2 a x : rep a x -> exists r, mul_scalar2 false a = Some r /\ rep r (fmul F2 x).
Proof.
  intros H. destruct (Field.Props.C57_multiples false a _ H) as ((r & E & R) & _). exists r. split; [exact E|].
  rewrite of_scale in R. apply (rep_eq r _ _ R). f_equal.
Qed.
Lemma r_3 a x : rep a x -> exists r, mul_scalar3 false a = Some r /\ rep r (fmul F3 x).
Proof.
  intros H. destruct (Field.Props.C57_multiples false a _ H) as (_ & (r & E & R) & _). exists r. split; [exact E|].
  rewrite of_scale in R. apply (rep_eq r _ _ R). f_equal.
Qed.
Lemma r_4 a x : rep a x -> exists r, mul_scalar4 false a = Some r /\ rep r (fmul (fmul F2 F2) x).
Proof.
  intros H. destruct (Field.Props.C57_multiples false a _ H) as (_ & _ & (r & E & R) & _). exists r. split; [exact E|].
  rewrite of_scale in R. apply (rep_eq r _ _ R). f_equal.
Qed.
Lemma r_B : rep c_B fb.
Proof. destruct Field.Props.C57_constants as (_ & _ & _ & H & _). exact H. Qed.
Lemma r_ZERO : rep c_ZERO f0.
Proof. destruct Field.Props.C57_constants as (H & _). exact H. Qed.
Lemma r_ONE : rep c_ONE f1.
Proof. destruct Field.Props.C57_constants as (_ & H & _). exact H. Qed.

Ltac one :=
  match goal with
  | |- context [mul false ?a ?b] =>
      match goal with Ha : rep a _, Hb : rep b _ |- _ => let r := fresh "r" in let E := fresh "E" in let H := fresh "H" in
        destruct (r_mul _ _ _ _ Ha Hb) as (r & E & H); rewrite E; clear E end
  | |- context [square false ?a] =>
      match goal with Ha : rep a _ |- _ => let r := fresh "r" in let E := fresh "E" in let H := fresh "H" in
        destruct (r_square _ _ Ha) as (r & E & H); rewrite E; clear E end
  | |- context [add false ?a ?b] =>
      match goal with Ha : rep a _, Hb : rep b _ |- _ => let r := fresh "r" in let E := fresh "E" in let H := fresh "H" in
        destruct (r_add _ _ _ _ Ha Hb) as (r & E & H); rewrite E; clear E end
  | |- context [sub false ?a ?b] =>
      match goal with Ha : rep a _, Hb : rep b _ |- _ => let r := fresh "r" in let E := fresh "E" in let H := fresh "H" in
        destruct (r_sub _ _ _ _ Ha Hb) as (r & E & H); rewrite E; clear E end
  | |- context [mul_scalar2 false ?a] =>
      match goal with Ha : rep a _ |- _ => let r := fresh "r" in let E := fresh "E" in let H := fresh "H" in
        destruct (r_2 _ _ Ha) as (r & E & H); rewrite E; clear E end
  | |- context [mul_scalar3 false ?a] =>
      match goal with Ha : rep a _ |- _ => let r := fresh "r" in let E := fresh "E" in let H := fresh "H" in
        destruct (r_3 _ _ Ha) as (r & E & H); rewrite E; clear E end
  | |- context [mul_scalar4 false ?a] =>
      match goal with Ha : rep a _ |- _ => let r := fresh "r" in let E := fresh "E" in let H := fresh "H" in
        destruct (r_4 _ _ Ha) as (r & E & H); rewrite E; clear E end
  end.
Lemma fa_eq : fa = fopp F3.
Proof. unfold fa, f1. rewrite <- !of_add, <- of_opp. reflexivity. Qed.
Notation sumX := (Formulas.sumX F f1 fadd fmul fsub fa fb).
Notation sumY := (Formulas.sumY F f1 fadd fmul fsub fa fb).
Notation sumZ := (Formulas.sumZ F f1 fadd fmul fa fb).
Ltac finish := eexists; split; [reflexivity|]; unfold rep3; cbn [jx jy jz];
  split; [|split]; (eapply rep_eq; [eassumption|]); unfold Formulas.sumX, Formulas.sumY, Formulas.sumZ; rewrite ?fa_eq; ring.

Lemma padd_formulas P Q X1 Y1 Z1 X2 Y2 Z2 : rep3 P X1 Y1 Z1 -> rep3 Q X2 Y2 Z2 ->
  exists R, padd false P Q = Some R /\ rep3 R (sumX X1 Y1 Z1 X2 Y2 Z2) (sumY X1 Y1 Z1 X2 Y2 Z2) (sumZ X1 Y1 Z1 X2 Y2 Z2).
Proof.
  intros (HX1 & HY1 & HZ1) (HX2 & HY2 & HZ2). pose proof r_B as HB. unfold padd. repeat one. finish.
Qed.
Lemma add_mixed_formulas P Q X1 Y1 Z1 X2 Y2 : rep3 P X1 Y1 Z1 -> rep2 Q X2 Y2 ->
  exists R, add_mixed false P Q = Some R /\ rep3 R (sumX X1 Y1 Z1 X2 Y2 f1) (sumY X1 Y1 Z1 X2 Y2 f1) (sumZ X1 Y1 Z1 X2 Y2 f1).
Proof.
  intros (HX1 & HY1 & HZ1) (HX2 & HY2). pose proof r_B as HB. unfold add_mixed. repeat one. finish.
Qed.
Lemma double_formulas P X Y Z : rep3 P X Y Z ->
  exists R, double false P = Some R /\
    rep3 R (sumX X Y Z X Y Z) (sumY X Y Z X Y Z) (fmul (fmul F2 (fmul F2 F2)) (fmul (fmul Y (fmul Y Y)) Z)).
Proof.
  intros (HX & HY & HZ). pose proof r_B as HB. unfold double. repeat one. finish.
Qed.

(** ** Sums of points *)
Notation proj := (Formulas.proj F f0 fmul).
Definition stands (P : projective) (A : point) : Prop := exists X Y Z, rep3 P X Y Z /\ proj X Y Z A.
(** Any limbs in range. *)
Definition ok (P : projective) : Prop := exists X Y Z, rep3 P X Y Z.
Lemma stands_ok P A : stands P A -> ok P.
Proof. intros (X & Y & Z & H & _). exists X, Y, Z. exact H. Qed.
Definition stands2 (Q : affine) (A : point) : Prop := exists x y, rep2 Q x y /\ A = Affine x y.
Lemma complete X1 Y1 Z1 X2 Y2 Z2 A B : valid A -> valid B -> proj X1 Y1 Z1 A -> proj X2 Y2 Z2 B ->
  proj (sumX X1 Y1 Z1 X2 Y2 Z2) (sumY X1 Y1 Z1 X2 Y2 Z2) (sumZ X1 Y1 Z1 X2 Y2 Z2) (plus A B).
Proof. exact (Formulas.complete F f0 f1 fadd fmul fsub fopp fdiv finv field_F dec fa fb two no_root X1 Y1 Z1 X2 Y2 Z2 A B). Qed.
Lemma padd_ok P Q : ok P -> ok Q -> exists R, padd false P Q = Some R /\ ok R.
Proof.
  intros (X1 & Y1 & Z1 & H1) (X2 & Y2 & Z2 & H2). destruct (padd_formulas _ _ _ _ _ _ _ _ H1 H2) as (R & E & H).
  exists R. split; [exact E|]. do 3 eexists. exact H.
Qed.
Lemma padd_sum P Q A B : valid A -> valid B -> stands P A -> stands Q B -> exists R, padd false P Q = Some R /\ stands R (plus A B).
Proof.
  intros VA VB (X1 & Y1 & Z1 & H1 & P1) (X2 & Y2 & Z2 & H2 & P2). destruct (padd_formulas _ _ _ _ _ _ _ _ H1 H2) as (R & E & H).
  exists R. split; [exact E|]. do 3 eexists. split; [exact H|]. apply complete; assumption.
Qed.
Lemma add_mixed_ok P Q x y : ok P -> rep2 Q x y -> exists R, add_mixed false P Q = Some R /\ ok R.
Proof.
  intros (X1 & Y1 & Z1 & H1) H2. destruct (add_mixed_formulas _ _ _ _ _ _ _ H1 H2) as (R & E & H).
  exists R. split; [exact E|]. do 3 eexists. exact H.
Qed.
Lemma proj_affine x y : proj x y f1 (Affine x y).
Proof. split; [exact f1_n0|]. split; ring. Qed.
Lemma add_mixed_sum P Q A B : valid A -> valid B -> stands P A -> stands2 Q B -> exists R, add_mixed false P Q = Some R /\ stands R (plus A B).
Proof.
  intros VA VB (X1 & Y1 & Z1 & H1 & P1) (x & y & H2 & ->). destruct (add_mixed_formulas _ _ _ _ _ _ _ H1 H2) as (R & E & H).
  exists R. split; [exact E|]. do 3 eexists. split; [exact H|]. apply complete; try assumption. apply proj_affine.
Qed.
Lemma double_ok P : ok P -> exists R, double false P = Some R /\ ok R.
Proof.
  intros (X1 & Y1 & Z1 & H1). destruct (double_formulas _ _ _ _ H1) as (R & E & H). exists R. split; [exact E|]. do 3 eexists. exact H.
Qed.
Lemma double_sum P A : valid A -> stands P A -> exists R, double false P = Some R /\ stands R (plus A A).
Proof.
  intros VA (X & Y & Z & H1 & P1). destruct (double_formulas _ _ _ _ H1) as (R & E & H). exists R. split; [exact E|].
  exists (sumX X Y Z X Y Z), (sumY X Y Z X Y Z), (sumZ X Y Z X Y Z). split; [|apply complete; assumption].
  destruct H as (RX & RY & RZ). split; [exact RX|]. split; [exact RY|]. apply (rep_eq _ _ _ RZ).
  destruct A as [|x y].
  - destruct P1 as (-> & -> & _). unfold Formulas.sumZ. ring.
  - destruct P1 as (_ & -> & ->). cbn [Group.valid] in VA. unfold Group.curve in VA. unfold Formulas.sumZ.
    transitivity (fmul (fmul F2 (fmul y (fmul Z (fmul Z (fmul Z Z))))) (fadd (fmul y y) (fmul F3 (fmul y y)))); [ring|].
    rewrite VA at 2. ring.
Qed.
Lemma of_affine_stands Q A : stands2 Q A -> stands (proj_of_affine Q) A.
Proof.
  intros (x & y & (Hx & Hy) & ->). exists x, y, f1. split; [|apply proj_affine]. split; [exact Hx|]. split; [exact Hy|]. exact r_ONE.
Qed.
Lemma zero_ok : ok proj_ZERO.
Proof. exists f0, f0, f0. split; [exact r_ZERO|]. split; exact r_ZERO. Qed.
Lemma assign_true P Q : assign P Q true = Q. Proof. destruct Q; reflexivity. Qed.
Lemma assign_false P Q : assign P Q false = P. Proof. destruct P; reflexivity. Qed.

(** ** Selection from tables *)
Lemma select_proj_spec table index : 0 <= index <= 15 -> 
  select_proj table index = if index =? 0 then proj_ZERO else nth (Z.to_nat index - 1) table proj_ZERO.
Proof.
  intros H. unfold select_proj.
  assert (forall l acc, (forall i, In i l -> Z.of_nat i + 1 <> index) ->
    fold_left (fun point i => assign point (nth i table proj_ZERO) (Z.of_nat i + 1 =? index)) l acc = acc) as Skip.
  { induction l as [|i l IH]; intros acc Hl; [reflexivity|]. cbn [fold_left].
    replace (Z.of_nat i + 1 =? index) with false by (symmetry; apply Z.eqb_neq, Hl; left; reflexivity). rewrite assign_false.
    apply IH. intros j Hj. apply Hl. right. exact Hj. }
  destruct (Z.eqb_spec index 0) as [-> | N]; [apply Skip; intros i _; lia|].
  assert (E : seq 0 15 = seq 0 (Z.to_nat index - 1) ++ (Z.to_nat index - 1)%nat :: seq (Z.to_nat index) (15 - Z.to_nat index)).
  { replace 15%nat with (Z.to_nat index - 1 + (1 + (15 - Z.to_nat index)))%nat at 1 by lia. rewrite seq_app. f_equal. cbn [Nat.add seq]. f_equal. f_equal. lia. }
  rewrite E, fold_left_app. rewrite (Skip (seq 0 (Z.to_nat index - 1))) by (intros i Hi; apply in_seq in Hi; lia). cbn [fold_left].
  replace (Z.of_nat (Z.to_nat index - 1) + 1 =? index) with true by (symmetry; apply Z.eqb_eq; lia). rewrite assign_true.
  apply Skip. intros i Hi. apply in_seq in Hi. lia.
Qed.
Lemma select_affine_spec t index : 0 <= index <= 15 ->
  select_affine t index = if index =? 0 then mkAff c_ZERO c_ZERO
                          else mkAff (fst (Table.PRECOMPUTED t (Z.to_nat index - 1))) (snd (Table.PRECOMPUTED t (Z.to_nat index - 1))).
Proof.
  intros H. unfold select_affine.
  set (f := fun (point : affine) i => _).
  assert (forall l acc, (forall i, In i l -> Z.of_nat i + 1 <> index) -> fold_left f l acc = acc) as Skip.
  { induction l as [|i l IH]; intros acc Hl; [reflexivity|]. cbn [fold_left]. unfold f at 2. cbv zeta.
    replace (Z.of_nat i + 1 =? index) with false by (symmetry; apply Z.eqb_neq, Hl; left; reflexivity). cbn [select].
    replace (mkAff (ax acc) (ay acc)) with acc by (destruct acc; reflexivity). apply IH. intros j Hj. apply Hl. right. exact Hj. }
  destruct (Z.eqb_spec index 0) as [-> | N]; [apply Skip; intros i _; lia|].
  assert (E : seq 0 15 = seq 0 (Z.to_nat index - 1) ++ (Z.to_nat index - 1)%nat :: seq (Z.to_nat index) (15 - Z.to_nat index)).
  { replace 15%nat with (Z.to_nat index - 1 + (1 + (15 - Z.to_nat index)))%nat at 1 by lia. rewrite seq_app. f_equal. cbn [Nat.add seq]. f_equal. f_equal. lia. }
  rewrite E, fold_left_app. rewrite (Skip (seq 0 (Z.to_nat index - 1))) by (intros i Hi; apply in_seq in Hi; lia). cbn [fold_left]. unfold f at 2. cbv zeta.
  replace (Z.of_nat (Z.to_nat index - 1) + 1 =? index) with true by (symmetry; apply Z.eqb_eq; lia). cbn [select].
  apply Skip. intros i Hi. apply in_seq in Hi. lia.
Qed.

(** ** One step of a multiplication: [k] is the multiple so far. *)
Definition tracks (n : projective) (inf : bool) (k : Z) (A : point) : Prop :=
  0 <= k /\ if inf then k = 0 /\ ok n else stands n (mult k A).
Lemma tracks_ok n inf k A : tracks n inf k A -> ok n.
Proof. intros (_ & H). destruct inf; [apply H|exact (stands_ok _ _ H)]. Qed.
Lemma tracks_double n inf k A : valid A -> tracks n inf k A -> exists n', double false n = Some n' /\ tracks n' inf (2 * k) A.
Proof.
  intros V (Hk & H). destruct inf.
  - destruct H as (-> & O). destruct (double_ok n O) as (R & E & OR). exists R. split; [exact E|]. split; [lia|]. split; [reflexivity|exact OR].
  - destruct (double_sum n (mult k A) (mult_valid k A V) H) as (R & E & SR). exists R. split; [exact E|]. split; [lia|]. rewrite mult_2 by assumption. exact SR.
Qed.
(** The same, when a step is over: without a point, the first two coordinates are zero. *)
Definition null (P : projective) : Prop := exists Z, rep3 P f0 f0 Z.
Lemma null_ok P : null P -> ok P.
Proof. intros (Z & H). exists f0, f0, Z. exact H. Qed.
Definition settled (n : projective) (inf : bool) (k : Z) (A : point) : Prop :=
  0 <= k /\ if inf then k = 0 /\ null n else stands n (mult k A).
Lemma settled_tracks n inf k A : settled n inf k A -> tracks n inf k A.
Proof. intros (Hk & H). split; [exact Hk|]. destruct inf; [|exact H]. destruct H as (-> & H). split; [reflexivity|]. exact (null_ok _ H). Qed.
Lemma tracks_step n inf k A q t (z : bool) j : tracks n inf k A -> 0 <= j -> (z = true -> j = 0 /\ null q) ->
  (z = false -> stands q (mult j A)) -> (inf = false -> z = false -> stands t (mult (k + j) A)) ->
  settled (assign (assign n q inf) t (negb (z || inf))) (inf && z) (k + j) A.
Proof.
  intros (Hk & H) Hj Hz Hq Ht. split; [lia|]. destruct inf; cbn [andb].
  - destruct H as (-> & On). rewrite assign_true, orb_true_r, assign_false. destruct z; [destruct (Hz eq_refl) as (-> & N); split; [reflexivity|exact N]|].
    exact (Hq eq_refl).
  - rewrite assign_false, orb_false_r. destruct z; cbn [negb].
    + destruct (Hz eq_refl) as (-> & _). rewrite assign_false, Z.add_0_r. exact H.
    + rewrite assign_true. exact (Ht eq_refl eq_refl).
Qed.
