(** The two multiplications compute multiples of a point. *)
From Verif Require Import Base Field.Model Curve.Fp Curve.Link Point.Model Point.Proofs.
From Verif Require Int.Model Int.Spec Int.Proofs Int.Proofs2 Field.Spec Point.Chain Point.Table.
From Coq Require Import Lia.
Open Scope Z_scope.
Ltac Zify.zify_post_hook ::= idtac.

(** ** The table of scalar_mul *)
Definition table_of (A : point) (l : list projective) : Prop :=
  forall j, (j < length l)%nat -> stands (nth j l proj_ZERO) (mult (Z.of_nat j + 1) A).
Lemma precomp_spec k s A l m : valid A -> stands2 s A -> table_of A l -> length l = (2 * m + 1)%nat ->
  exists l', precomp false k s l = Some l' /\ length l' = (2 * (m + k) + 1)%nat /\ table_of A l'.
Proof.
  intros V Ss. revert l m. induction k as [|k IH]; intros l m T L.
  { exists l. split; [reflexivity|]. split; [|exact T]. rewrite Nat.add_0_r. exact L. }
  cbn [precomp].
  assert (Hh : (length l / 2 = m)%nat). { rewrite L. rewrite (Nat.mul_comm 2), Nat.div_add_l by lia. change (1 / 2)%nat with 0%nat. lia. }
  rewrite Hh. assert (Hm : (m < length l)%nat) by lia.
  destruct (double_sum _ _ (mult_valid _ A V) (T m Hm)) as (d & Ed & Sd). rewrite Ed.
  rewrite <- mult_2 in Sd by (try assumption; lia).
  destruct (add_mixed_sum d s _ _ (mult_valid _ A V) V Sd Ss) as (e & Ee & Se). rewrite Ee.
  assert (Ea : plus (mult (2 * (Z.of_nat m + 1)) A) A = mult (2 * (Z.of_nat m + 1) + 1) A).
  { rewrite mult_add by (try assumption; lia). rewrite mult_1. reflexivity. }
  rewrite Ea in Se.
  destruct (IH (l ++ [d; e]) (S m)) as (l' & E' & L' & T').
  - intros j Hj. rewrite app_length in Hj. cbn [length] in Hj. destruct (Nat.lt_ge_cases j (length l)) as [C|C].
    + rewrite app_nth1 by exact C. exact (T j C).
    + rewrite app_nth2 by exact C. assert (j - length l = 0 \/ j - length l = 1)%nat as [D|D] by lia; rewrite D; cbn [nth].
      * replace (Z.of_nat j + 1) with (2 * (Z.of_nat m + 1)) by lia. exact Sd.
      * replace (Z.of_nat j + 1) with (2 * (Z.of_nat m + 1) + 1) by lia. exact Se.
  - rewrite app_length, L. cbn [length]. lia.
  - exists l'. split; [exact E'|]. split; [|exact T']. rewrite L'. lia.
Qed.

(** ** scalar_mul *)
Lemma double4_tracks n inf k A : valid A -> tracks n inf k A -> exists n', double4 false n = Some n' /\ tracks n' inf (16 * k) A.
Proof.
  intros V H0. unfold double4.
  destruct (tracks_double _ _ _ _ V H0) as (n1 & -> & H1). destruct (tracks_double _ _ _ _ V H1) as (n2 & -> & H2).
  destruct (tracks_double _ _ _ _ V H2) as (n3 & -> & H3). destruct (tracks_double _ _ _ _ V H3) as (n4 & -> & H4).
  exists n4. split; [reflexivity|]. replace (16 * k) with (2 * (2 * (2 * (2 * k)))) by ring. exact H4.
Qed.
Lemma null_zero : null proj_ZERO.
Proof. exists f0. split; [exact r_ZERO|]. split; exact r_ZERO. Qed.
Lemma div_pow v a b : 0 <= a -> 0 <= b -> v / 2 ^ (a + b) = v / 2 ^ a / 2 ^ b.
Proof.
  intros Ha Hb. rewrite Z.pow_add_r by assumption. pose proof (Z.pow_pos_nonneg 2 b eq_refl Hb). rewrite <- Z.div_div; [reflexivity| |assumption].
  apply Z.pow_nonzero; [discriminate|exact Ha].
Qed.
Lemma two_bits u : (u mod 2 = 0 \/ u mod 2 = 1).
Proof. pose proof (Z.mod_pos_bound u 2 eq_refl). lia. Qed.
(** Four bits are a digit of base 16. *)
Lemma window v e : v / 2 ^ e / 8 mod 2 * 8 + v / 2 ^ e / 4 mod 2 * 4 + v / 2 ^ e / 2 mod 2 * 2 + v / 2 ^ e mod 2 + 16 * (v / 2 ^ e / 16) = v / 2 ^ e.
Proof.
  set (u := v / 2 ^ e). clearbody u.
  assert (u / 4 = u / 2 / 2) as -> by (rewrite Z.div_div by lia; reflexivity).
  assert (u / 8 = u / 2 / 2 / 2) as -> by (rewrite !Z.div_div by lia; reflexivity).
  assert (u / 16 = u / 2 / 2 / 2 / 2) as -> by (rewrite !Z.div_div by lia; reflexivity).
  pose proof (Z.div_mod u 2 ltac:(lia)) as A1. pose proof (Z.div_mod (u / 2) 2 ltac:(lia)) as A2.
  pose proof (Z.div_mod (u / 2 / 2) 2 ltac:(lia)) as A3. pose proof (Z.div_mod (u / 2 / 2 / 2) 2 ltac:(lia)) as A4.
  generalize dependent (u / 2 / 2 / 2 / 2). generalize dependent (u / 2 / 2 / 2 mod 2). generalize dependent (u / 2 / 2 / 2).
  generalize dependent (u / 2 / 2 mod 2). generalize dependent (u / 2 / 2). generalize dependent (u / 2 mod 2).
  generalize dependent (u / 2). generalize dependent (u mod 2). intros. lia.
Qed.
Lemma index_hi b3 b2 b1 b0 : (b3 = 0 \/ b3 = 1) -> (b2 = 0 \/ b2 = 1) -> (b1 = 0 \/ b1 = 1) -> (b0 = 0 \/ b0 = 1) ->
  Z.lor (Z.lor (Z.lor (Z.shiftl b3 3) (Z.shiftl b2 2)) (Z.shiftl b1 1)) b0 = b3 * 8 + b2 * 4 + b1 * 2 + b0.
Proof. intros [-> | ->] [-> | ->] [-> | ->] [-> | ->]; reflexivity. Qed.

Lemma mul_windows_spec k table scalar A n inf : valid A -> length table = 15%nat -> table_of A table -> Int.Spec.digits scalar ->
  (k = 64%nat /\ inf = true /\ ok n /\ Int.Spec.value scalar / 2 ^ 256 = 0 \/
   (k < 64)%nat /\ settled n inf (Int.Spec.value scalar / 2 ^ (4 * Z.of_nat k)) A) ->
  exists n' inf', mul_windows false k table scalar n inf = Some n' /\ settled n' inf' (Int.Spec.value scalar) A.
Proof.
  intros V L T D. set (v := Int.Spec.value scalar). revert n inf. induction k as [|k IH]; intros n inf Hs.
  { exists n, inf. split; [reflexivity|]. destruct Hs as [(F & _)|(_ & H)]; [clear - F; discriminate F|].
    change (4 * Z.of_nat 0) with 0 in H. rewrite Z.pow_0_r, Z.div_1_r in H. exact H. }
  cbn [mul_windows]. set (i := (256 - 4 * S k)%nat).
  assert (exists n1, (if (i =? 0)%nat then Some n else double4 false n) = Some n1 /\ tracks n1 inf (16 * (v / 2 ^ (4 * Z.of_nat (S k)))) A) as (n1 & E1 & T1).
  { destruct Hs as [(E64 & -> & On & Ev)|(Hk & Hs)].
    - replace (i =? 0)%nat with true by (symmetry; apply Nat.eqb_eq; unfold i; clear - E64; lia). exists n. split; [reflexivity|].
      rewrite E64. change (4 * Z.of_nat 64) with 256. rewrite Ev. split; [reflexivity|]. split; [reflexivity|exact On].
    - replace (i =? 0)%nat with false by (symmetry; apply Nat.eqb_neq; unfold i; clear - Hk; lia).
      apply double4_tracks; [exact V|]. apply settled_tracks. exact Hs. }
  rewrite E1. clear E1. cbv zeta.
  rewrite !(Int.Proofs2.bit_spec scalar _ D). fold v.
  set (e := Z.of_nat (4 * k)).
  replace (255 - i)%nat with (4 * k + 3)%nat by (unfold i; clear - Hs; lia). replace (4 * k + 3 - 3)%nat with (4 * k)%nat by (clear; lia).
  replace (4 * k + 3 - 1)%nat with (4 * k + 2)%nat by (clear; lia). replace (4 * k + 3 - 2)%nat with (4 * k + 1)%nat by (clear; lia).
  assert (forall j, (0 < j)%nat -> v / 2 ^ Z.of_nat (4 * k + j) = v / 2 ^ e / 2 ^ Z.of_nat j) as Sh.
  { intros j Hj. rewrite Nat2Z.inj_add. apply div_pow; apply Nat2Z.is_nonneg. }
  rewrite (Sh 3%nat), (Sh 2%nat), (Sh 1%nat) by (clear; lia). fold e.
  change (2 ^ Z.of_nat 3) with 8. change (2 ^ Z.of_nat 2) with 4. change (2 ^ Z.of_nat 1) with 2.
  rewrite index_hi by apply two_bits.
  pose proof (window v e) as W.
  assert (E16 : v / 2 ^ e / 16 = v / 2 ^ (4 * Z.of_nat (S k))).
  { replace (4 * Z.of_nat (S k)) with (e + 4) by (unfold e; clear; lia). symmetry. apply (div_pow v e 4); [apply Nat2Z.is_nonneg|clear; lia]. }
  rewrite E16 in W.
  pose proof (two_bits (v / 2 ^ e / 8)) as B3. pose proof (two_bits (v / 2 ^ e / 4)) as B2. pose proof (two_bits (v / 2 ^ e / 2)) as B1. pose proof (two_bits (v / 2 ^ e)) as B0.
  set (idx := v / 2 ^ e / 8 mod 2 * 8 + v / 2 ^ e / 4 mod 2 * 4 + v / 2 ^ e / 2 mod 2 * 2 + v / 2 ^ e mod 2) in *.
  assert (RI : 0 <= idx <= 15).
  { unfold idx. clear - B0 B1 B2 B3. generalize dependent (v / 2 ^ e / 8 mod 2). generalize dependent (v / 2 ^ e / 4 mod 2).
    generalize dependent (v / 2 ^ e / 2 mod 2). generalize dependent (v / 2 ^ e mod 2). intros. lia. }
  clear B0 B1 B2 B3. clearbody idx. rewrite select_proj_spec by exact RI.
  set (q := if idx =? 0 then _ else _).
  assert (Hz : (idx =? 0) = true -> idx = 0 /\ null q).
  { intros Z0. unfold q. rewrite Z0. apply Z.eqb_eq in Z0. split; [exact Z0|exact null_zero]. }
  assert (Hq : (idx =? 0) = false -> stands q (mult idx A)).
  { intros Z0. unfold q. rewrite Z0. apply Z.eqb_neq in Z0. replace idx with (Z.of_nat (Z.to_nat idx - 1) + 1) at 2 by (clear - RI Z0; lia).
    apply T. rewrite L. clear - RI Z0. lia. }
  assert (Oq : ok q).
  { destruct (idx =? 0) eqn:Z0; [apply null_ok, Hz; reflexivity|]. eapply stands_ok. apply Hq. reflexivity. }
  assert (exists t, padd false n1 q = Some t /\ (inf = false -> (idx =? 0) = false -> stands t (mult (16 * (v / 2 ^ (4 * Z.of_nat (S k))) + idx) A))) as (t & Et & St).
  { destruct inf.
    - destruct (padd_ok n1 q (tracks_ok _ _ _ _ T1) Oq) as (t & E & _). exists t. split; [exact E|]. intros F. clear - F. discriminate F.
    - destruct (idx =? 0) eqn:Z0.
      + destruct (padd_ok n1 q (tracks_ok _ _ _ _ T1) Oq) as (t & E & _). exists t. split; [exact E|]. intros _ F. clear - F. discriminate F.
      + destruct T1 as (P1 & T1). destruct (padd_sum n1 q _ _ (mult_valid _ A V) (mult_valid _ A V) T1 (Hq eq_refl)) as (t & E & St). exists t. split; [exact E|].
        intros _ _. rewrite mult_add; [exact St|exact P1|apply RI|exact V]. }
  rewrite Et.
  pose proof (tracks_step n1 inf _ A q t (idx =? 0) idx T1 ltac:(apply RI) Hz Hq St) as Fin.
  replace (16 * (v / 2 ^ (4 * Z.of_nat (S k))) + idx) with (v / 2 ^ e) in Fin by (clear - W; lia).
  apply IH. right. split; [clear - Hs; lia|]. replace (4 * Z.of_nat k) with e by (unfold e; clear; lia). exact Fin.
Qed.

Lemma scalar_mul_spec s A scalar : valid A -> stands2 s A -> Int.Spec.is_int256 scalar ->
  exists n inf, scalar_mul false s scalar = Some n /\ settled n inf (Int.Spec.value scalar) A.
Proof.
  intros V Hs (L & D). unfold scalar_mul.
  destruct (precomp_spec 7 s A [proj_of_affine s] 0 V Hs) as (l & -> & Ll & T).
  { intros j Hj. destruct j; [|cbn in Hj; clear - Hj; lia]. cbn [nth]. change (Z.of_nat 0 + 1) with 1. rewrite mult_1. apply of_affine_stands. exact Hs. }
  { reflexivity. }
  apply mul_windows_spec; [exact V|exact Ll|exact T|exact D|]. left. split; [reflexivity|]. split; [reflexivity|]. split; [exact zero_ok|].
  apply Z.div_small. pose proof (Int.Proofs.value_bound _ D) as B. rewrite L in B. exact B.
Qed.

(** ** scalar_base_mul *)
Lemma digit_bit x b r : (r < 32)%nat -> Int.Model.bit x (32 * b + r) = (nth b x 0 / 2 ^ Z.of_nat r) mod 2.
Proof.
  intros Hr. unfold Int.Model.bit.
  assert ((32 * b + r) / 32 = b)%nat as ->. { rewrite (Nat.mul_comm 32), Nat.div_add_l by lia. rewrite Nat.div_small by exact Hr. lia. }
  assert ((32 * b + r) mod 32 = r)%nat as ->. { rewrite Nat.add_comm, (Nat.mul_comm 32), Nat.mod_add by lia. apply Nat.mod_small, Hr. }
  rewrite (Z.land_ones _ 1) by lia. rewrite Z.shiftr_div_pow2 by lia. reflexivity.
Qed.
Lemma index_lo t b0 b1 b2 b3 : (t < 2)%nat -> (b0 = 0 \/ b0 = 1) -> (b1 = 0 \/ b1 = 1) -> (b2 = 0 \/ b2 = 1) -> (b3 = 0 \/ b3 = 1) ->
  let index := Z.lor (Z.lor (Z.lor b0 (Z.shiftl b1 1)) (Z.shiftl b2 2)) (Z.shiftl b3 3) in
  0 <= index <= 15 /\
  Chain.entry t (Z.to_nat index) = 2 ^ (32 * Z.of_nat t) * (b0 + 2 ^ 64 * (b1 + 2 ^ 64 * (b2 + 2 ^ 64 * b3))).
Proof.
  intros Ht. assert (t = 0 \/ t = 1)%nat as [-> | ->] by lia;
  intros [-> | ->] [-> | ->] [-> | ->] [-> | ->]; (split; [split; intros X; discriminate X|reflexivity]).
Qed.
Definition column (t r : nat) (d : list Z) : Z :=
  let b j := (nth j d 0 / 2 ^ Z.of_nat r) mod 2 in
  2 ^ (32 * Z.of_nat t) * (b t + 2 ^ 64 * (b (t + 2)%nat + 2 ^ 64 * (b (t + 4)%nat + 2 ^ 64 * b (t + 6)%nat))).
Lemma entry_nonneg t e : 0 <= Chain.entry t e.
Proof.
  unfold Chain.entry. assert (forall k, 0 <= (if Nat.testbit e k then 2 ^ (64 * Z.of_nat k + 32 * Z.of_nat t) else 0)) as H.
  { intros k. destruct (Nat.testbit e k); [apply Z.pow_nonneg|]; lia. }
  pose proof (H 0%nat). pose proof (H 1%nat). pose proof (H 2%nat). pose proof (H 3%nat). cbv zeta. lia.
Qed.
Lemma select_entry t index : (t < 2)%nat -> 0 <= index <= 15 -> index <> 0 -> stands2 (select_affine t index) (mult (Chain.entry t (Z.to_nat index)) G).
Proof.
  intros Ht Hi N. rewrite select_affine_spec by exact Hi. apply Z.eqb_neq in N. rewrite N. apply Z.eqb_neq in N.
  destruct (Chain.table_entries t (Z.to_nat index) Ht ltac:(lia)) as (x & y & E & Rx & Ry). exists x, y. split; [|exact E]. split; [exact Rx|exact Ry].
Qed.
Lemma base_step t r scalar n inf k : (t < 2)%nat -> (r < 32)%nat -> tracks n inf k G ->
  exists n' inf', (forall ts, base_tables false (t :: ts) (31 - r) scalar n inf = base_tables false ts (31 - r) scalar n' inf') /\
    settled n' inf' (k + column t r scalar) G.
Proof.
  intros Ht Hr T. cbn [base_tables].
  replace (31 - (31 - r) + 32 * t)%nat with (32 * t + r)%nat by (clear - Hr; lia).
  replace (95 - (31 - r) + 32 * t)%nat with (32 * (t + 2) + r)%nat by (clear - Hr; lia).
  replace (159 - (31 - r) + 32 * t)%nat with (32 * (t + 4) + r)%nat by (clear - Hr; lia).
  replace (223 - (31 - r) + 32 * t)%nat with (32 * (t + 6) + r)%nat by (clear - Hr; lia).
  rewrite !digit_bit by exact Hr. cbv zeta.
  destruct (index_lo t _ _ _ _ Ht (two_bits (nth t scalar 0 / 2 ^ Z.of_nat r)) (two_bits (nth (t + 2) scalar 0 / 2 ^ Z.of_nat r))
              (two_bits (nth (t + 4) scalar 0 / 2 ^ Z.of_nat r)) (two_bits (nth (t + 6) scalar 0 / 2 ^ Z.of_nat r))) as (RI & EI).
  change (2 ^ (32 * Z.of_nat t) * _) with (column t r scalar) in EI. rewrite <- EI. clear EI.
  set (index := Z.lor _ _) in *. clearbody index. set (q := select_affine t index).
  pose proof (entry_nonneg t (Z.to_nat index)) as NN.
  assert (Hz : (index =? 0) = true -> Chain.entry t (Z.to_nat index) = 0 /\ null (proj_of_affine q)).
  { intros Z0. apply Z.eqb_eq in Z0. rewrite Z0. split; [reflexivity|]. unfold q. rewrite Z0, select_affine_spec by (clear; lia). cbn [Z.eqb].
    exists f1. split; [exact r_ZERO|]. split; [exact r_ZERO|exact r_ONE]. }
  assert (Hq : (index =? 0) = false -> stands2 q (mult (Chain.entry t (Z.to_nat index)) G)).
  { intros Z0. apply Z.eqb_neq in Z0. apply select_entry; assumption. }
  assert (exists x y, rep2 q x y) as (x & y & Rq).
  { destruct (index =? 0) eqn:Z0.
    - apply Z.eqb_eq in Z0. unfold q. rewrite Z0, select_affine_spec by (clear; lia). exists f0, f0. split; exact r_ZERO.
    - destruct (Hq eq_refl) as (x & y & R & _). exists x, y. exact R. }
  assert (exists u, add_mixed false n q = Some u /\ (inf = false -> (index =? 0) = false -> stands u (mult (k + Chain.entry t (Z.to_nat index)) G))) as (u & Eu & Su).
  { destruct inf.
    - destruct (add_mixed_ok n q x y (tracks_ok _ _ _ _ T) Rq) as (u & E & _). exists u. split; [exact E|]. intros F. clear - F. discriminate F.
    - destruct (index =? 0) eqn:Z0.
      + destruct (add_mixed_ok n q x y (tracks_ok _ _ _ _ T) Rq) as (u & E & _). exists u. split; [exact E|]. intros _ F. clear - F. discriminate F.
      + destruct T as (P1 & T). destruct (add_mixed_sum n q _ _ (mult_valid _ G G_valid) (mult_valid _ G G_valid) T (Hq eq_refl)) as (u & E & Su). exists u. split; [exact E|].
        intros _ _. rewrite mult_add; [exact Su|exact P1|exact NN|exact G_valid]. }
  rewrite Eu.
  exists (assign (assign n (proj_of_affine q) inf) u (negb ((index =? 0) || inf))), (inf && (index =? 0)).
  split; [intros ts; reflexivity|]. apply tracks_step; [exact T|exact NN|exact Hz| |exact Su].
  intros Z0. apply of_affine_stands. exact (Hq Z0).
Qed.
(** What the digits shifted by [r] bits stand for. *)
Definition high (r : nat) (d : list Z) : Z := Int.Spec.value (map (fun x => x / 2 ^ Z.of_nat r) d).
Lemma high_step r d : length d = 8%nat -> 2 * high (S r) d + column 0 r d + column 1 r d = high r d.
Proof.
  intros L. do 8 (destruct d as [|? d]; [clear - L; discriminate L|]). destruct d; [|clear - L; discriminate L].
  unfold high, column. cbn [map Int.Spec.value nth Nat.add].
  assert (forall x, x / 2 ^ Z.of_nat r = 2 * (x / 2 ^ Z.of_nat (S r)) + (x / 2 ^ Z.of_nat r) mod 2) as H.
  { intros x. replace (Z.of_nat (S r)) with (Z.of_nat r + 1) by lia. rewrite div_pow by lia. change (2 ^ 1) with 2. apply Z.div_mod. discriminate. }
  change (2 ^ (32 * Z.of_nat 0)) with 1. change (2 ^ (32 * Z.of_nat 1)) with (2 ^ 32). change (2 ^ 64) with (2 ^ 32 * 2 ^ 32).
  generalize (2 ^ 32). intros B.
  repeat match goal with |- context [(?x / 2 ^ Z.of_nat r) mod 2] => is_var x;
    let q := fresh "q" in let m := fresh "m" in let E := fresh "E" in
    pose proof (H x) as E; set (q := x / 2 ^ Z.of_nat (S r)) in *; set (m := (x / 2 ^ Z.of_nat r) mod 2) in *; clearbody q m; rewrite E; clear E end.
  ring.
Qed.
Lemma high_32 d : Int.Spec.digits d -> high 32 d = 0.
Proof.
  unfold high. induction 1 as [|x l Hx Hl IH]; [reflexivity|]. cbn [map Int.Spec.value]. rewrite IH. rewrite Z.div_small by exact Hx. reflexivity.
Qed.
Lemma high_0 d : high 0 d = Int.Spec.value d.
Proof.
  unfold high. induction d as [|x l IH]; [reflexivity|]. cbn [map Int.Spec.value]. rewrite IH. change (2 ^ Z.of_nat 0) with 1. rewrite Z.div_1_r. reflexivity.
Qed.
Lemma base_rounds_spec k scalar n inf : Int.Spec.is_int256 scalar -> 
  (k = 32%nat /\ inf = true /\ ok n \/ (k < 32)%nat /\ settled n inf (high k scalar) G) ->
  exists n' inf', base_rounds false k scalar n inf = Some n' /\ settled n' inf' (Int.Spec.value scalar) G.
Proof.
  intros (L & D). revert n inf. induction k as [|k IH]; intros n inf Hs.
  { exists n, inf. split; [reflexivity|]. destruct Hs as [(F & _)|(_ & H)]; [clear - F; discriminate F|]. rewrite high_0 in H. exact H. }
  cbn [base_rounds].
  assert (exists n1, (if (32 - S k =? 0)%nat then Some n else double false n) = Some n1 /\ tracks n1 inf (2 * high (S k) scalar) G) as (n1 & E1 & T1).
  { destruct Hs as [(E32 & -> & On)|(Hk & Hs)].
    - rewrite E32. change (32 - 32 =? 0)%nat with true. exists n. split; [reflexivity|]. rewrite high_32 by exact D.
      split; [clear; lia|]. split; [reflexivity|exact On].
    - replace (32 - S k =? 0)%nat with false by (symmetry; apply Nat.eqb_neq; clear - Hk; lia).
      apply tracks_double; [exact G_valid|]. apply settled_tracks. exact Hs. }
  rewrite E1. clear E1.
  assert (Hk : (k < 32)%nat) by (clear - Hs; lia).
  replace (32 - S k)%nat with (31 - k)%nat by (clear; lia).
  destruct (base_step 0 k scalar n1 inf _ ltac:(clear; lia) Hk T1) as (n2 & inf2 & E2 & S2).
  destruct (base_step 1 k scalar n2 inf2 _ ltac:(clear; lia) Hk (settled_tracks _ _ _ _ S2)) as (n3 & inf3 & E3 & S3).
  rewrite E2, E3. cbn [base_tables]. apply IH. right. split; [exact Hk|]. rewrite high_step in S3 by exact L. exact S3.
Qed.
Lemma scalar_base_mul_spec scalar : Int.Spec.is_int256 scalar ->
  exists n inf, scalar_base_mul false scalar = Some n /\ settled n inf (Int.Spec.value scalar) G.
Proof. intros H. apply base_rounds_spec; [exact H|]. left. split; [reflexivity|]. split; [reflexivity|exact zero_ok]. Qed.
