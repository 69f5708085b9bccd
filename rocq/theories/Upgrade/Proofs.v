(** Proofs about upgrades and the bootloader. *)
From Verif Require Import Base Facts Cbor.Model Ctap.Crypto Ctap.Types Ctap.Machine Ctap.Parse Upgrade.Model Upgrade.Spec.
Local Open Scope N_scope.

Lemma bytes_eqb_eq a b : bytes_eqb a b = true <-> a = b.
Proof. unfold bytes_eqb. rewrite <- (lexcmp_eq a b). destruct (lexcmp a b); split; congruence. Qed.

(** ** Alignment *)
Lemma pow2_form n : is_power_of_two n = true -> exists k, n = 2 ^ k /\ 0 < n.
Proof.
  unfold is_power_of_two. intro H. apply andb_true_iff in H as [H1 H2]. apply N.eqb_eq in H2.
  exists (N.log2 n). split; [exact H2 | ]. destruct (N.eqb_spec n 0); [discriminate | lia].
Qed.
Lemma aligned_mod n a : is_power_of_two n = true -> is_aligned n a = true -> a mod n = 0.
Proof.
  intros H A. apply pow2_form in H as (k & -> & _). unfold is_aligned in A. apply N.eqb_eq in A.
  rewrite <- N.land_ones. unfold N.ones. rewrite N.shiftl_1_l, <- N.sub_1_r. exact A.
Qed.

Lemma nth_firstn_lt {A} (d : A) n : forall l i, (i < n)%nat -> nth i (firstn n l) d = nth i l d.
Proof. induction n as [ | n IH]; intros l i H; [lia | ]. destruct l as [ | x l]; [now destruct i | ]. destruct i; cbn; [reflexivity | apply IH; lia]. Qed.
Lemma nth_skipn_add {A} (d : A) k : forall l i, nth i (skipn k l) d = nth (k + i) l d.
Proof. induction k as [ | k IH]; intros l i; [reflexivity | ]. destruct l as [ | x l]; [now destruct i | ]. cbn. apply IH. Qed.

(** ** Reading *)
Lemma read_length m a n : length (read m a n) = n.
Proof. revert a. induction n; intro a; cbn; auto. Qed.
Lemma read_nth n : forall m a i, (i < n)%nat -> nth i (read m a n) 0 = m (a + N.of_nat i).
Proof.
  induction n as [ | n IH]; intros m a i H; [lia | ]. cbn [read]. destruct i as [ | i]; cbn [nth].
  - now rewrite N.add_0_r.
  - rewrite IH by lia. f_equal. lia.
Qed.
Lemma read_ext n : forall m m' a, (forall i, (i < n)%nat -> m (a + N.of_nat i) = m' (a + N.of_nat i)) -> read m a n = read m' a n.
Proof.
  induction n as [ | n IH]; intros m m' a H; [reflexivity | ]. cbn [read]. f_equal.
  - specialize (H 0%nat ltac:(lia)). now rewrite N.add_0_r in H.
  - apply IH. intros i Hi. specialize (H (S i) ltac:(lia)). replace (a + 1 + N.of_nat i) with (a + N.of_nat (S i)) by lia. exact H.
Qed.
Lemma read_app n : forall k m a, read m a (n + k) = read m a n ++ read m (a + N.of_nat n) k.
Proof.
  induction n as [ | n IH]; intros k m a; cbn [Nat.add read app]; [now rewrite N.add_0_r | ].
  f_equal. rewrite IH. replace (a + 1 + N.of_nat n) with (a + N.of_nat (S n)) by lia. reflexivity.
Qed.
Lemma read_holds m a d : read m a (length d) = d <-> holds m a d.
Proof.
  split.
  - intros E i Hi. rewrite <- (read_nth (length d)) by exact Hi. now rewrite E.
  - intro H. apply nth_ext with (d := 0) (d' := 0); [apply read_length | ]. intros i Hi. rewrite read_length in Hi.
    rewrite read_nth by exact Hi. now apply H.
Qed.

Lemma holds_eq m a d d' : length d = length d' -> holds m a d -> holds m a d' -> d = d'.
Proof. intros E H H'. apply read_holds in H, H'. now rewrite <- H, <- H', E. Qed.

(** ** Ranges *)
Lemma inside_iff a s n : inside a s n = true <-> within a s n.
Proof. unfold inside, within. lia. Qed.

Lemma append_in r o r' a : range_append r o = (r', true) ->
  within a (mr_start r') (mr_length r') -> within a (mr_start r) (mr_length r) \/ within a (mr_start o) (mr_length o).
Proof.
  unfold range_append, is_empty, within. intros H W.
  destruct (N.eqb_spec (mr_length r) 0); [injection H as <-; auto | ].
  destruct (N.eqb_spec (mr_length o) 0); [discriminate | ].
  destruct (N.leb_spec (mr_start o) (mr_start r)); [discriminate | ].
  destruct (N.eqb_spec (mr_length r) (mr_start o - mr_start r)); [ | discriminate]. cbn [negb] in H.
  destruct (_ <? USIZE); [ | discriminate]. injection H as <-. cbn in W. lia.
Qed.
Lemma append_aligned ps r o r' : 0 < ps -> range_append r o = (r', true) ->
  mr_start r mod ps = 0 -> mr_length r mod ps = 0 -> mr_start o mod ps = 0 -> mr_length o mod ps = 0 ->
  mr_start r' mod ps = 0 /\ mr_length r' mod ps = 0.
Proof.
  unfold range_append. intros P H A B C D. destruct (is_empty r); [injection H as <-; auto | ].
  destruct (is_empty o); [discriminate | ]. destruct (_ <=? _); [discriminate | ].
  destruct (negb _); [discriminate | ]. destruct (_ <? _); [ | discriminate]. injection H as <-. cbn.
  split; [exact A | ]. rewrite N.add_mod, B, D by lia. rewrite N.add_0_l. apply N.mod_0_l. lia.
Qed.

Lemma scan_ok ps : is_power_of_two ps = true -> forall locs meta fw meta' fw',
  scan ps locs meta fw = Ok (meta', fw') ->
  mr_start fw mod ps = 0 -> mr_length fw mod ps = 0 ->
  mr_start fw' mod ps = 0 /\ mr_length fw' mod ps = 0 /\
  (forall a, within a (mr_start fw') (mr_length fw') -> within a (mr_start fw) (mr_length fw) \/ listed locs a) /\
  (meta' = true -> meta = true \/ exists l, In l locs /\ l_type l = Partition /\ l_ptr l = METADATA_ADDRESS).
Proof.
  intro P. assert (P0 : 0 < ps) by (apply pow2_form in P as (k & _ & H); exact H).
  assert (Up : forall l locs a, listed locs a -> listed (l :: locs) a).
  { intros l locs a (l' & H1 & H2). exists l'. split; [now right | exact H2]. }
  induction locs as [ | l locs IH]; intros meta fw meta' fw' H A B; cbn [scan] in H.
  - injection H as -> ->. split; [exact A | ]. split; [exact B | ]. split; [auto | auto].
  - assert (Upx : forall Q : N -> Prop, (forall a, Q a -> within a (mr_start fw) (mr_length fw) \/ listed locs a) ->
        forall a, Q a -> within a (mr_start fw) (mr_length fw) \/ listed (l :: locs) a).
    { intros Q HQ a Ha. destruct (HQ a Ha); auto. }
    destruct (l_type l) eqn:T.
    + destruct (IH _ _ _ _ H A B) as (H1 & H2 & H3 & H4). split; [exact H1 | ]. split; [exact H2 | ]. split.
      * intros a Ha. destruct (H3 a Ha); auto.
      * intro M. destruct (H4 M) as [ | (l' & L1 & L2)]; [auto | right; exists l'; split; [now right | exact L2]].
    + destruct (negb (is_aligned ps (l_ptr l)) || negb (is_aligned ps (l_len l))) eqn:Al; [discriminate | ].
      apply orb_false_iff in Al as [Al1 Al2]. apply negb_false_iff in Al1, Al2.
      apply aligned_mod in Al1, Al2; auto.
      destruct (N.eqb_spec (l_ptr l) METADATA_ADDRESS) as [Em | Em].
      * destruct (IH _ _ _ _ H A B) as (H1 & H2 & H3 & H4). split; [exact H1 | ]. split; [exact H2 | ]. split.
        -- intros a Ha. destruct (H3 a Ha); auto.
        -- intros _. right. exists l. split; [now left | auto].
      * destruct (range_append fw _) as [fw1 b] eqn:Ap. destruct b; [ | discriminate].
        destruct (append_aligned ps _ _ _ P0 Ap A B Al1 Al2) as [A1 B1].
        destruct (IH _ _ _ _ H A1 B1) as (H1 & H2 & H3 & H4). split; [exact H1 | ]. split; [exact H2 | ]. split.
        -- intros a Ha. destruct (H3 a Ha) as [W | W]; [ | auto].
           apply (append_in _ _ _ _ Ap) in W as [W | W]; [auto | ]. right. exists l. split; [now left | ]. auto.
        -- intro M. destruct (H4 M) as [ | (l' & L1 & L2)]; [auto | right; exists l'; split; [now right | exact L2]].
Qed.

(** ** What the constructor establishes *)
Record layout (locs : list location) (u : upgrade) (fw : mod_range) : Prop := mkLayout {
  la_ps : 0 < u_page_size u;
  la_meta : mr_length (u_metadata u) = u_page_size u;
  la_meta_al : mr_start (u_metadata u) mod u_page_size u = 0;
  la_run_len : mr_length (u_running u) = u_page_size u;
  la_fw : mr_length fw <> 0;
  la_fw_al : mr_start fw mod u_page_size u = 0 /\ mr_length fw mod u_page_size u = 0;
  la_after : mr_start (u_metadata u) + u_page_size u <= mr_start fw;
  la_listed : forall a, within a (mr_start fw) (mr_length fw) -> listed locs a;
  la_parts : u_partition u = [u_metadata u; fw] \/
             (mr_start fw = mr_start (u_metadata u) + u_page_size u /\
              u_partition u = [mkRange (mr_start (u_metadata u)) (u_page_size u + mr_length fw)]);
  la_on : (mr_start fw = 0x60000 /\ u_identifier u = 0x60000 /\ mr_start (u_metadata u) = 0x4000 + u_page_size u /\ mr_start (u_running u) = 0x4000) \/
          (mr_start fw <> 0x60000 /\ u_identifier u = 0x20000 /\ mr_start (u_metadata u) = 0x4000 /\ mr_start (u_running u) = 0x4000 + u_page_size u)
}.

Lemma new_layout ps locs u : upgrade_new ps locs = Ok u -> u_page_size u = ps /\ exists fw, layout locs u fw.
Proof.
  unfold upgrade_new. destruct (is_power_of_two ps) eqn:P; [cbn [negb] | discriminate].
  assert (P0 : 0 < ps) by (pose proof P as P'; apply pow2_form in P' as (k & _ & H); exact H).
  destruct (scan ps locs false range_empty) as [[meta fw] | ] eqn:S; [cbn [rbind] | discriminate].
  destruct (scan_ok _ P _ _ _ _ _ S (N.mod_0_l ps ltac:(lia)) (N.mod_0_l ps ltac:(lia))) as (A & B & C & D).
  destruct (is_empty fw) eqn:Em; [discriminate | ]. destruct meta; [cbn [negb orb] | discriminate].
  cbn [part_append negb].
  assert (Al : METADATA_ADDRESS mod ps = 0).
  { destruct (D eq_refl) as [ | (l & L1 & L2 & L3)]; [discriminate | ].
    clear - S L1 L2 L3 P. revert S. generalize false range_empty true fw. induction locs as [ | l' locs IH]; [destruct L1 | ].
    intros b r b' r' S. cbn [scan] in S. destruct L1 as [-> | L1].
    - rewrite L2 in S. destruct (is_aligned ps (l_ptr l)) eqn:E; [ | discriminate]. rewrite L3 in E. now apply aligned_mod.
    - destruct (l_type l'); [eapply IH; eauto | ]. destruct (_ || _); [discriminate | ].
      destruct (_ =? _); [eapply IH; eauto | ]. destruct (range_append r _) as [? []]; [eapply IH; eauto | discriminate]. }
  set (first := mkRange METADATA_ADDRESS ps). set (second := mkRange (METADATA_ADDRESS + ps) ps).
  destruct (N.eqb_spec (mr_start fw) PARTITION_ADDRESS_B) as [Eb | Eb].
  - destruct ((mr_start fw <=? mr_start second) || (mr_start fw - mr_start second <? mr_length second)) eqn:Cl; [discriminate | ].
    apply orb_false_iff in Cl as [C1 C2].
    assert (Q : exists b p, range_append second fw = (p, b) /\ (b = true -> mr_start fw = mr_start second + ps /\ p = mkRange (mr_start second) (ps + mr_length fw))).
    { unfold range_append. unfold is_empty in Em |- *. subst second. cbn [mr_start mr_length] in *. rewrite Em.
      destruct (N.eqb_spec ps 0); [lia | ]. destruct (N.leb_spec (mr_start fw) (METADATA_ADDRESS + ps)); [do 2 eexists; split; [reflexivity | discriminate] | ].
      destruct (N.eqb_spec ps (mr_start fw - (METADATA_ADDRESS + ps))); cbn [negb]; [ | do 2 eexists; split; [reflexivity | discriminate]].
      destruct (_ <? USIZE); do 2 eexists; (split; [reflexivity | ]); [ | discriminate]. intros _. split; [lia | reflexivity]. }
    destruct Q as (b & p & Q1 & Q2). rewrite Q1.
    destruct b; cbn [negb]; intro H; injection H as <-; (split; [reflexivity | ]); exists fw; split; cbn [u_page_size u_metadata u_running u_partition u_identifier]; auto.
    all: try (subst first second; unfold is_empty, METADATA_ADDRESS, PARTITION_ADDRESS_B in *; cbn [mr_start mr_length] in *; lia).
    all: try (subst second; cbn [mr_start]; rewrite N.add_mod, Al, N.mod_same by lia; apply N.mod_0_l; lia).
    all: try (intros a Ha; destruct (C a Ha) as [W | W]; [unfold within in W; cbn in W; lia | exact W]).
  - destruct ((mr_start fw <=? mr_start first) || (mr_start fw - mr_start first <? mr_length first)) eqn:Cl; [discriminate | ].
    apply orb_false_iff in Cl as [C1 C2].
    assert (Q : exists b p, range_append first fw = (p, b) /\ (b = true -> mr_start fw = mr_start first + ps /\ p = mkRange (mr_start first) (ps + mr_length fw))).
    { unfold range_append. unfold is_empty in Em |- *. subst first. cbn [mr_start mr_length] in *. rewrite Em.
      destruct (N.eqb_spec ps 0); [lia | ]. destruct (N.leb_spec (mr_start fw) (METADATA_ADDRESS)); [do 2 eexists; split; [reflexivity | discriminate] | ].
      destruct (N.eqb_spec ps (mr_start fw - (METADATA_ADDRESS))); cbn [negb]; [ | do 2 eexists; split; [reflexivity | discriminate]].
      destruct (_ <? USIZE); do 2 eexists; (split; [reflexivity | ]); [ | discriminate]. intros _. split; [lia | reflexivity]. }
    destruct Q as (b & p & Q1 & Q2). rewrite Q1.
    destruct b; cbn [negb]; intro H; injection H as <-; (split; [reflexivity | ]); exists fw; split; cbn [u_page_size u_metadata u_running u_partition u_identifier]; auto.
    all: try (subst first second; unfold is_empty, METADATA_ADDRESS, PARTITION_ADDRESS_B, PARTITION_ADDRESS_A in *; cbn [mr_start mr_length] in *; lia).
    all: try (intros a Ha; destruct (C a Ha) as [W | W]; [unfold within in W; cbn in W; lia | exact W]).
    destruct (Q2 eq_refl) as [Q3 ->]. now right.
Qed.

(** ** Pages in a range *)
Lemma from_step_in k : forall a m x, In x (from_step a m k) <-> exists i, (i < k)%nat /\ x = a + N.of_nat i * m.
Proof.
  induction k as [ | k IH]; intros a m x; cbn [from_step In]; [split; [tauto | intros (i & H & _); lia] | ].
  rewrite IH. split.
  - intros [<- | (i & Hi & ->)]; [exists 0%nat; split; [lia | lia] | exists (S i); split; [lia | lia]].
  - intros ([ | i] & Hi & ->); [left; lia | right; exists i; split; [lia | lia]].
Qed.
Lemma iter_in r m a : 0 < m -> In a (aligned_iter r m) -> within a (mr_start r) (mr_length r) /\ a mod m = 0.
Proof.
  intros P H. unfold aligned_iter in H. apply from_step_in in H as (i & Hi & ->).
  set (sk := (m - mr_start r mod m) mod m) in *. set (n := N.min (mr_length r) (USIZE - mr_start r)) in *.
  assert (Hm : (mr_start r + sk) mod m = 0).
  { subst sk. rewrite N.add_mod_idemp_r by lia.
    pose proof (N.div_mod (mr_start r) m ltac:(lia)) as D. pose proof (N.mod_lt (mr_start r) m ltac:(lia)).
    replace (mr_start r + (m - mr_start r mod m)) with ((mr_start r / m + 1) * m) by nia. apply N.mod_mul. lia. }
  split; [ | rewrite N.mod_add by lia; exact Hm].
  assert (Hi' : N.of_nat i < (n - sk + (m - 1)) / m) by lia.
  assert (B : N.of_nat i * m < n - sk).
  { pose proof (N.mul_div_le (n - sk + (m - 1)) m ltac:(lia)).
    assert (m * (N.of_nat i + 1) <= m * ((n - sk + (m - 1)) / m)) by (apply N.mul_le_mono_l; lia). lia. }
  unfold within. subst n. lia.
Qed.
Lemma iter_all r m a : 0 < m -> mr_start r + mr_length r <= USIZE ->
  within a (mr_start r) (mr_length r) -> a mod m = 0 -> In a (aligned_iter r m).
Proof.
  intros P U W A. unfold aligned_iter. apply from_step_in. unfold within in W.
  pose proof (N.div_mod (mr_start r) m ltac:(lia)) as D. pose proof (N.mod_lt (mr_start r) m ltac:(lia)) as L.
  pose proof (N.div_mod a m ltac:(lia)) as Da. rewrite A, N.add_0_r in Da.
  set (q := mr_start r / m) in *. set (rr := mr_start r mod m) in *. set (k := a / m) in *.
  replace (N.min (mr_length r) (USIZE - mr_start r)) with (mr_length r) by lia.
  destruct (N.eq_dec rr 0) as [E | E].
  - rewrite E, N.sub_0_r, N.mod_same, N.sub_0_r by lia. exists (N.to_nat (k - q)). rewrite N2Nat.id.
    assert (q <= k) by nia. split; [ | nia].
    assert (k - q < (mr_length r + (m - 1)) / m); [ | lia].
    apply N.lt_le_trans with (k - q + 1); [lia | ]. apply N.div_le_lower_bound; [lia | ]. nia.
  - rewrite N.mod_small by lia. exists (N.to_nat (k - q - 1)). rewrite N2Nat.id.
    assert (q < k) by nia. split; [ | nia].
    assert (k - q - 1 < (mr_length r - (m - rr) + (m - 1)) / m); [ | lia].
    apply N.lt_le_trans with (k - q - 1 + 1); [lia | ]. apply N.div_le_lower_bound; [lia | ]. nia.
Qed.

Lemma page_in p s l a x : 0 < p -> s mod p = 0 -> l mod p = 0 -> a mod p = 0 -> within a s l -> within x a p -> within x s l.
Proof.
  unfold within. intros P Hs Hl Ha W X.
  pose proof (N.div_mod s p ltac:(lia)) as D1. pose proof (N.div_mod l p ltac:(lia)) as D2. pose proof (N.div_mod a p ltac:(lia)) as D3.
  rewrite Hs in D1. rewrite Hl in D2. rewrite Ha in D3. clear Hs Hl Ha. revert D1 D2 D3. generalize (s / p) (l / p) (a / p). intros i j k -> -> ->.
  rewrite !N.add_0_r in *. assert (i <= k < i + j) by nia. nia.
Qed.

(** ** Driver calls *)
Definition outside (x : N) (pages : list N) (ps : N) : Prop := forall a, In a pages -> ~ within x a ps.
Lemma erase_page_frame f m a len m' ok x : erase_page f m a len = (m', ok) -> ~ within x a len -> m' x = m x.
Proof.
  intros H W. assert (inside x a len = false) by (destruct (inside x a len) eqn:E; [apply inside_iff in E; tauto | reflexivity]).
  unfold erase_page in H. destruct f; injection H as <- <-; now rewrite H0.
Qed.
Lemma erase_pages_frame pages : forall flt n m ps m' ok n' x, erase_pages flt n m pages ps = (m', ok, n') ->
  outside x pages ps -> m' x = m x.
Proof.
  induction pages as [ | a pages IH]; intros flt n m ps m' ok n' x H O; cbn [erase_pages] in H; [injection H as <- <- <-; reflexivity | ].
  destruct (erase_page (flt n) m a ps) as [m1 b] eqn:E.
  assert (m1 x = m x) by (eapply erase_page_frame; eauto; apply O; now left).
  destruct b; [ | injection H as <- <- <-; exact H0]. rewrite <- H0. eapply IH; eauto. intros a' Ha. apply O. now right.
Qed.
Lemma write_slice_frame f m a d m' ok x : write_slice f m a d = (m', ok) -> ~ within x a (Nlen d) -> m' x = m x.
Proof.
  intros H W. assert (inside x a (Nlen d) = false) by (destruct (inside x a (Nlen d)) eqn:E; [apply inside_iff in E; tauto | reflexivity]).
  unfold write_slice in H. destruct f; injection H as <- <-; now rewrite H0.
Qed.

(** ** One request *)
Definition allowed_write (c : uprims) (m : mem) (u : upgrade) (a : N) (data : bytes) : Prop :=
  intersects_range (mkRange a (Nlen data)) (u_metadata u) = false \/
  contains_range (mkRange a (Nlen data)) (u_metadata u) = true /\
  check_metadata c m u (up_key c) (slice data (mr_start (u_metadata u) - a) (mr_length (u_metadata u))) = Ok tt.

Lemma write_cases c flt m u offset data m' r : write_bundle c flt m u offset data = (m', r) ->
  (m' = m /\ r <> Ok tt) \/
  exists a, find_address (u_partition u) offset (Nlen data) = Some a /\ Nlen data <> 0 /\ allowed_write c m u a data /\
    (forall x, outside x (aligned_iter (mkRange a (Nlen data)) (u_page_size u)) (u_page_size u) -> ~ within x a (Nlen data) -> m' x = m x) /\
    (r = Ok tt -> read m' a (length data) = data /\
      (Nlen data = part_length (u_partition u) - offset ->
       check_partition_hash c m' u (read m' (mr_start (u_metadata u)) (N.to_nat (mr_length (u_metadata u)))) = Ok tt)).
Proof.
  unfold write_bundle. destruct (N.eqb_spec (Nlen data) 0) as [Ez | Nz]; [intro H; injection H as <- <-; left; split; [reflexivity | discriminate] | ].
  destruct (find_address _ _ _) as [a | ] eqn:F; [ | intro H; injection H as <- <-; left; split; [reflexivity | discriminate]].
  intro H.
  set (ck := has <- contains_metadata u (mkRange a (Nlen data)) ;; _) in H.
  destruct ck as [[] | e] eqn:C; [ | injection H as <- <-; left; split; [reflexivity | discriminate]].
  right. exists a. split; [reflexivity | ]. split; [exact Nz | ]. split.
  { subst ck. unfold contains_metadata, allowed_write in *. destruct (intersects_range _ _); [ | now left].
    destruct (contains_range _ _); [ | discriminate]. right. split; [reflexivity | exact C]. }
  destruct (erase_pages _ _ _ _ _) as [[m1 ok1] n] eqn:E1.
  destruct ok1; cbn [negb] in H.
  2:{ injection H as <- <-. split; [ | discriminate]. intros x O W. eapply erase_pages_frame; eauto. }
  destruct (write_slice (flt n) m1 a data) as [m2 ok2] eqn:E2.
  assert (Fr : forall x, outside x (aligned_iter (mkRange a (Nlen data)) (u_page_size u)) (u_page_size u) -> ~ within x a (Nlen data) -> m2 x = m x).
  { intros x O W. rewrite (write_slice_frame _ _ _ _ _ _ x E2 W). eapply erase_pages_frame; eauto. }
  destruct ok2; cbn [negb] in H; [ | injection H as <- <-; split; [exact Fr | discriminate]].
  destruct (bytes_eqb (read m2 a (length data)) data) eqn:Rb; cbn [negb] in H; [ | injection H as <- <-; split; [exact Fr | discriminate]].
  apply bytes_eqb_eq in Rb.
  destruct (N.eqb_spec (Nlen data) (part_length (u_partition u) - offset)) as [El | El];
    injection H as <- <-; (split; [exact Fr | ]); intro R; (split; [exact Rb | ]).
  - intros _. exact R.
  - intro X. contradiction.
Qed.

Section Layout.
  Variable locs : list location.
  Variable u : upgrade.
  Variable fw : mod_range.
  Hypothesis L : layout locs u fw.

  Definition ours (x : N) : Prop :=
    within x (mr_start (u_metadata u)) (u_page_size u) \/ within x (mr_start fw) (mr_length fw).

  Lemma found_in offset len a x : find_address (u_partition u) offset len = Some a -> within x a len -> ours x.
  Proof.
    destruct L. unfold ours, within in *. destruct la_parts0 as [-> | [E ->]]; cbn [find_address mr_start mr_length].
    - destruct (N.ltb_spec offset (mr_length (u_metadata u))).
      + destruct (N.leb_spec len (mr_length (u_metadata u) - offset)); [ | discriminate]. intro Q; injection Q as <-. lia.
      + destruct (N.ltb_spec (offset - mr_length (u_metadata u)) (mr_length fw)); [ | discriminate].
        destruct (N.leb_spec len (mr_length fw - (offset - mr_length (u_metadata u)))); [ | discriminate].
        intro Q; injection Q as <-. lia.
    - destruct (N.ltb_spec offset (u_page_size u + mr_length fw)); [ | discriminate].
      destruct (N.leb_spec len (u_page_size u + mr_length fw - offset)); [ | discriminate].
      intro Q; injection Q as <-. lia.
  Qed.

  Lemma page_ours a x : ours a -> a mod u_page_size u = 0 -> within x a (u_page_size u) -> ours x.
  Proof.
    destruct L. intros [W | W] A X; [left | right].
    - eapply page_in with (a := a); eauto. apply N.mod_same. lia.
    - eapply page_in with (a := a); eauto; apply la_fw_al0.
  Qed.

  Lemma bundle_frame c flt m offset data m' r x : write_bundle c flt m u offset data = (m', r) -> ~ ours x -> m' x = m x.
  Proof.
    intros H O. apply write_cases in H as [[-> _] | (a & F & Nz & _ & Fr & _)]; [reflexivity | ].
    apply Fr.
    - intros p Hp W. apply iter_in in Hp as [Hp Al]; [ | apply L]. cbn in Hp. apply O, (page_ours p); auto.
      eapply found_in; eauto.
    - intro W. apply O. eapply found_in; eauto.
  Qed.

  (** A byte of the metadata page only changes if acceptable metadata is written. *)
  Lemma bundle_meta c flt m offset data m' r x : write_bundle c flt m u offset data = (m', r) ->
    within x (mr_start (u_metadata u)) (u_page_size u) -> m' x <> m x ->
    exists a, find_address (u_partition u) offset (Nlen data) = Some a /\
      a <= mr_start (u_metadata u) /\ mr_start (u_metadata u) + u_page_size u <= a + Nlen data /\
      acceptable c (running_version m u) (u_identifier u)
        (slice data (mr_start (u_metadata u) - a) (u_page_size u)) /\
      (r = Ok tt -> holds m' (mr_start (u_metadata u)) (slice data (mr_start (u_metadata u) - a) (u_page_size u))).
  Proof.
    intros H X Ne. apply write_cases in H as [[-> _] | (a & F & Nz & Al & Fr & Ok1)]; [congruence | ].
    exists a. split; [exact F | ]. pose proof (la_meta _ _ _ L) as Lm. pose proof (la_ps _ _ _ L) as Lp.
    destruct Al as [Al | [Al Ck]].
    - exfalso. apply Ne, Fr.
      + intros p Hp W. apply iter_in in Hp as [Hp Ap]; [ | exact Lp]. cbn [mr_start mr_length] in Hp.
        assert (Q : p = mr_start (u_metadata u)).
        { pose proof (la_meta_al _ _ _ L) as Ma. unfold within in W, X.
          pose proof (N.div_mod p (u_page_size u) ltac:(lia)) as D1. pose proof (N.div_mod (mr_start (u_metadata u)) (u_page_size u) ltac:(lia)) as D2.
          rewrite Ap in D1. rewrite Ma in D2. revert D1 D2. generalize (p / u_page_size u) (mr_start (u_metadata u) / u_page_size u).
          intros i j D1 D2. assert (i = j) by nia. subst. lia. }
        subst p. unfold intersects_range, starts_inside, is_empty, within in *. cbn [mr_start mr_length] in *.
        apply orb_false_iff in Al as [_ Al]. destruct (N.eqb_spec (Nlen data) 0); [lia | ]. cbn [negb andb] in Al. lia.
      + unfold intersects_range, starts_inside, is_empty, within in *. cbn [mr_start mr_length] in *. rewrite Lm in Al.
        destruct (N.eqb_spec (Nlen data) 0); [lia | ]. destruct (N.eqb_spec (u_page_size u) 0); [lia | ]. cbn [negb andb] in Al. lia.
    - unfold contains_range, is_empty in Al. cbn [mr_start mr_length] in Al. rewrite Lm in Al.
      destruct (N.eqb_spec (u_page_size u) 0); [lia | ]. cbn [orb] in Al.
      assert (B1 : a <= mr_start (u_metadata u)) by lia.
      assert (B2 : mr_start (u_metadata u) + u_page_size u <= a + Nlen data) by lia.
      split; [exact B1 | ]. split; [exact B2 | ]. rewrite Lm in Ck. split.
      + unfold check_metadata, METADATA_LEN in Ck. destruct (N.eqb_spec (Nlen (slice data (mr_start (u_metadata u) - a) (u_page_size u))) 4096) as [E1 | ]; [ | discriminate].
        cbn [negb] in Ck. destruct (N.ltb_spec (metadata_version (slice data (mr_start (u_metadata u) - a) (u_page_size u))) (running_version m u)) as [ | E2]; [discriminate | ].
        destruct (N.eqb_spec (metadata_address (slice data (mr_start (u_metadata u) - a) (u_page_size u))) (u_identifier u)) as [E3 | ]; [ | discriminate].
        cbn [negb] in Ck. unfold verify_signature in Ck. destruct (negb _); [discriminate | ]. destruct (_ || _); [discriminate | ].
        destruct (negb _); [discriminate | ]. destruct (up_verify _ _ _ _ _) eqn:E4; [ | discriminate].
        split; assumption.
      + intro R. destruct (Ok1 R) as [Rb _]. intros i Hi. unfold slice in Hi |- *. rewrite firstn_length, skipn_length in Hi.
        rewrite nth_firstn_lt, nth_skipn_add by lia. rewrite <- Rb at 1. rewrite read_nth by (unfold Nlen in *; lia). f_equal. lia.
  Qed.
End Layout.

(** ** Undisturbed writes *)
Lemma erase_pages_clean pages : forall flt n m ps, (forall n, flt n = None) ->
  exists m' n', erase_pages flt n m pages ps = (m', true, n') /\
    forall x, (exists a, In a pages /\ within x a ps) -> m' x = 255.
Proof.
  induction pages as [ | a pages IH]; intros flt n m ps Hf; cbn [erase_pages].
  - exists m, n. split; [reflexivity | ]. intros x (a & [] & _).
  - rewrite Hf. cbn [erase_page]. destruct (IH flt (S n) (fun x => if inside x a ps then 255 else m x) ps Hf) as (m' & n' & E & Er).
    rewrite E. exists m', n'. split; [reflexivity | ]. intros x (b & [<- | Hb] & W).
    + assert (D : (exists b, In b pages /\ within x b ps) \/ outside x pages ps).
      { clear. induction pages as [ | b pages IH]; [right; intros b [] | ].
        destruct IH as [(b' & H1 & H2) | O]; [left; exists b'; split; [now right | exact H2] | ].
        destruct (inside x b ps) eqn:I; [left; exists b; split; [now left | now apply inside_iff] | ].
        right. intros b' [<- | H]; [intro W; apply inside_iff in W; congruence | now apply O]. }
      destruct D as [D | O]; [now apply Er | ]. rewrite (erase_pages_frame _ _ _ _ _ _ _ _ x E O).
      apply inside_iff in W. now rewrite W.
    + apply Er. eauto.
Qed.

(** Bytes whose whole page is erased first are written as they are. *)
Lemma bundle_clean c flt m u offset data m' r a x :
  write_bundle c flt m u offset data = (m', r) -> (forall n, flt n = None) -> bytes_ok data = true ->
  0 < u_page_size u -> find_address (u_partition u) offset (Nlen data) = Some a -> Nlen data <> 0 ->
  allowed_write c m u a data -> a + Nlen data <= USIZE ->
  within x a (Nlen data) -> a <= x - x mod u_page_size u ->
  m' x = nth (N.to_nat (x - a)) data 0.
Proof.
  intros H Hf Ob Ps F Nz Al Us X Pg. unfold write_bundle in H. destruct (N.eqb_spec (Nlen data) 0); [contradiction | ].
  rewrite F in H.
  assert (Ck : (has <- contains_metadata u (mkRange a (Nlen data)) ;;
        if has : bool then check_metadata c m u (up_key c) (slice data (mr_start (u_metadata u) - a) (mr_length (u_metadata u))) else Ok tt) = Ok tt).
  { unfold contains_metadata. destruct Al as [Al | [Al Ck]].
    - now rewrite Al.
    - rewrite Al. destruct (intersects_range _ _); [exact Ck | reflexivity]. }
  rewrite Ck in H.
  destruct (erase_pages_clean (aligned_iter (mkRange a (Nlen data)) (u_page_size u)) flt 0 m (u_page_size u) Hf) as (m1 & n1 & E & Er).
  rewrite E in H. cbn [negb] in H. rewrite Hf in H. cbn [write_slice negb] in H.
  assert (E1 : m1 x = 255).
  { apply Er. pose proof (N.div_mod x (u_page_size u) ltac:(lia)) as D. pose proof (N.mod_lt x (u_page_size u) ltac:(lia)).
    exists (x - x mod u_page_size u). split; [ | unfold within; lia].
    apply iter_all; cbn [mr_start mr_length]; auto; [unfold within in *; lia | ].
    assert (Q : x - x mod u_page_size u = u_page_size u * (x / u_page_size u)) by (rewrite D at 1; apply N.add_sub).
    rewrite Q, N.mul_comm. apply N.mod_mul. lia. }
  assert (E2 : (if inside x a (Nlen data) then N.land (m1 x) (nth (N.to_nat (x - a)) data 0) else m1 x) = nth (N.to_nat (x - a)) data 0).
  { pose proof X as X'. apply inside_iff in X'. rewrite X', E1.
    assert (Hb : nth (N.to_nat (x - a)) data 0 < 256).
    { unfold bytes_ok in Ob. rewrite forallb_forall in Ob. specialize (Ob (nth (N.to_nat (x - a)) data 0)).
      assert (In (nth (N.to_nat (x - a)) data 0) data) by (apply nth_In; unfold within, Nlen in X; lia).
      apply Ob in H0. unfold byte_ok in H0. lia. }
    rewrite N.land_comm. change 255 with (N.ones 8). rewrite N.land_ones. change (2 ^ 8) with 256. now apply N.mod_small. }
  repeat match type of H with context [if ?b then _ else _] => destruct b end; injection H as <- _; exact E2.
Qed.

(** ** The hash over a partition *)
Lemma partition_bytes_eq locs u fw m : layout locs u fw -> METADATA_SIGN_OFFSET < u_page_size u ->
  partition_bytes m u =
  read m (mr_start (u_metadata u) + METADATA_SIGN_OFFSET) (N.to_nat (u_page_size u - METADATA_SIGN_OFFSET)) ++
  read m (mr_start fw) (N.to_nat (mr_length fw)).
Proof.
  intros [] H. unfold partition_bytes. set (s := mr_start (u_metadata u)) in *. set (o := METADATA_SIGN_OFFSET) in *.
  assert (Po : 0 < o) by reflexivity.
  destruct la_parts0 as [-> | [E ->]]; cbn [ranges_from mr_start mr_length].
  - fold s. destruct (N.leb_spec (s + o) s); [lia | ]. replace (s + o - s) with o by lia. rewrite la_meta0.
    destruct (N.ltb_spec o (u_page_size u)); [ | lia]. destruct (N.leb_spec (s + o) (mr_start fw)); [ | lia].
    cbn [flat_map mr_start mr_length]. now rewrite app_nil_r.
  - destruct (N.leb_spec (s + o) s); [lia | ]. replace (s + o - s) with o by lia.
    destruct (N.ltb_spec o (u_page_size u + mr_length fw)); [ | lia]. cbn [flat_map mr_start mr_length]. rewrite app_nil_r.
    replace (N.to_nat (u_page_size u + mr_length fw - o)) with (N.to_nat (u_page_size u - o) + N.to_nat (mr_length fw))%nat by lia.
    rewrite read_app. f_equal. f_equal. lia.
Qed.

Lemma pages_read m b n k : forall s,
  flat_map (fun o => read m (b + o) (N.to_nat n)) (from_step s n k) = read m (b + s) (k * N.to_nat n).
Proof.
  induction k as [ | k IH]; intro s; cbn [from_step flat_map Nat.mul]; [reflexivity | ].
  rewrite IH, read_app. do 2 f_equal. lia.
Qed.

Lemma some_inj {A} (a b : A) : Some a = Some b -> a = b.
Proof. congruence. Qed.
Lemma version_valid c m p v : read_version c m p = Some v <-> valid c m p v.
Proof.
  unfold read_version, compute_upgrade_hash, read_page.
  set (page := read m (b_metadata p) (N.to_nat PAGE_SIZE)).
  assert (Ef : flat_map (fun offset => read m (b_firmware p + offset) (N.to_nat PAGE_SIZE))
                 (from_step 0 PAGE_SIZE (N.to_nat (FIRMWARE_LENGTH / PAGE_SIZE))) =
               read m (b_firmware p) (N.to_nat FIRMWARE_LENGTH)).
  { rewrite pages_read, N.add_0_r.
    assert (Q : (N.to_nat (FIRMWARE_LENGTH / PAGE_SIZE) * N.to_nat PAGE_SIZE)%nat = N.to_nat FIRMWARE_LENGTH)
      by (rewrite <- N2Nat.inj_mul; apply (f_equal N.to_nat); reflexivity).
    now rewrite Q. }
  rewrite Ef. set (fw := read m (b_firmware p) (N.to_nat FIRMWARE_LENGTH)).
  assert (Lp : length page = N.to_nat PAGE_SIZE) by apply read_length.
  assert (Lf : length fw = N.to_nat FIRMWARE_LENGTH) by apply read_length.
  assert (Hp : holds m (b_metadata p) page) by (apply read_holds; rewrite Lp; reflexivity).
  assert (Hf : holds m (b_firmware p) fw) by (apply read_holds; rewrite Lf; reflexivity).
  change METADATA_SIGN_OFFSET with 2048.
  assert (Lp0 : Nlen page = 4096) by (unfold Nlen; rewrite Lp, N2Nat.id; reflexivity).
  split.
  - destruct (N.eqb_spec (b_firmware p) (metadata_address page)) as [Ea | ]; [ | discriminate]. cbn [negb].
    destruct (bytes_eqb _ _) eqn:Eh; [ | discriminate]. apply bytes_eqb_eq in Eh. cbn [negb]. intro H.
    exists page, fw. split; [exact Lp0 | ]. split; [unfold Nlen; rewrite Lf, N2Nat.id; reflexivity | ]. split; [exact Hp | ]. split; [exact Hf | ].
    split; [now symmetry | ]. split; [now symmetry | ]. apply some_inj in H. exact H.
  - intros (page' & fw' & Lp' & Lf' & Hp' & Hf' & Ea & Eh & Ev).
    assert (page' = page).
    { apply (holds_eq m (b_metadata p)); [ | exact Hp' | exact Hp]. unfold Nlen in *. lia. }
    assert (fw' = fw).
    { apply (holds_eq m (b_firmware p)); [ | exact Hf' | exact Hf]. unfold Nlen in *. unfold FIRMWARE_LENGTH in Lf. lia. }
    subst page' fw'. unfold metadata_address, metadata_hash, metadata_version.
    change (METADATA_SIGN_OFFSET + 8) with 0x808. change METADATA_SIGN_OFFSET with 0x800.
    rewrite Ea, N.eqb_refl. cbn [negb]. rewrite (proj2 (bytes_eqb_eq _ _) (eq_sym Eh)). cbn [negb]. now rewrite Ev.
Qed.

Definition other (p : boot_partition) : boot_partition :=
  if b_firmware p =? PARTITION_ADDRESS_A then partition_b else partition_a.

Lemma boot_spec c m p : boot c m = Some p ->
  (p = partition_a \/ p = partition_b) /\ exists v, valid c m p v /\ forall w, valid c m (other p) w -> w <= v.
Proof.
  unfold boot. intro H.
  assert (Fn : forall q w v, read_version c m q = Some w -> valid c m q v -> v = w).
  { intros q w v E V. apply version_valid in V. congruence. }
  assert (Nn : forall q v, read_version c m q = None -> ~ valid c m q v).
  { intros q v E V. apply version_valid in V. congruence. }
  destruct (read_version c m partition_a) as [va | ] eqn:Ea; destruct (read_version c m partition_b) as [vb | ] eqn:Eb.
  - destruct (N.leb_spec vb va); injection H as <-; (split; [auto | ]).
    + exists va. split; [now apply version_valid | ]. intros w V. change (other partition_a) with partition_b in V.
      rewrite (Fn _ _ _ Eb V). exact H0.
    + exists vb. split; [now apply version_valid | ]. intros w V. change (other partition_b) with partition_a in V.
      rewrite (Fn _ _ _ Ea V). lia.
  - injection H as <-. split; [auto | ]. exists va. split; [now apply version_valid | ]. intros w V. now apply Nn in V.
  - injection H as <-. split; [auto | ]. exists vb. split; [now apply version_valid | ]. intros w V. now apply Nn in V.
  - discriminate.
Qed.
Lemma boot_none c m : boot c m = None -> read_version c m partition_a = None /\ read_version c m partition_b = None.
Proof.
  unfold boot. destruct (read_version c m partition_a) as [va | ]; destruct (read_version c m partition_b) as [vb | ]; [ | | | auto]; intro H; exfalso.
  - revert H. destruct (vb <=? va); discriminate.
  - discriminate H.
  - discriminate H.
Qed.
Lemma boot_some c m q v : (q = partition_a \/ q = partition_b) -> valid c m q v ->
  exists p w, boot c m = Some p /\ valid c m p w /\ v <= w.
Proof.
  intros Q V. destruct (boot c m) as [p | ] eqn:B.
  - destruct (boot_spec _ _ _ B) as (P & w & Vw & Mx). exists p, w. split; [reflexivity | ]. split; [exact Vw | ].
    destruct P as [-> | ->], Q as [-> | ->]; change (other partition_a) with partition_b in Mx; change (other partition_b) with partition_a in Mx; auto.
    + apply version_valid in V, Vw. assert (v = w) by congruence. lia.
    + apply version_valid in V, Vw. assert (v = w) by congruence. lia.
  - exfalso. apply version_valid in V. apply boot_none in B as [Ba Bb]. destruct Q as [-> | ->]; [rewrite V in Ba; discriminate Ba | rewrite V in Bb; discriminate Bb].
Qed.

(** ** The boards *)
Lemma board_new p : (p = partition_a \/ p = partition_b) -> exists u fw,
  upgrade_new PAGE_SIZE (board p) = Ok u /\ layout (board p) u fw /\ u_page_size u = 4096 /\
  mr_start fw = b_firmware (other p) /\ mr_length fw = 0x40000 /\
  mr_start (u_metadata u) = b_metadata (other p) /\ u_identifier u = b_firmware (other p) /\
  mr_start (u_running u) = b_metadata p /\ mr_length (u_running u) = 4096.
Proof.
  intros [-> | ->].
  - destruct (upgrade_new PAGE_SIZE (board partition_a)) as [u | ] eqn:E; [ | vm_compute in E; discriminate].
    destruct (new_layout _ _ _ E) as (Hp & fw & L). exists u, fw. split; [reflexivity | ]. split; [exact L | ].
    vm_compute in E. injection E as <-. destruct (la_parts _ _ _ L) as [Q | [Q1 Q2]]; cbn in *; [ | discriminate Q2].
    injection Q as Q. subst fw. repeat split.
  - destruct (upgrade_new PAGE_SIZE (board partition_b)) as [u | ] eqn:E; [ | vm_compute in E; discriminate].
    destruct (new_layout _ _ _ E) as (Hp & fw & L). exists u, fw. split; [reflexivity | ]. split; [exact L | ].
    vm_compute in E. injection E as <-. destruct (la_parts _ _ _ L) as [Q | [Q1 Q2]]; cbn in *; [ | discriminate Q2].
    injection Q as Q. subst fw. repeat split.
Qed.

(** ** Messages *)
Lemma message_cases c flt m u b m' r : vendor_message c flt m u b = (m', r) ->
  m' = m \/
  exists rest kvs u' offset data,
    b = 0x42 :: rest /\ u = Some u' /\ cbor_read 32 rest = Some (VMap kvs) /\
    Parse.fields kvs [vint 1; vint 2; vint 3] 1 = Some (VBytes data) /\
    Parse.fields kvs [vint 1; vint 2; vint 3] 2 = Some (VBytes (up_sha256 c data)) /\
    exists r', write_bundle c flt m u' offset data = (m', r') /\ (r' = Ok tt <-> r = Some [0]).
Proof.
  unfold vendor_message. destruct b as [ | cmd rest]; [intro H; injection H as <- <-; auto | ].
  destruct (N.eqb_spec cmd 0x42) as [-> | ].
  2:{ destruct (cmd =? 0x43); [destruct u | ]; intro H; injection H as <- <-; auto. }
  destruct (cbor_read 32 rest) as [v | ] eqn:Ec; cbn [rbind]; [ | intro H; injection H as <- <-; auto].
  unfold parse_upgrade. destruct v; cbn [extract_map rbind]; try (intro H; injection H as <- <-; now left).
  set (f := Parse.fields _ _). 
  destruct (f 0%nat) as [o | ] eqn:F0; cbn [ok_or_missing rbind]; [ | intro H; injection H as <- <-; now left].
  destruct (extract_unsigned o) as [off | ] eqn:Eo; cbn [rbind]; [ | intro H; injection H as <- <-; now left].
  destruct (f 1%nat) as [dv | ] eqn:F1; cbn [ok_or_missing rbind]; [ | intro H; injection H as <- <-; now left].
  destruct (extract_byte_string dv) as [data | ] eqn:Ed; cbn [rbind]; [ | intro H; injection H as <- <-; now left].
  destruct (f 2%nat) as [hv | ] eqn:F2; cbn [ok_or_missing rbind]; [ | intro H; injection H as <- <-; now left].
  destruct (extract_byte_string hv) as [hash | ] eqn:Eh; cbn [rbind]; [ | intro H; injection H as <- <-; now left].
  destruct (Nlen hash =? 32); [ | intro H; injection H as <- <-; now left].
  unfold vendor_upgrade. destruct (bytes_eqb hash _) eqn:Eq; cbn [negb]; [ | intro H; injection H as <- <-; now left].
  apply bytes_eqb_eq in Eq. destruct u as [u' | ]; [ | intro H; injection H as <- <-; now left].
  destruct (write_bundle c flt m u' (off mod USIZE) data) as [m1 r1] eqn:W. intro H; injection H as <- <-. right.
  destruct dv; try discriminate. injection Ed as ->. destruct hv; try discriminate. injection Eh as ->. subst hash.
  exists rest, m0, u', (off mod USIZE), data. split; [reflexivity | ]. split; [reflexivity | ]. split; [exact Ec | ].
  split; [exact F1 | ]. split; [exact F2 | ]. exists r1. split; [exact W | ]. destruct r1 as [[] | ]; cbn; split; congruence || discriminate.
Qed.

Lemma act_frame c u locs fw m a x : layout locs u fw -> ~ ours u fw x -> x < 0xC0000 -> act c (Some u) m a x = m x.
Proof.
  intros L O B. destruct a as [b flt | f]; cbn [act].
  - destruct (vendor_message c flt m (Some u) b) as [m' r] eqn:E. cbn [fst].
    apply message_cases in E as [-> | (rest & kvs & u' & offset & data & _ & Eu & _ & _ & _ & r' & W & _)]; [reflexivity | ].
    injection Eu as <-. eapply bundle_frame; eauto.
  - destruct (N.ltb_spec x 0xC0000); [reflexivity | lia].
Qed.
Lemma acts_frame c u locs fw s : forall m x, layout locs u fw -> ~ ours u fw x -> x < 0xC0000 ->
  fold_left (act c (Some u)) s m x = m x.
Proof.
  induction s as [ | a s IH]; intros m x L O B; [reflexivity | ]. cbn [fold_left]. rewrite IH by assumption. eapply act_frame; eauto.
Qed.

Lemma valid_frame c m m' p v : (forall x, within x (b_metadata p) 4096 \/ within x (b_firmware p) 0x40000 -> m' x = m x) ->
  valid c m p v -> valid c m' p v.
Proof.
  intros F (page & fw & Lp & Lf & Hp & Hf & R). exists page, fw. split; [exact Lp | ]. split; [exact Lf | ].
  split; [ | split; [ | exact R]].
  - intros i Hi. rewrite F; [now apply Hp | left; unfold within, Nlen in *; lia].
  - intros i Hi. rewrite F; [now apply Hf | right; unfold within, Nlen in *; lia].
Qed.

Lemma session_frame c m p s u : (p = partition_a \/ p = partition_b) -> upgrade_new PAGE_SIZE (board p) = Ok u ->
  forall x, within x (b_metadata p) 4096 \/ within x (b_firmware p) 0x40000 -> fold_left (act c (Some u)) s m x = m x.
Proof.
  intros P E x X. destruct (board_new p P) as (u' & fw & E' & L & Hp & H1 & H2 & H3 & _). rewrite E in E'. injection E' as <-.
  assert (O : ~ ours u fw x /\ x < 0xC0000).
  { unfold ours, within in *. rewrite H1, H2, H3, Hp. destruct P as [-> | ->]; [change (other partition_a) with partition_b | change (other partition_b) with partition_a];
    cbn [b_metadata b_firmware partition_a partition_b] in X |- *; lia. }
  eapply acts_frame; eauto; apply O.
Qed.

(** An undisturbed request at the beginning of a page succeeds, up to the final check of the hash. *)
Lemma bundle_succeeds c flt m u offset data a :
  (forall n, flt n = None) -> bytes_ok data = true ->
  0 < u_page_size u -> find_address (u_partition u) offset (Nlen data) = Some a -> Nlen data <> 0 ->
  allowed_write c m u a data -> a + Nlen data <= USIZE -> a mod u_page_size u = 0 ->
  exists m', holds m' a data /\
    write_bundle c flt m u offset data =
      (m', if Nlen data =? part_length (u_partition u) - offset
           then check_partition_hash c m' u (read m' (mr_start (u_metadata u)) (N.to_nat (mr_length (u_metadata u))))
           else Ok tt).
Proof.
  intros Hf Ob Ps F Nz Al Us Aa.
  assert (Cl : forall m' r x, write_bundle c flt m u offset data = (m', r) -> within x a (Nlen data) -> m' x = nth (N.to_nat (x - a)) data 0).
  { intros m' r x W X. eapply bundle_clean; eauto. unfold within in X.
    pose proof (N.div_mod x (u_page_size u) ltac:(lia)) as D. pose proof (N.mod_lt x (u_page_size u) ltac:(lia)).
    pose proof (N.div_mod a (u_page_size u) ltac:(lia)) as Da. rewrite Aa in Da.
    assert (a / u_page_size u <= x / u_page_size u) by (apply N.div_le_mono; lia).
    assert (u_page_size u * (a / u_page_size u) <= u_page_size u * (x / u_page_size u)) by (apply N.mul_le_mono_l; assumption). lia. }
  destruct (write_bundle c flt m u offset data) as [m' r] eqn:W.
  assert (Hd : holds m' a data).
  { intros i Hi. rewrite (Cl _ _ (a + N.of_nat i) eq_refl); [f_equal; lia | unfold within, Nlen; lia]. }
  exists m'. split; [exact Hd | ]. clear Cl. apply read_holds in Hd.
  unfold write_bundle in W. destruct (N.eqb_spec (Nlen data) 0); [contradiction | ]. rewrite F in W.
  assert (Ck : (has <- contains_metadata u (mkRange a (Nlen data)) ;;
        if has : bool then check_metadata c m u (up_key c) (slice data (mr_start (u_metadata u) - a) (mr_length (u_metadata u))) else Ok tt) = Ok tt).
  { unfold contains_metadata. destruct Al as [Al | [Al Ck]].
    - now rewrite Al.
    - rewrite Al. destruct (intersects_range _ _); [exact Ck | reflexivity]. }
  rewrite Ck in W.
  destruct (erase_pages_clean (aligned_iter (mkRange a (Nlen data)) (u_page_size u)) flt 0 m (u_page_size u) Hf) as (m1 & n1 & E & _).
  rewrite E in W. cbn [negb] in W. rewrite Hf in W. cbn [write_slice negb] in W.
  set (m2 := fun x => _) in W.
  assert (m2 = m').
  { destruct (negb (bytes_eqb (read m2 a (length data)) data)); [congruence | ]. destruct (Nlen data =? _); congruence. }
  rewrite H in W. rewrite (proj2 (bytes_eqb_eq _ _) Hd) in W. cbn [negb] in W. destruct (Nlen data =? _); now rewrite <- W.
Qed.
