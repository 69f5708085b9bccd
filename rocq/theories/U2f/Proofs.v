From Verif Require Import Base Facts.
From Verif.Hid Require Import Model.
From Verif.U2f Require Import Model Spec.

Arguments be_bytes : simpl never.
Arguments of_be : simpl never.

Lemma slice_ok s lo hi : (lo <= hi)%nat -> (hi <= length s)%nat ->
  slice s lo hi = Ok (firstn (hi - lo) (skipn lo s)).
Proof.
  intros H1 H2. unfold slice.
  destruct (Nat.leb_spec lo hi); [|lia]. destruct (Nat.leb_spec hi (length s)); [|lia].
  reflexivity.
Qed.

Lemma index_ok s i : (i < length s)%nat -> index s i = Ok (nth i s 0%N).
Proof.
  intro H. unfold index. rewrite (nth_error_nth' s 0%N H). reflexivity.
Qed.

Lemma be2_app_length n d : length (be_bytes 2 n ++ d) = (2 + length d)%nat.
Proof. rewrite app_length, be_bytes_length. reflexivity. Qed.

Lemma be_bytes2 n : be_bytes 2 n = [((n / 256) mod 256)%N; (n mod 256)%N].
Proof.
  unfold be_bytes. cbn [N.of_nat]. change (256 ^ N.pos (Pos.of_succ_nat 0))%N with 256%N.
  change (256 ^ 0)%N with 1%N. rewrite N.div_1_r. reflexivity.
Qed.

Lemma read_be2 n l : (n <= 65535)%N -> read_u16 (be_bytes 2 n ++ l) = n.
Proof.
  intro H. unfold read_u16. rewrite be_bytes2. cbn [firstn app].
  rewrite <- be_bytes2. rewrite of_be_be_bytes. change (256 ^ N.of_nat 2)%N with 65536%N.
  apply N.mod_small. lia.
Qed.

Lemma of_be2 a b : of_be [a; b] = (a * 256 + b)%N.
Proof. unfold of_be, of_be_acc. cbn. lia. Qed.

Lemma read2 a b l : read_u16 (a :: b :: l) = (a * 256 + b)%N.
Proof. unfold read_u16. cbn [firstn]. apply of_be2. Qed.

Lemma be2_of a b : byte_ok a = true -> byte_ok b = true -> be_bytes 2 (a * 256 + b)%N = [a; b].
Proof.
  unfold byte_ok. intros Ha Hb. apply N.ltb_lt in Ha, Hb.
  rewrite be_bytes2. f_equal; [|f_equal]; lia.
Qed.

Lemma header_eta f : length f = 4%nat -> header_bytes (header_of f) = f.
Proof.
  destruct f as [|a [|b [|c [|d [|]]]]]; cbn; intros; try lia. reflexivity.
Qed.

Lemma header_of_bytes h : header_of (header_bytes h) = h.
Proof. destruct h; reflexivity. Qed.

Lemma nth_last (d : bytes) x : nth (length d) (d ++ [x]) 0%N = x.
Proof. rewrite app_nth2; [|lia]. rewrite Nat.sub_diag. reflexivity. Qed.

(** Parsing a frame given as header plus payload. *)
Definition parse_payload (hd : header) (payload : bytes) : res sw apdu :=
  apdu_parse (header_bytes hd ++ payload).

Lemma firstn_app_len {A} (a b : list A) : firstn (length a) (a ++ b) = a.
Proof. rewrite firstn_app, Nat.sub_diag, firstn_all. cbn. apply app_nil_r. Qed.
Lemma skipn_app_len {A} (a b : list A) : skipn (length a) (a ++ b) = b.
Proof. rewrite skipn_app, Nat.sub_diag, skipn_all. reflexivity. Qed.

Lemma split4 f : (4 <= length f)%nat ->
  exists h p, f = header_bytes h ++ p /\ h = header_of (firstn 4 f) /\ p = skipn 4 f.
Proof.
  intro H. exists (header_of (firstn 4 f)), (skipn 4 f). repeat split.
  rewrite header_eta by (rewrite firstn_length; lia). symmetry. apply firstn_skipn.
Qed.

Lemma parse_body h p : apdu_parse (header_bytes h ++ p) = apdu_body h p.
Proof. destruct h; reflexivity. Qed.

(** Characterisation of the parser on a payload: the extended branch as a function. *)
Lemma parse_short0 h : apdu_parse (header_bytes h) = Ok (mkApdu h 0 [] 0 Instruction).
Proof. destruct h; reflexivity. Qed.

Lemma parse_2S h le :
  apdu_parse (header_bytes h ++ [le]) = Ok (mkApdu h 0 [] (le1_value le) (Short Le1)).
Proof. destruct h; reflexivity. Qed.

Lemma parse_3S h d : (1 <= Nlen d <= 255)%N ->
  apdu_parse (header_bytes h ++ [Nlen d] ++ d) = Ok (mkApdu h (Nlen d) d 0 (Short Lc1Data)).
Proof.
  intro H. rewrite parse_body. unfold apdu_body. 
  cbn [app length]. unfold Nlen in *. set (n := length d) in *; assert (Hnd : n = length d) by reflexivity.
  destruct (Nat.eqb_spec (S n) 0) as [?|_]; [lia|].
  cbn [index nth_error rbind].
  destruct (Nat.eqb_spec (S n) 1) as [?|_]; [lia|].
  destruct (N.eqb_spec (N.of_nat (S n)) (1 + N.of_nat n)) as [_|?]; [|lia].
  destruct (N.eqb_spec (N.of_nat n) 0) as [?|_]; [lia|]. cbn [negb andb].
  rewrite slice_ok by (cbn [length]; lia). cbn [rbind skipn].
  replace (S n - 1)%nat with (length d) by lia. rewrite firstn_all. reflexivity.
Qed.

Lemma parse_4S h d le : (1 <= Nlen d <= 255)%N ->
  apdu_parse (header_bytes h ++ [Nlen d] ++ d ++ [le])
  = Ok (mkApdu h (Nlen d) d (le1_value le) (Short Lc1DataLe1)).
Proof.
  intro H. rewrite parse_body. unfold apdu_body. 
  cbn [app length]. unfold Nlen in *. rewrite app_length. cbn [length]. set (n := length d) in *; assert (Hnd : n = length d) by reflexivity.
  replace (n + 1)%nat with (S n) by lia.
  destruct (Nat.eqb_spec (S (S n)) 0) as [?|_]; [lia|].
  cbn [index nth_error rbind].
  destruct (Nat.eqb_spec (S (S n)) 1) as [?|_]; [lia|].
  destruct (N.eqb_spec (N.of_nat (S (S n))) (1 + N.of_nat n)) as [?|_]; [lia|]. cbn [andb].
  destruct (N.eqb_spec (N.of_nat (S (S n))) (2 + N.of_nat n)) as [_|?]; [|lia].
  destruct (N.eqb_spec (N.of_nat n) 0) as [?|_]; [lia|]. cbn [negb andb].
  rewrite index_ok by (cbn [length]; rewrite app_length; cbn [length]; lia). cbn [rbind].
  replace (S (S n) - 1)%nat with (S n) by lia. cbn [nth]. unfold n. rewrite nth_last.
  rewrite slice_ok by (cbn [length]; rewrite ?app_length; cbn; lia). cbn [rbind skipn].
  replace (S (length d) - 1)%nat with (length d) by lia. rewrite firstn_app_len. reflexivity.
Qed.

(** The extended branch: three length bytes, data of that length, and a tail. *)
Definition tail_le (t : bytes) : res sw N :=
  match t with
  | [] => Ok 0%N
  | [x] => Ok (le1_value x)
  | [x; y] => Ok (le2_value (x * 256 + y))
  | [z; x; y] => if (z =? 0)%N then Ok (le2_value (x * 256 + y)) else Err SW_INTERNAL_EXCEPTION
  | _ => Err SW_WRONG_LENGTH
  end.
Definition tail_type (t : bytes) : atype :=
  Extended (match t with [] => Lc3Data | [_] => Lc3DataLe1 | [_; _] => Lc3DataLe2 | _ => Le3 end).

Lemma parse_ext h d t : (Nlen d <= 65535)%N -> (length t <= 3)%nat ->
  apdu_parse (header_bytes h ++ [0%N] ++ be_bytes 2 (Nlen d) ++ d ++ t)
  = (le <- tail_le t ;; Ok (mkApdu h (Nlen d) d le (tail_type t))).
Proof.
  intros H Ht. rewrite parse_body. unfold apdu_body. set (p := [0%N] ++ be_bytes 2 (Nlen d) ++ d ++ t).
  assert (Hp : length p = (3 + length d + length t)%nat).
  { unfold p. rewrite !app_length, be_bytes_length. cbn. lia. }
  rewrite Hp.
  destruct (Nat.eqb_spec (3 + length d + length t) 0) as [?|_]; [lia|].
  rewrite index_ok by lia. cbn [rbind].
  replace (nth 0 p 0%N) with 0%N by reflexivity.
  destruct (Nat.eqb_spec (3 + length d + length t) 1) as [?|_]; [lia|].
  rewrite N.eqb_refl. cbn [negb]. rewrite !andb_false_r.
  destruct (Nat.ltb_spec 2 (3 + length d + length t)) as [_|?]; [|lia].
  rewrite slice_ok by lia. cbn [rbind].
  replace (firstn (3 - 1) (skipn 1 p)) with (be_bytes 2 (Nlen d) ++ []).
  2:{ unfold p. cbn [app skipn Nat.sub]. change 2%nat with (length (be_bytes 2 (Nlen d))) at 2.
      rewrite firstn_app_len. apply app_nil_r. }
  rewrite read_be2 by assumption.
  unfold Nlen in *. set (n := length d) in *; assert (Hnd : n = length d) by reflexivity.
  destruct (N.ltb_spec (N.of_nat (3 + n + length t)) (N.of_nat n + 3)) as [?|_]; [lia|].
  replace (N.of_nat (3 + n + length t) - (N.of_nat n + 3))%N with (N.of_nat (length t)) by lia.
  destruct (N.ltb_spec 3 (N.of_nat (length t))) as [?|_]; [lia|].
  cbn [andb]. destruct (N.leb_spec (N.of_nat (length t)) 3) as [_|?]; [|lia].
  rewrite index_ok by lia. cbn [rbind].
  rewrite slice_ok by lia. cbn [rbind]. rewrite Nat2N.id.
  replace (firstn (3 + n + length t - length t - 3) (skipn 3 p)) with d.
  2:{ unfold p. rewrite be_bytes2. cbn [app skipn]. replace (3 + n + length t - length t - 3)%nat with (length d) by lia.
      rewrite firstn_app_len. reflexivity. }
  assert (Hs : forall k, skipn (3 + n + k) p = skipn k t).
  { intro k. unfold p. rewrite be_bytes2. cbn [app skipn]. cbn [Nat.add skipn].
    rewrite skipn_app. fold n. replace (n + k - n)%nat with k by lia.
    rewrite skipn_all2 by lia. reflexivity. }
  assert (Hn : forall k, nth (3 + n + k) p 0%N = nth k t 0%N).
  { intro k. unfold p. rewrite be_bytes2. cbn [app Nat.add nth].
    rewrite app_nth2 by lia. fold n. replace (n + k - n)%nat with k by lia. reflexivity. }
  destruct t as [|x [|y [|z [|]]]]; cbn [length] in *; try lia.
  - reflexivity.
  - cbn [N.of_nat N.eqb]. change (N.of_nat 1 =? 0)%N with false. change (N.of_nat 1 =? 1)%N with true.
    cbn [rbind tail_le]. replace (3 + n + 1 - 1)%nat with (3 + n + 0)%nat by lia. rewrite Hn. reflexivity.
  - change (N.of_nat 2 =? 0)%N with false. change (N.of_nat 2 =? 1)%N with false.
    change (N.of_nat 2 =? 2)%N with true. cbn iota.
    rewrite slice_ok by lia. cbn [rbind].
    replace (3 + n + 2 - (3 + n + 2 - 2))%nat with 2%nat by lia.
    replace (3 + n + 2 - 2)%nat with (3 + n + 0)%nat by lia. rewrite Hs. cbn [skipn firstn].
    rewrite read2. reflexivity.
  - change (N.of_nat 3 =? 0)%N with false. change (N.of_nat 3 =? 1)%N with false.
    change (N.of_nat 3 =? 2)%N with false. cbn iota.
    rewrite index_ok by lia. cbn [rbind].
    replace (3 + n + 3 - 3)%nat with (3 + n + 0)%nat by lia. rewrite Hn. cbn [nth].
    cbn [tail_le]. destruct (x =? 0)%N; cbn [negb rbind]; [|reflexivity].
    rewrite slice_ok by lia. cbn [rbind].
    replace (3 + n + 3 - (3 + n + 3 - 2))%nat with 2%nat by lia.
    replace (3 + n + 3 - 2)%nat with (3 + n + 1)%nat by lia. rewrite Hs. cbn [skipn firstn].
    rewrite read2. reflexivity.
Qed.

Lemma app_removelast_last' (l : bytes) : l <> [] -> exists l' x, l = l' ++ [x].
Proof. intro H. exists (removelast l), (last l 0%N). apply app_removelast_last. exact H. Qed.

(** Every frame is one of the recognised shapes or gets an error. *)
Lemma parse_cases f : bytes_ok f = true ->
  (exists e, apdu_parse f = Err e /\ e <> SW_PANIC) \/
  (exists h, f = header_bytes h) \/
  (exists h le, f = header_bytes h ++ [le]) \/
  (exists h d, (1 <= Nlen d <= 255)%N /\ f = header_bytes h ++ [Nlen d] ++ d) \/
  (exists h d le, (1 <= Nlen d <= 255)%N /\ f = header_bytes h ++ [Nlen d] ++ d ++ [le]) \/
  (exists h d t, (Nlen d <= 65535)%N /\ (length t <= 3)%nat /\
     f = header_bytes h ++ [0%N] ++ be_bytes 2 (Nlen d) ++ d ++ t).
Proof.
  intro Hok.
  destruct (Nat.ltb_spec (length f) 4) as [Hl|Hl].
  { left. exists SW_WRONG_DATA. unfold apdu_parse. destruct (Nat.ltb_spec (length f) 4); [|lia].
    split; [reflexivity|discriminate]. }
  destruct (split4 f Hl) as (h & p & Hf & Hh & Hp). clear Hh Hp. subst f.
  rewrite bytes_ok_app in Hok. apply andb_true_iff in Hok as [_ Hok].
  destruct p as [|b0 [|b1 p]].
  { right; left. exists h. apply app_nil_r. }
  { right; right; left. eauto. }
  destruct (N.eqb_spec b0 0) as [->|Hb0].
  - (* extended or too short *)
    destruct p as [|b2 p].
    { left. exists SW_INTERNAL_EXCEPTION. split; [|discriminate]. destruct h; reflexivity. }
    cbn [bytes_ok forallb] in Hok. apply andb_true_iff in Hok as [_ Hok].
    apply andb_true_iff in Hok as [H1 Hok]. apply andb_true_iff in Hok as [H2 Hok].
    set (n := (b1 * 256 + b2)%N).
    assert (Hn : (n <= 65535)%N).
    { unfold byte_ok in *. apply N.ltb_lt in H1, H2. unfold n. lia. }
    destruct (N.ltb_spec (Nlen p) n) as [Hlt|Hge].
    { left. exists SW_WRONG_LENGTH. split; [|discriminate].
      rewrite parse_body. unfold apdu_body. 
      cbn [length]. cbn [Nat.eqb index nth_error rbind].
      change (0 =? 0)%N with true. cbn [negb]. rewrite !andb_false_r.
      destruct (Nat.ltb_spec 2 (S (S (S (length p))))) as [_|?]; [|lia].
      rewrite slice_ok by (cbn [length]; lia). cbn [rbind Nat.sub skipn firstn]. rewrite read2.
      fold n. unfold Nlen in Hlt.
      destruct (N.ltb_spec (N.of_nat (S (S (S (length p))))) (n + 3)) as [_|?]; [reflexivity|lia]. }
    destruct (N.ltb_spec 3 (Nlen p - n)) as [Hlt|Hle].
    { left. exists SW_WRONG_LENGTH. split; [|discriminate].
      rewrite parse_body. unfold apdu_body. 
      cbn [length]. cbn [Nat.eqb index nth_error rbind].
      change (0 =? 0)%N with true. cbn [negb]. rewrite !andb_false_r.
      destruct (Nat.ltb_spec 2 (S (S (S (length p))))) as [_|?]; [|lia].
      rewrite slice_ok by (cbn [length]; lia). cbn [rbind Nat.sub skipn firstn]. rewrite read2.
      fold n. unfold Nlen in *.
      destruct (N.ltb_spec (N.of_nat (S (S (S (length p))))) (n + 3)) as [?|_]; [reflexivity|].
      destruct (N.ltb_spec 3 (N.of_nat (S (S (S (length p)))) - (n + 3))) as [_|?]; [reflexivity|lia]. }
    do 5 right. exists h, (firstn (N.to_nat n) p), (skipn (N.to_nat n) p).
    assert (Hfl : Nlen (firstn (N.to_nat n) p) = n).
    { unfold Nlen in *. rewrite firstn_length. lia. }
    rewrite Hfl. split; [assumption|]. split.
    { rewrite skipn_length. unfold Nlen in *. lia. }
    rewrite firstn_skipn. unfold n. rewrite be2_of by assumption. reflexivity.
  - (* short *)
    pose proof Hok as Hok'. cbn [bytes_ok forallb] in Hok. apply andb_true_iff in Hok as [Hb _].
    unfold byte_ok in Hb. apply N.ltb_lt in Hb.
    destruct (N.eqb_spec (Nlen (b1 :: p)) b0) as [E|E1].
    { do 3 right. left. exists h, (b1 :: p). rewrite E. split; [lia|reflexivity]. }
    destruct (N.eqb_spec (Nlen (b1 :: p)) (b0 + 1)) as [E|E2].
    { do 4 right. left. destruct (app_removelast_last' (b1 :: p)) as (d & x & Ed); [discriminate|].
      assert (Hd : Nlen d = b0).
      { apply (f_equal Nlen) in Ed. rewrite Nlen_app in Ed. change (Nlen [x]) with 1%N in Ed. lia. }
      exists h, d, x. rewrite Hd. split; [lia|]. cbn [app]. rewrite <- Ed. reflexivity. }
    left.
    rewrite parse_body. unfold apdu_body. 
    cbn [length]. cbn [Nat.eqb index nth_error rbind].
    unfold Nlen in *. cbn [length] in *.
    destruct (N.eqb_spec (N.of_nat (S (S (length p)))) (1 + b0)) as [?|_]; [lia|].
    destruct (N.eqb_spec (N.of_nat (S (S (length p)))) (2 + b0)) as [?|_]; [lia|].
    cbn [andb].
    destruct (Nat.ltb_spec 2 (S (S (length p)))) as [Hl2|_].
    2:{ eexists; split; [reflexivity|discriminate]. }
    rewrite slice_ok by (cbn [length]; lia). cbn [rbind].
    match goal with |- context [read_u16 ?x] => set (l3 := read_u16 x) end.
    destruct (N.of_nat (S (S (length p))) <? l3 + 3)%N; [eexists; split; [reflexivity|discriminate]|].
    destruct (3 <? N.of_nat (S (S (length p))) - (l3 + 3))%N; [eexists; split; [reflexivity|discriminate]|].
    destruct (N.eqb_spec b0 0); [lia|]. cbn [andb].
    eexists; split; [reflexivity|discriminate].
Qed.

Lemma tail_le_no_panic t : tail_le t <> Err SW_PANIC.
Proof.
  destruct t as [|? [|? [|? [|]]]]; cbn; try discriminate. destruct (_ =? 0)%N; discriminate.
Qed.

Lemma parse_no_panic f : bytes_ok f = true -> apdu_parse f <> Err SW_PANIC.
Proof.
  intros Hok E.
  destruct (parse_cases f Hok) as [(e & E1 & H)|[(h & ->)|[(h & le & ->)|[(h & d & Hd & ->)|[(h & d & le & Hd & ->)|(h & d & t & Hd & Ht & ->)]]]]].
  - congruence.
  - rewrite parse_short0 in E. discriminate.
  - rewrite parse_2S in E. discriminate.
  - rewrite parse_3S in E by assumption. discriminate.
  - rewrite parse_4S in E by assumption. discriminate.
  - rewrite parse_ext in E by assumption. pose proof (tail_le_no_panic t).
    destruct (tail_le t); cbn in E; congruence.
Qed.

Lemma parse_iso f h d ne : iso_apdu f h d ne -> ~ is_case_2E f ->
  exists ty, apdu_parse f = Ok (mkApdu h (Nlen d) d ne ty).
Proof.
  intros H N2. destruct H.
  - rewrite parse_short0. eauto.
  - rewrite parse_2S. eauto.
  - rewrite parse_3S by assumption. eauto.
  - rewrite parse_4S by assumption. eauto.
  - exfalso. apply N2. exists h, le. split; [assumption|reflexivity].
  - pose proof (parse_ext h d [] ltac:(lia) ltac:(cbn; lia)) as P. rewrite app_nil_r in P. rewrite P.
    cbn. eauto.
  - rewrite parse_ext by (rewrite ?be_bytes_length; lia). rewrite be_bytes2. cbn [tail_le rbind].
    replace ((le / 256) mod 256 * 256 + le mod 256)%N with le by lia. eauto.
Qed.

Lemma parse_sound f a : bytes_ok f = true -> apdu_parse f = Ok a ->
  a_lc a = Nlen (a_data a) /\
  (iso_apdu f (a_header a) (a_data a) (a_le a) \/
   lenient_apdu f (a_header a) (a_data a) (a_le a)).
Proof.
  intros Hok E.
  destruct (parse_cases f Hok) as [(e & E1 & H)|[(h & ->)|[(h & le & ->)|[(h & d & Hd & ->)|[(h & d & le & Hd & ->)|(h & d & t & Hd & Ht & ->)]]]]].
  - congruence.
  - rewrite parse_short0 in E. inversion E; subst; cbn. split; [reflexivity|left; constructor].
  - rewrite parse_2S in E. inversion E; subst; cbn. split; [reflexivity|left; constructor].
  - rewrite parse_3S in E by assumption. inversion E; subst; cbn [a_lc a_data a_header a_le].
    split; [reflexivity|left; constructor; assumption].
  - rewrite parse_4S in E by assumption. inversion E; subst; cbn [a_lc a_data a_header a_le].
    split; [reflexivity|left; constructor; assumption].
  - rewrite parse_ext in E by assumption.
    rewrite !bytes_ok_app in Hok. repeat (apply andb_true_iff in Hok as [? Hok]).
    destruct (tail_le t) as [le|] eqn:Et; cbn in E; [|discriminate].
    inversion E; subst; clear E. cbn [a_lc a_data a_header a_le]. split; [reflexivity|].
    destruct t as [|x [|y [|z [|]]]]; cbn [length] in Ht; try lia; cbn [tail_le] in Et.
    + inversion Et; subst. rewrite app_nil_r.
      destruct (N.eqb_spec (Nlen d) 0) as [E0|E0].
      * right. destruct d; [|unfold Nlen in E0; cbn in E0; lia]. change (be_bytes 2 (Nlen [])) with [0;0]%N.
        constructor.
      * left. constructor. lia.
    + inversion Et; subst. right. constructor. lia.
    + inversion Et; subst. cbn [bytes_ok forallb] in Hok. apply andb_true_iff in Hok as [Hx Hy].
      apply andb_true_iff in Hy as [Hy _].
      rewrite <- (be2_of x y) by assumption.
      assert (x * 256 + y <= 65535)%N by (unfold byte_ok in *; lia).
      destruct (N.eqb_spec (Nlen d) 0) as [E0|E0].
      * right. destruct d; [|unfold Nlen in E0; cbn in E0; lia].
        change (be_bytes 2 (Nlen [])) with [0;0]%N. cbn [app].
        change (0%N :: 0%N :: 0%N :: be_bytes 2 (x * 256 + y)) with ([0;0;0]%N ++ be_bytes 2 (x * 256 + y)).
        constructor. assumption.
      * left. constructor; [lia|assumption].
    + destruct (N.eqb_spec x 0) as [->|]; [|discriminate]. inversion Et; subst.
      cbn [bytes_ok forallb] in Hok. apply andb_true_iff in Hok as [_ Hok].
      apply andb_true_iff in Hok as [Hx Hy]. apply andb_true_iff in Hy as [Hy _].
      right. change (0%N :: y :: z :: []) with ([0%N] ++ [y; z]).
      rewrite <- (be2_of y z) by assumption.
      constructor; [lia|]. unfold byte_ok in *; lia.
Qed.

(** Case 2E with a nonzero expected length is rejected. *)
Lemma parse_2E h le : (1 <= le <= 65535)%N ->
  apdu_parse (header_bytes h ++ [0%N] ++ be_bytes 2 le) = Err SW_WRONG_LENGTH.
Proof.
  intro H. rewrite parse_body. unfold apdu_body. set (p := [0%N] ++ be_bytes 2 le).
  assert (Hp : length p = 3%nat) by (unfold p; rewrite app_length, be_bytes_length; reflexivity). rewrite Hp. cbn [Nat.eqb].
  rewrite index_ok by lia. cbn [rbind]. replace (nth 0 p 0%N) with 0%N by reflexivity.
  change (0 =? 0)%N with true. cbn [negb]. rewrite !andb_false_r.
  change (2 <? 3)%nat with true. cbn iota. rewrite slice_ok by lia. cbn [rbind].
  replace (firstn (3 - 1) (skipn 1 p)) with (be_bytes 2 le ++ []).
  2:{ unfold p. cbn [app skipn Nat.sub]. rewrite app_nil_r. symmetry. apply firstn_all2.
      rewrite be_bytes_length. lia. }
  rewrite read_be2 by lia.
  destruct (N.ltb_spec (N.of_nat 3) (le + 3)) as [_|?]; [reflexivity|lia].
Qed.

(* ------------------------------------------------------------ U2F requests *)

Lemma firstn_skipn_join {A} n m (l : list A) :
  firstn n l ++ firstn m (skipn n l) = firstn (n + m) l.
Proof.
  revert n l. induction n as [|n IH]; intros l; [reflexivity|].
  destruct l as [|x l]; cbn; [rewrite firstn_nil; reflexivity|]. f_equal. apply IH.
Qed.

Lemma data_split64 (d : bytes) : length d = 64%nat ->
  d = firstn 32 d ++ firstn 32 (skipn 32 d).
Proof.
  intro H. rewrite firstn_skipn_join. symmetry. apply firstn_all2. lia.
Qed.

Lemma skipn_nth_cons (d : bytes) n : (n < length d)%nat ->
  skipn n d = nth n d 0%N :: skipn (S n) d.
Proof.
  revert d. induction n as [|n IH]; intros [|x d] H; cbn in H; try lia; [reflexivity|].
  cbn [skipn nth]. apply IH. lia.
Qed.

Lemma data_split65 (d : bytes) : (65 <= length d)%nat ->
  d = firstn 32 d ++ firstn 32 (skipn 32 d) ++ [nth 64 d 0%N] ++ skipn 65 d.
Proof.
  intro H. rewrite app_assoc, firstn_skipn_join. cbn [app Nat.add].
  rewrite <- skipn_nth_cons by lia. symmetry. apply firstn_skipn.
Qed.

Lemma u2f_parse_sound m c : bytes_ok m = true -> u2f_parse m = Ok c ->
  exists a, apdu_parse m = Ok a /\ u2f_message (a_header a) (a_data a) c.
Proof.
  intros Hok E. unfold u2f_parse in E.
  destruct (apdu_parse m) as [a|] eqn:Ea; cbn [rbind] in E; [|discriminate].
  destruct (parse_sound m a Hok Ea) as [Hlc _].
  exists a. split; [reflexivity|].
  destruct a as [[cla ins p1 p2] lc data le ty]. cbn [a_lc a_data a_header h_cla h_ins h_p1] in *.
  clear Ea. subst lc. unfold Nlen in E.
  destruct (N.eqb_spec cla 0) as [->|]; cbn [negb] in E; [|discriminate].
  rewrite N.eqb_refl in E. cbn [negb andb] in E.
  destruct (N.eqb_spec ins 1) as [->|]; [|destruct (N.eqb_spec ins 2) as [->|]; [|destruct (N.eqb_spec ins 3) as [->|]]].
  - destruct (N.eqb_spec (N.of_nat (length data)) 64) as [El|]; cbn [negb] in E; [|discriminate].
    assert (Hd : length data = 64%nat) by lia.
    rewrite !slice_ok in E by lia. cbn [rbind] in E.
    change (firstn (32 - 0) (skipn 0 data)) with (firstn 32 data) in E.
    change (firstn (64 - 32) (skipn 32 data)) with (firstn 32 (skipn 32 data)) in E.
    pose proof (data_split64 data Hd) as Hs.
    assert (length (firstn 32 data) = 32%nat) by (rewrite firstn_length; lia).
    assert (length (firstn 32 (skipn 32 data)) = 32%nat) by (rewrite firstn_length, skipn_length; lia).
    set (c1 := firstn 32 data) in *. set (c2 := firstn 32 (skipn 32 data)) in *. clearbody c1 c2.
    inversion E; subst c. rewrite Hs. constructor; assumption.
  - destruct (N.ltb_spec (N.of_nat (length data)) 65) as [|Hl]; [discriminate|].
    rewrite index_ok in E by lia. cbn [rbind] in E.
    destruct (N.eqb_spec (N.of_nat (length data)) (65 + nth 64 data 0%N)) as [El|]; cbn [negb] in E; [|discriminate].
    assert (Hd : (65 <= length data)%nat) by lia.
    destruct (flags_of p1) as [fl|] eqn:Ef; cbn [rbind] in E; [|discriminate].
    rewrite !slice_ok in E by lia. cbn [rbind] in E.
    rewrite firstn_all2 with (l := skipn 65 data) in E by (rewrite skipn_length; lia).
    change (firstn (32 - 0) (skipn 0 data)) with (firstn 32 data) in E.
    change (firstn (64 - 32) (skipn 32 data)) with (firstn 32 (skipn 32 data)) in E.
    pose proof (data_split65 data Hd) as Hs.
    assert (Hk : nth 64 data 0%N = Nlen (skipn 65 data)) by (unfold Nlen; rewrite skipn_length; lia).
    rewrite Hk in Hs.
    assert (length (firstn 32 data) = 32%nat) by (rewrite firstn_length; lia).
    assert (length (firstn 32 (skipn 32 data)) = 32%nat) by (rewrite firstn_length, skipn_length; lia).
    set (c1 := firstn 32 data) in *. set (c2 := firstn 32 (skipn 32 data)) in *.
    set (c3 := skipn 65 data) in *. clearbody c1 c2 c3.
    inversion E; subst c; clear E. rewrite Hs.
    unfold flags_of in Ef.
    destruct (N.eqb_spec p1 7) as [->|]; [inversion Ef; constructor; assumption|].
    destruct (N.eqb_spec p1 3) as [->|]; [inversion Ef; constructor; assumption|].
    destruct (N.eqb_spec p1 8) as [->|]; [inversion Ef; constructor; assumption|discriminate].
  - destruct (N.eqb_spec (N.of_nat (length data)) 0) as [El|]; cbn [negb] in E; [|discriminate].
    destruct data; [|cbn in El; lia]. inversion E. constructor.
  - destruct (N.leb_spec 64 ins) as [H1|]; cbn [andb] in E; [|discriminate].
    destruct (N.leb_spec ins 191) as [H2|]; [|discriminate].
    inversion E. constructor. lia.
Qed.

Lemma u2f_parse_complete m a c : bytes_ok m = true -> apdu_parse m = Ok a ->
  u2f_message (a_header a) (a_data a) c -> u2f_parse m = Ok c.
Proof.
  intros Hok Ea Hm. unfold u2f_parse. rewrite Ea. cbn [rbind].
  destruct (parse_sound m a Hok Ea) as [Hlc _]. rewrite Hlc. unfold Nlen.
  destruct a as [h lc data le ty]. cbn [a_lc a_data a_header] in *. clear Hlc Ea.
  assert (S1 : forall (x y : bytes) r, length x = 32%nat -> length y = 32%nat ->
     slice (x ++ y ++ r) 0 32 = Ok x /\ slice (x ++ y ++ r) 32 64 = Ok y).
  { intros x y r Hx Hy. split.
    - rewrite slice_ok by (rewrite ?app_length; lia). cbn [skipn Nat.sub]. rewrite <- Hx, firstn_app_len. reflexivity.
    - rewrite slice_ok by (rewrite ?app_length; lia). change (64 - 32)%nat with 32%nat.
      replace (skipn 32 (x ++ y ++ r)) with (y ++ r) by (rewrite <- Hx; symmetry; apply skipn_app_len). rewrite <- Hy, firstn_app_len. reflexivity. }
  assert (S2 : forall (x y : bytes) k r, length x = 32%nat -> length y = 32%nat ->
     index (x ++ y ++ [k] ++ r) 64 = Ok k /\
     slice (x ++ y ++ [k] ++ r) 65 (length (x ++ y ++ [k] ++ r)) = Ok r).
  { intros x y k r Hx Hy. split.
    - rewrite index_ok by (rewrite ?app_length; cbn; lia). rewrite app_nth2 by lia. rewrite app_nth2 by lia.
      rewrite Hx, Hy. reflexivity.
    - rewrite slice_ok by (rewrite ?app_length; cbn; lia).
      rewrite !app_assoc.
      replace (skipn 65 (((x ++ y) ++ [k]) ++ r)) with r
        by (replace 65%nat with (length ((x ++ y) ++ [k])) by (rewrite !app_length; cbn; lia);
            symmetry; apply skipn_app_len). rewrite firstn_all2; [reflexivity|]. rewrite !app_length; cbn; lia. }
  destruct Hm as [p1 p2 c a Hc Ha|p2 c a kh Hc Ha|p2 c a kh Hc Ha|p2 c a kh Hc Ha|p1 p2|ins p1 p2 d Hi];
    cbn [h_cla h_ins h_p1]; change (0 =? 0)%N with true; rewrite ?N.eqb_refl; cbn [negb andb].
  - change (1 =? 1)%N with true. cbn iota.
    replace (N.of_nat (length (c ++ a))) with 64%N by (rewrite app_length; lia).
    change (64 =? 64)%N with true. cbn [negb].
    destruct (S1 c a [] Hc Ha) as [E1 E2]. rewrite app_nil_r in E1, E2. rewrite E1. cbn [rbind]. rewrite E2. reflexivity.
  - change (2 =? 1)%N with false. change (2 =? 2)%N with true. cbn iota.
    destruct (N.ltb_spec (N.of_nat (length (c ++ a ++ [Nlen kh] ++ kh))) 65) as [L|_]; [rewrite !app_length in L; cbn in L; lia|].
    destruct (S2 c a (Nlen kh) kh Hc Ha) as [E3 E4]. rewrite E3. cbn [rbind].
    destruct (N.eqb_spec (N.of_nat (length (c ++ a ++ [Nlen kh] ++ kh))) (65 + Nlen kh)) as [_|L];
      [|rewrite !app_length in L; cbn [length] in L; unfold Nlen in L; lia].
    cbn [negb]. change (flags_of 7) with (@Ok sw u2f_flags CheckOnly). cbn [rbind].
    destruct (S1 c a ([Nlen kh] ++ kh) Hc Ha) as [E1 E2]. rewrite E1; cbn [rbind]. rewrite E2; cbn [rbind].
    rewrite E4. reflexivity.
  - change (2 =? 1)%N with false. change (2 =? 2)%N with true. cbn iota.
    destruct (N.ltb_spec (N.of_nat (length (c ++ a ++ [Nlen kh] ++ kh))) 65) as [L|_]; [rewrite !app_length in L; cbn in L; lia|].
    destruct (S2 c a (Nlen kh) kh Hc Ha) as [E3 E4]. rewrite E3. cbn [rbind].
    destruct (N.eqb_spec (N.of_nat (length (c ++ a ++ [Nlen kh] ++ kh))) (65 + Nlen kh)) as [_|L];
      [|rewrite !app_length in L; cbn [length] in L; unfold Nlen in L; lia].
    cbn [negb]. change (flags_of 3) with (@Ok sw u2f_flags EnforceUpAndSign). cbn [rbind].
    destruct (S1 c a ([Nlen kh] ++ kh) Hc Ha) as [E1 E2]. rewrite E1; cbn [rbind]. rewrite E2; cbn [rbind].
    rewrite E4. reflexivity.
  - change (2 =? 1)%N with false. change (2 =? 2)%N with true. cbn iota.
    destruct (N.ltb_spec (N.of_nat (length (c ++ a ++ [Nlen kh] ++ kh))) 65) as [L|_]; [rewrite !app_length in L; cbn in L; lia|].
    destruct (S2 c a (Nlen kh) kh Hc Ha) as [E3 E4]. rewrite E3. cbn [rbind].
    destruct (N.eqb_spec (N.of_nat (length (c ++ a ++ [Nlen kh] ++ kh))) (65 + Nlen kh)) as [_|L];
      [|rewrite !app_length in L; cbn [length] in L; unfold Nlen in L; lia].
    cbn [negb]. change (flags_of 8) with (@Ok sw u2f_flags DontEnforceUpAndSign). cbn [rbind].
    destruct (S1 c a ([Nlen kh] ++ kh) Hc Ha) as [E1 E2]. rewrite E1; cbn [rbind]. rewrite E2; cbn [rbind].
    rewrite E4. reflexivity.
  - reflexivity.
  - destruct (N.eqb_spec ins 1); [lia|]. destruct (N.eqb_spec ins 2); [lia|]. destruct (N.eqb_spec ins 3); [lia|].
    destruct (N.leb_spec 64 ins); [|lia]. destruct (N.leb_spec ins 191); [|lia]. reflexivity.
Qed.

Lemma u2f_no_panic m : bytes_ok m = true -> u2f_parse m <> Err SW_PANIC.
Proof.
  intros Hok E. unfold u2f_parse in E.
  destruct (apdu_parse m) as [a|e] eqn:Ea; cbn [rbind] in E.
  2:{ apply (parse_no_panic m Hok). congruence. }
  destruct (parse_sound m a Hok Ea) as [Hlc _]. rewrite Hlc in E. unfold Nlen in E.
  rewrite N.eqb_refl in E. cbn [negb andb] in E.
  destruct (negb _); [discriminate|].
  destruct (h_ins (a_header a) =? 1)%N.
  { destruct (N.eqb_spec (N.of_nat (length (a_data a))) 64) as [L|]; cbn [negb] in E; [|discriminate].
    rewrite !slice_ok in E by lia. discriminate. }
  destruct (h_ins (a_header a) =? 2)%N.
  { destruct (N.ltb_spec (N.of_nat (length (a_data a))) 65) as [|L]; [discriminate|].
    rewrite index_ok in E by lia. cbn [rbind] in E. destruct (negb _); [discriminate|].
    unfold flags_of in E.
    destruct (_ =? 7)%N; [|destruct (_ =? 3)%N; [|destruct (_ =? 8)%N; [|discriminate]]];
      cbn [rbind] in E; rewrite !slice_ok in E by lia; discriminate. }
  destruct (h_ins (a_header a) =? 3)%N.
  { destruct (negb _); discriminate. }
  destruct (_ && _); discriminate.
Qed.

(* ------------------------------------------------------------ touches *)

Lemma up_run_app s a b :
  fst (up_run s (a ++ b)) = fst (up_run (fst (up_run s a)) b).
Proof.
  revert s. induction a as [|e a IH]; intros s; [reflexivity|].
  cbn [app up_run]. destruct (up_step s e) as [s1 o] eqn:E.
  specialize (IH s1). destruct (up_run s1 (a ++ b)) as [s2 os]; cbn [fst] in *.
  destruct (up_run s1 a) as [s3 os']; cbn [fst] in *. exact IH.
Qed.

Definition up_after (h : list (N * up_event)) : up_state := fst (up_run up_init h).

Lemma up_after_snoc h e : up_after (h ++ [e]) = fst (up_step (up_after h) e).
Proof.
  unfold up_after. rewrite up_run_app. cbn [up_run].
  destruct (up_step (fst (up_run up_init h)) e); reflexivity.
Qed.

(** Where the prompt timer comes from. *)
Definition needs_inv (h : list (N * up_event)) : Prop :=
  needs_up (up_after h) = 0%N \/
  exists a t b, h = a ++ (t, Request) :: b /\
    needs_up (up_after h) = (t + U2F_UP_PROMPT_TIMEOUT_MS)%N /\
    request_granted a t = false /\
    (forall t', In (t', Touch) b -> (t + U2F_UP_PROMPT_TIMEOUT_MS <= t')%N).

(** Where the touch timer comes from. *)
Definition has_inv (h : list (N * up_event)) : Prop :=
  has_up (up_after h) = 0%N \/
  exists a t b, h = a ++ (t, Touch) :: b /\
    has_up (up_after h) = (t + TOUCH_TIMEOUT_MS)%N /\
    (t < needs_up (up_after a))%N /\
    none_granted (a ++ [(t, Touch)]) b.

Lemma snoc_split {A} (h : list A) e a x b : h ++ [e] = a ++ x :: b ->
  (b = [] /\ x = e /\ a = h) \/ (exists b', b = b' ++ [e] /\ h = a ++ x :: b').
Proof.
  destruct (@exists_last _ (x :: b)) as (l & y & E); [discriminate|].
  intro H. rewrite E in H. rewrite app_assoc in H. apply app_inj_tail in H as [H1 H2]. subst y.
  destruct l as [|z l]; cbn in E.
  - inversion E; subst. left. rewrite app_nil_r. auto.
  - inversion E; subst. right. exists l. auto.
Qed.

Lemma invs h : needs_inv h /\ has_inv h.
Proof.
  induction h as [|[t e] h [In Ih]] using rev_ind.
  { split; left; reflexivity. }
  pose proof (up_after_snoc h (t, e)) as Es. unfold up_step in Es. cbn [fst snd] in Es.
  assert (Ecr : request_granted h t = fst (consume_up t (up_after h))) by reflexivity.
  split.
  - unfold needs_inv. rewrite Es. destruct e; cbn [fst].
    + unfold grant_up, is_elapsed.
      destruct (N.leb_spec (needs_up (up_after h)) t) as [El|Hn]; cbn [negb needs_up]; [|left; reflexivity].
      destruct In as [E0|(a & t0 & b & Eh & En & Hg & Hb)]; [left; exact E0|right].
      exists a, t0, (b ++ [(t, Touch)]). split; [rewrite Eh, <- app_assoc; reflexivity|].
      split; [exact En|]. split; [exact Hg|]. intros t' Hin. apply in_app_or in Hin as [Hin|[Hin|[]]]; [auto|].
      inversion Hin; subst. rewrite En in El. exact El.
    + unfold consume_up in *. destruct (negb (is_elapsed t (has_up (up_after h)))) eqn:Eh; cbn [fst needs_up] in *.
      * destruct In as [E0|(a & t0 & b & Eh' & En & Hg & Hb)]; [left; exact E0|right].
        exists a, t0, (b ++ [(t, Request)]). split; [rewrite Eh', <- app_assoc; reflexivity|].
        split; [exact En|]. split; [exact Hg|]. intros t' Hin. apply in_app_or in Hin as [Hin|[Hin|[]]]; [auto|discriminate].
      * right. exists h, t, []. split; [reflexivity|]. split; [reflexivity|]. split; [exact Ecr|]. intros ? [].
  - unfold has_inv. rewrite Es. destruct e; cbn [fst].
    + unfold grant_up, is_elapsed.
      destruct (N.leb_spec (needs_up (up_after h)) t) as [El|Hn]; cbn [negb has_up].
      * destruct Ih as [E0|(a & t0 & b & Eh & En & Hlt & Hb)]; [left; exact E0|right].
        exists a, t0, (b ++ [(t, Touch)]). split; [rewrite Eh, <- app_assoc; reflexivity|].
        split; [exact En|]. split; [exact Hlt|]. intros b1 t1 b2 E. apply snoc_split in E as [(_ & E & _)|(b' & E1 & E2)]; [discriminate|].
        eapply Hb. exact E2.
      * right. exists h, t, []. split; [reflexivity|]. split; [reflexivity|]. split; [exact Hn|].
        intros [|? ?] ? ? E; discriminate.
    + unfold consume_up in *. destruct (negb (is_elapsed t (has_up (up_after h)))) eqn:Eh; cbn [fst has_up] in *.
      * left. reflexivity.
      * destruct Ih as [E0|(a & t0 & b & Eh' & En & Hlt & Hb)]; [left; exact E0|right].
        exists a, t0, (b ++ [(t, Request)]). split; [rewrite Eh', <- app_assoc; reflexivity|].
        split; [exact En|]. split; [exact Hlt|]. intros b1 t1 b2 E.
        apply snoc_split in E as [(_ & E & E')|(b' & E1 & E2)].
        -- inversion E; subst t1. subst b1. rewrite <- app_assoc. cbn [app]. rewrite <- Eh'. exact Ecr.
        -- eapply Hb. exact E2.
Qed.

Lemma touch_provenance h t :
  request_granted h t = true ->
  exists a tr b tt c,
    h = a ++ (tr, Request) :: b ++ (tt, Touch) :: c /\
    request_granted a tr = false /\
    (forall t', In (t', Touch) b -> (tr + U2F_UP_PROMPT_TIMEOUT_MS <= t')%N) /\
    (tt < tr + U2F_UP_PROMPT_TIMEOUT_MS)%N /\
    (t < tt + TOUCH_TIMEOUT_MS)%N /\
    none_granted (a ++ (tr, Request) :: b ++ [(tt, Touch)]) c.
Proof.
  intro Hg. unfold request_granted, consume_up in Hg. fold (up_after h) in Hg.
  unfold is_elapsed in Hg.
  destruct (N.leb_spec (has_up (up_after h)) t) as [El|Hlt]; cbn in Hg; [discriminate|].
  destruct (invs h) as [_ [E0|(a & tt & c & Eh & Eu & Hn & Hc)]]; [rewrite E0 in Hlt; lia|].
  destruct (invs a) as [[E0|(a' & tr & b & Ea & En & Hg' & Hb)] _]; [rewrite E0 in Hn; lia|].
  exists a', tr, b, tt, c. subst a. rewrite <- app_assoc in Eh. cbn [app] in Eh.
  split; [exact Eh|]. split; [exact Hg'|]. split; [exact Hb|].
  rewrite En in Hn. rewrite Eu in Hlt. split; [exact Hn|]. split; [exact Hlt|].
  rewrite <- app_assoc in Hc. cbn [app] in Hc. exact Hc.
Qed.

Lemma times_ok_app h1 h2 : times_ok (h1 ++ h2) ->
  times_ok h1 /\ times_ok h2 /\ (forall e1 e2, In e1 h1 -> In e2 h2 -> (fst e1 <= fst e2)%N).
Proof.
  induction h1 as [|e h1 IH]; cbn [app times_ok].
  - intro H. repeat split; auto. intros ? ? [].
  - intros [H1 H2]. destruct (IH H2) as (A & B & C). split; [split|split].
    + intros e' Hin. apply H1. apply in_or_app. auto.
    + exact A.
    + exact B.
    + intros e1 e2 [<-|Hin] H'; [apply H1, in_or_app; auto|eauto].
Qed.
