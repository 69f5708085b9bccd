(** C68: the storage of the boards is the flash that the store is proved correct for. *)
From Verif Require Import Base Facts Ctap.Crypto Upgrade.Model.
From Verif.Store Require Import Format Bits Words Geom System StoreSpec.
From Verif.Store Require Import PropsFormat.
From Verif.Store Require Model Wp History PropsStore.
From Verif.Flash Require Import Model Spec Proofs.
Local Open Scope N_scope.
Ltac Zify.zify_post_hook ::= idtac.

(** C68. The storage exists iff the locations that the kernel lists for the store consist of whole pages.
    Its pages are exactly theirs, and it has the word size, the page size and the endurance of the flash. *)
Theorem C68_new locs :
  (whole_pages locs <-> exists t, tock_new locs = Ok t) /\
  (forall t, tock_new locs = Ok t ->
     numbers t = mkStorage 4 4096 (Nlen (store_pages locs)) 2 10000).
Proof.
  split.
  - split; [intro W; eexists; apply tock_new_ok; split; [exact W | reflexivity] | ]. intros [t H]. apply (proj1 (tock_new_ok _ _) H).
  - intros t H. apply (proj1 (tock_new_ok _ _)) in H as [_ ->]. reflexivity.
Qed.
Print Assumptions C68_new.

(** Every byte of every page has its own address, in a location for the store, and every address of these
    locations is a byte of a page. *)
Theorem C68_places locs t : tock_new locs = Ok t -> apart locs ->
  (forall p q x y, p < Nlen (store_pages locs) -> q < Nlen (store_pages locs) -> x < 4096 -> y < 4096 ->
     place locs p x = place locs q y -> p = q /\ x = y) /\
  (forall p x, p < Nlen (store_pages locs) -> x < 4096 ->
     in_store locs (place locs p x) /\
     forall l, In l locs -> l_type l = Partition -> ~ within (place locs p x) (l_ptr l) (l_len l)) /\
  (forall a, in_store locs a -> exists p x, p < Nlen (store_pages locs) /\ x < 4096 /\ a = place locs p x).
Proof.
  intros New Ap. pose proof (t_whole locs t New) as W. split; [ | split].
  - intros p q x y Hp Hq Hx Hy E. unfold Nlen in Hp, Hq. destruct (N.eq_dec p q) as [-> | Np].
    + split; [reflexivity | ]. unfold place in E. lia.
    + exfalso. revert E. rewrite <- (N2Nat.id p), <- (N2Nat.id q). apply (place_apart locs t New Ap); lia.
  - intros p x Hp Hx. destruct (page_in locs (N.to_nat p) W) as (l & I & T & B1 & B2 & _); [unfold Nlen in Hp; lia | ].
    assert (Wi : within (place locs p x) (l_ptr l) (l_len l)) by (unfold within, place; lia).
    split; [exists l; auto | ]. intros l' I' T' W'.
    revert Wi W'. generalize (place locs p x). intros a Wi W'. clear - Ap I T I' T' Wi W'. unfold apart in Ap. induction Ap as [ | l0 locs H0 Ap IH]; [destruct I | ]. rewrite Forall_forall in H0. unfold within in *.
    destruct I as [-> | I], I' as [-> | I']; [congruence | | | exact (IH I I')].
    + specialize (H0 l' I'). lia.
    + specialize (H0 l I). lia.
  - intros a (l & I & T & Wi). clear - W I T Wi. induction locs as [ | l0 locs IH]; [destruct I | ].
    assert (Ln : Nlen (store_pages (l0 :: locs)) = Nlen (pages_of l0) + Nlen (store_pages locs)) by (rewrite store_pages_cons; unfold Nlen; rewrite app_length; lia).
    destruct I as [-> | I].
    + destruct (whole_len l locs W T) as [E _]. unfold within in Wi.
      pose proof (N.div_mod (a - l_ptr l) 4096 ltac:(discriminate)) as D. pose proof (N.mod_lt (a - l_ptr l) 4096 ltac:(discriminate)) as M.
      assert (Q : (a - l_ptr l) / 4096 < l_len l / 4096).
      { apply N.div_lt_upper_bound; [discriminate | ]. rewrite <- E. lia. }
      assert (Lp : length (pages_of l) = N.to_nat (l_len l / 4096)) by (unfold pages_of; rewrite T, map_length, seq_length; reflexivity).
      remember ((a - l_ptr l) / 4096) as p. remember ((a - l_ptr l) mod 4096) as x. remember (l_len l / 4096) as n. clear Heqp Heqx Heqn.
      exists p, x. split; [rewrite Ln; unfold Nlen at 1; lia | ]. split; [exact M | ]. unfold place. rewrite store_pages_cons, app_nth1 by lia.
      assert (Nn : nth (N.to_nat p) (pages_of l) 0 = l_ptr l + 4096 * N.of_nat (N.to_nat p)).
      { unfold pages_of in Lp |- *. rewrite T in Lp |- *. rewrite map_length, seq_length in Lp.
        rewrite (nth_indep _ 0 (l_ptr l + 4096 * N.of_nat 0)) by (rewrite map_length, seq_length; lia).
        rewrite (map_nth (fun i => l_ptr l + 4096 * N.of_nat i)), seq_nth by lia. reflexivity. }
      rewrite Nn. lia.
    + destruct (IH (whole_cons _ _ W) I) as (p & x & H1 & H2 & ->). exists (Nlen (pages_of l0) + p), x. split; [lia | ]. split; [exact H2 | ].
      unfold place. rewrite store_pages_cons. rewrite app_nth2 by (unfold Nlen; lia).
      f_equal. f_equal. unfold Nlen. lia.
Qed.
Print Assumptions C68_places.

(** Reading within a page gives what is there; any other reading is out of bounds. *)
Theorem C68_read locs t k page byte len : tock_new locs = Ok t ->
  (page < Nlen (store_pages locs) -> byte < 4096 -> byte + N.of_nat len <= 4096 ->
   tock_read t k page byte len = Ok (map (fun i => k_mem k (place locs page (byte + N.of_nat i))) (seq 0 len))) /\
  (Nlen (store_pages locs) <= page \/ 4096 < byte + N.of_nat len -> tock_read t k page byte len = Err OutOfBounds).
Proof.
  intro New. split.
  - intros H1 H2 H3. unfold tock_read. rewrite (slice_ok locs t New) by assumption. cbn [rbind]. rewrite read_seq. f_equal.
    apply map_ext. intro i. f_equal. unfold place. lia.
  - intro H. unfold tock_read. now rewrite (slice_bad locs t New) by exact H.
Qed.
Print Assumptions C68_read.

(** Writing whole words within a page succeeds: it clears bits there, wears only the words that change, and
    changes nothing else.  Any other write is refused and changes nothing. *)
Theorem C68_write locs t k page byte v : tock_new locs = Ok t -> ready k -> proper k -> bytes_ok v = true ->
  (byte mod 4 = 0 -> Nlen v mod 4 = 0 -> page < Nlen (store_pages locs) -> byte < 4096 -> byte + Nlen v <= 4096 ->
   exists k', tock_write locs t k page byte v = (k', Ok tt) /\ ready k' /\ proper k' /\ wrote k k' (place locs page byte) v) /\
  (byte mod 4 <> 0 \/ Nlen v mod 4 <> 0 -> tock_write locs t k page byte v = (k, Err NotAligned)) /\
  (byte mod 4 = 0 -> Nlen v mod 4 = 0 -> Nlen (store_pages locs) <= page \/ 4096 < byte + Nlen v ->
   tock_write locs t k page byte v = (k, Err OutOfBounds)).
Proof.
  intros New R P B. split; [ | split].
  - intros. now apply (tock_write_ok locs t New).
  - intro H. unfold tock_write. replace (t_word_size t) with 4 by now rewrite (t_is locs t New). rewrite !aligned_4.
    destruct (N.eqb_spec (byte mod 4) 0); cbn [negb orb]; [ | reflexivity].
    destruct (N.eqb_spec (Nlen v mod 4) 0); cbn [negb orb]; [ | reflexivity]. lia.
  - intros H1 H2 H. unfold tock_write. replace (t_word_size t) with 4 by now rewrite (t_is locs t New). rewrite !aligned_4, H1, H2.
    cbn [N.eqb negb orb]. now rewrite (slice_bad locs t New).
Qed.
Print Assumptions C68_write.

(** Erasing a page sets its bits, wears that page, and changes nothing else; there is nothing to erase
    outside the pages. *)
Theorem C68_erase locs t k page : tock_new locs = Ok t -> ready k -> proper k ->
  (page < Nlen (store_pages locs) ->
   exists k', tock_erase locs t k page = (k', Ok tt) /\ ready k' /\ proper k' /\ erased k k' (place locs page 0)) /\
  (Nlen (store_pages locs) <= page -> tock_erase locs t k page = (k, Err OutOfBounds)).
Proof.
  intros New R P. split.
  - now apply (tock_erase_ok locs t New).
  - intro H. unfold tock_erase. now rewrite (slice_bad locs t New) by (left; exact H).
Qed.
Print Assumptions C68_erase.

(** A slice of no bytes at the end of the last page fits in its page, but reading it is refused: readers of
    empty slices (like LinearStorage) cannot rely on the bounds alone. *)
Theorem C68_empty_refuted : ~ (forall locs t k page byte len, tock_new locs = Ok t -> page < t_num_pages t ->
  byte + N.of_nat len <= t_page_size t -> exists b, tock_read t k page byte len = Ok b).
Proof.
  intro H. pose (k := mkKernel (fun _ => 255) (fun _ => 0%nat) (fun _ => 0%nat) false true).
  destruct (H [mkLocation Store 0 4096] (mkTock 4 4096 1 2 10000 [mkRange 0 4096]) k 0 4096 0%nat) as [b E].
  - reflexivity.
  - reflexivity.
  - discriminate.
  - vm_compute in E. discriminate.
Qed.
Print Assumptions C68_empty_refuted.

(** ** The store on a board *)
Section STORE.
Variable locs : list location.
Variable t : tock_storage.
Variable F : format.
Hypothesis New : tock_new locs = Ok t.
Hypothesis Apart : apart locs.
Hypothesis Fmt : has_format (numbers t) F.
Let G : wff F := format_wff (numbers t) F Fmt.

Lemma board_format : num_pages F = length (store_pages locs) /\ (virt_page_size F + 2 = 1024)%nat.
Proof.
  pose proof (PropsStore.storage_format (numbers t) F Fmt) as (E1 & E2 & _). rewrite (t_is locs t New) in E1, E2. cbn in E1. split.
  - rewrite E1. unfold Nlen. apply Nat2N.id.
  - unfold virt_page_size. rewrite E2. reflexivity.
Qed.

Lemma legal_w32 k f page word ws : proper k -> agrees locs k f -> (page < length (store_pages locs))%nat -> (word + length ws <= 1024)%nat ->
  (forall i, (i < length ws)%nat -> sub (nth i ws 0) (Store.Model.cells f page (word + i)%nat)) -> Forall w32 ws.
Proof.
  intros P A Hp Hw S. apply Forall_forall. intros w Hi. apply (In_nth _ _ 0) in Hi as (i & Hi & <-).
  eapply w32_sub; [exact (S i Hi) | ]. destruct (A page Hp) as [_ C]. destruct (C (word + i)%nat ltac:(lia)) as [-> _].
  apply get_word_32, P.
Qed.
Lemma perform_legal k f a : ready k -> proper k -> agrees locs k f -> Wp.legal F f a ->
  exists k', perform locs t k a = (k', Ok tt) /\ ready k' /\ proper k' /\ agrees locs k' (Store.Model.do_action f a).
Proof.
  intros R P A L. destruct board_format as [E1 E2]. destruct a as [page word ws | page]; cbn [Wp.legal perform] in L |- *.
  - destruct L as (L1 & L2 & L3 & _). rewrite E1 in L1.
    pose proof (legal_w32 k f page word ws P A L1 ltac:(lia) L3) as W.
    pose proof (bytes_of_length ws) as Ln.
    destruct (tock_write_ok locs t New k (N.of_nat page) (4 * N.of_nat word) (bytes_of ws) R P (bytes_of_ok ws)) as (k' & E & R' & P' & Wr).
    + unfold Nlen. lia.
    + unfold Nlen. lia.
    + lia.
    + rewrite N.mul_comm. apply N.mod_mul. discriminate.
    + unfold Nlen. rewrite Ln, Nat2N.inj_mul, N.mul_comm. apply N.mod_mul. discriminate.
    + exists k'. split; [exact E | ]. split; [exact R' | ]. split; [exact P' | ].
      apply (agrees_write locs t New Apart k k' f page word ws P P' W L1 ltac:(lia) A Wr).
  - destruct L as (L1 & _). rewrite E1 in L1.
    destruct (tock_erase_ok locs t New k (N.of_nat page) R P) as (k' & E & R' & P' & Er); [unfold Nlen; lia | ].
    exists k'. split; [exact E | ]. split; [exact R' | ]. split; [exact P' | ].
    exact (agrees_erase locs t New Apart k k' f page L1 A Er).
Qed.
Lemma perform_trace R f l f' : Wp.trace F R f l f' -> forall k, ready k -> proper k -> agrees locs k f ->
  exists k', perform_all locs t k (map snd l) = (k', Ok tt) /\ ready k' /\ proper k' /\ agrees locs k' f'.
Proof.
  induction 1 as [f | f a l f' L _ T IH]; intros k Rk P A; cbn [map perform_all snd].
  - exists k. auto.
  - destruct (perform_legal k f a Rk P A L) as (k1 & E & R1 & P1 & A1). rewrite E. exact (IH k1 R1 P1 A1).
Qed.

(** Whatever the store does to its flash in a call or when it starts can be done on the board, and the board's
    flash is then the one the store was proved to leave. *)
Theorem C68_call s c r s' l k : reachable F (Running s) -> call_ok F s c -> do_call F c s = (r, s', l) ->
  ready k -> proper k -> agrees locs k (Store.Model.fl s) ->
  exists k', perform_all locs t k (map snd l) = (k', Ok tt) /\ ready k' /\ proper k' /\ agrees locs k' (Store.Model.fl s').
Proof.
  intros Hr Hc E R P A. destruct (History.reachable_holds F G _ Hr) as (m & O).
  exact (perform_trace _ _ _ _ (History.wp_trace F _ _ _ _ _ _ _ (History.wp_call F G s m c O Hc) E) k R P A).
Qed.
Theorem C68_start f r s l k : reachable F (Off f) -> Store.Model.boot F f = (r, s, l) ->
  ready k -> proper k -> agrees locs k f ->
  exists k', perform_all locs t k (map snd l) = (k', Ok tt) /\ ready k' /\ proper k' /\ agrees locs k' (Store.Model.fl s).
Proof.
  intros Hr E R P A. destruct (History.reachable_holds F G _ Hr) as (m & O).
  exact (perform_trace _ _ _ _ (History.wp_trace F _ _ _ _ _ _ _ (History.wp_boot F G f m O) E) k R P A).
Qed.
(** The store reads words of its pages; they are what the storage returns. *)
Theorem C68_words k f p x : proper k -> agrees locs k f -> (p < num_pages F)%nat -> (x < virt_page_size F + 2)%nat ->
  tock_read t k (N.of_nat p) (4 * N.of_nat x) 4 = Ok (word_bytes (Store.Model.cells f p x)).
Proof.
  intros P A Hp Hx. destruct board_format as [E1 E2]. rewrite E1 in Hp. rewrite E2 in Hx.
  rewrite (proj1 (C68_read locs t k (N.of_nat p) (4 * N.of_nat x) 4 New)) by (unfold Nlen; lia).
  destruct (A p Hp) as [_ C]. destruct (C x Hx) as [-> _]. rewrite get_word_bytes by exact P. cbn [seq map].
  assert (Q : forall i, place locs (N.of_nat p) (4 * N.of_nat x + i) = place locs (N.of_nat p) (4 * N.of_nat x) + i) by (intro; unfold place; lia).
  rewrite !Q. change (N.of_nat 0) with 0. now rewrite N.add_0_r.
Qed.

(** A loss of power while the board performs an operation of the store leaves a flash that the proofs about the
    store allow for such a loss. *)
Theorem C68_interrupted k f a m : proper k -> agrees locs k f -> respects (numbers t) f a ->
  action_cut locs k a m ->
  exists f', Store.Model.interrupted F f a f' /\ reads_as locs m f' /\
    forall p x, ~ ((p < length (store_pages locs))%nat /\ (x < 1024)%nat) -> Store.Model.cells f' p x = Store.Model.cells f p x.
Proof.
  intros P A L C. destruct board_format as [E1 E2].
  set (inr := fun p x : nat => ((p <? length (store_pages locs))%nat && (x <? 1024)%nat)).
  set (g := fun p x : nat => if inr p x then get_word m (place locs (N.of_nat p) (4 * N.of_nat x)) else Store.Model.cells f p x).
  assert (Bits : forall p x i, (p < length (store_pages locs))%nat -> (x < 1024)%nat ->
     N.testbit (get_word m (place locs (N.of_nat p) (4 * N.of_nat x))) i = N.testbit (Store.Model.cells f p x) i \/
     N.testbit (get_word m (place locs (N.of_nat p) (4 * N.of_nat x))) i = N.testbit (Store.Model.cells (Store.Model.do_action f a) p x) i).
  { intros p x i Hp Hx. destruct (A p Hp) as [_ Ap]. destruct (Ap x Hx) as [-> _].
    destruct C as [page word ws m C | page m C].
    - cbn [respects numbers s_num_pages s_page_size] in L. destruct L as (L1 & L2 & L3).
      rewrite (t_is locs t New) in L1, L2. cbn [t_num_pages t_page_size] in L1, L2. unfold Nlen in L1.
      assert (W : Forall w32 ws).
      { apply (legal_w32 k f page word ws P A); [lia | lia | ]. intros j Hj b Hb. exact (proj1 (L3 j Hj) b Hb). }
      set (ptr := place locs (N.of_nat page) (4 * N.of_nat word)) in *.
      assert (W4 : words4 (bytes_of ws)) by (exists (length ws); apply bytes_of_length).
      destruct (wrote_words k ptr (bytes_of ws) P (bytes_of_ok ws) W4) as [Wr P'].
      pose proof (agrees_write locs t New Apart k _ f page word ws P P' W ltac:(lia) ltac:(lia) A Wr) as A'.
      destruct (A' p Hp) as [_ Ap']. destruct (Ap' x Hx) as [-> _].
      apply mix_word; [exact P | exact P' | ]. exact (write_cut_bits k ptr (bytes_of ws) m C P (bytes_of_ok ws)).
    - cbn [respects numbers s_num_pages] in L. destruct L as (L1 & _).
      rewrite (t_is locs t New) in L1. cbn [t_num_pages] in L1. unfold Nlen in L1.
      set (ptr := place locs (N.of_nat page) 0) in *.
      set (k' := mkKernel (fun x => if inside x ptr 4096 then 255 else k_mem k x)
                          (fun x => if inside x ptr 4096 then 0%nat else k_writes k x)
                          (fun x => if x =? ptr then S (k_erases k x) else k_erases k x) false true).
      assert (P' : proper k') by (intro y; cbn; destruct (inside y ptr 4096); [reflexivity | apply P]).
      assert (Er : erased k k' ptr).
      { split; [ | split].
        - intros y Hy. apply inside_false in Hy as I. cbn. rewrite I. split; [reflexivity | ]. split; [reflexivity | ].
          destruct (N.eqb_spec y ptr) as [-> | ]; [exfalso; apply Hy; unfold within; lia | reflexivity].
        - intros y Hy. apply inside_spec in Hy. cbn. now rewrite Hy.
        - reflexivity. }
      pose proof (agrees_erase locs t New Apart k k' f page ltac:(lia) A Er) as A'.
      destruct (A' p Hp) as [_ Ap']. destruct (Ap' x Hx) as [-> _].
      apply mix_word; [exact P | exact P' | ]. destruct C as [C1 C2]. intros y j. cbn [k' k_mem].
      destruct (inside y ptr 4096) eqn:I; [apply inside_spec in I; apply (C2 y j I) | left; apply inside_false in I; now rewrite (C1 y I)]. }
  set (f' := match a with
             | Store.Model.AWrite _ _ _ =>
                 Store.Model.mkFlash g
                   (fun p x => if (g p x =? Store.Model.cells (Store.Model.do_action f a) p x) then Store.Model.writes (Store.Model.do_action f a) p x else Store.Model.writes f p x)
                   (Store.Model.erases f)
             | Store.Model.AErase page =>
                 let e := Store.Model.page_erased F (Store.Model.mkFlash g (fun _ _ => 0%nat) (fun _ => 0%nat)) page in
                 Store.Model.mkFlash g
                   (fun p x => if (p =? page)%nat && e then 0%nat else Store.Model.writes f p x)
                   (fun p => if (p =? page)%nat && e then S (Store.Model.erases f p) else Store.Model.erases f p)
             end).
  assert (Cells : forall p x, Store.Model.cells f' p x = g p x) by (intros; unfold f'; destruct a; reflexivity).
  exists f'. split; [split | split].
  - intros p x i. rewrite Cells. unfold g. destruct (inr p x) eqn:I; [ | now left].
    apply andb_true_iff in I as [I1 I2]. apply Nat.ltb_lt in I1, I2. apply Bits; assumption.
  - unfold f'. destruct a as [page word ws | page].
    + split; [intros p x; reflexivity | intro p; reflexivity].
    + split; [intros p x; reflexivity | intro p; reflexivity].
  - intros p x Hp Hx. rewrite Cells. unfold g, inr. apply Nat.ltb_lt in Hp, Hx. now rewrite Hp, Hx.
  - intros p x N. rewrite Cells. unfold g. destruct (inr p x) eqn:I; [ | reflexivity]. exfalso. apply N.
    apply andb_true_iff in I as [I1 I2]. apply Nat.ltb_lt in I1, I2. auto.
Qed.
End STORE.
Print Assumptions C68_call.
Print Assumptions C68_start.
Print Assumptions C68_words.
Print Assumptions C68_interrupted.

(** The dongle: 16 pages and 4 pages (boards/nordic/nrf52840_dongle_opensk/src/main.rs 74-86); a new flash. *)
Definition ex_locs : list location := [mkLocation Store 0xC0000 0x10000; mkLocation Store 0xD0000 0x4000].
Definition ex_tock : tock_storage := mkTock 4 4096 20 2 10000 [mkRange 0xC0000 0x10000; mkRange 0xD0000 0x4000].
Definition ex_kernel : kernel := mkKernel (fun _ => 255) (fun _ => 0%nat) (fun _ => 0%nat) false true.
Definition ex_format : format := mkFormat (N.to_nat 4096) 20 (N.to_nat 10000).
Lemma ex_new : tock_new ex_locs = Ok ex_tock. Proof. reflexivity. Qed.
Lemma ex_apart : apart ex_locs.
Proof. repeat constructor. cbn. lia. Qed.
Lemma ex_agrees : agrees ex_locs ex_kernel blank_flash.
Proof. intros p _. split; [reflexivity | ]. intros x _. split; reflexivity. Qed.
Lemma ex_start : let '(r, s, l) := Store.Model.boot ex_format blank_flash in
  r = Ok tt /\ match map snd l with [Store.Model.AWrite 0 0 [w]] => w <> ERASED | _ => False end.
Proof. vm_compute. split; [reflexivity | ]. discriminate. Qed.

Definition ex_k1 : kernel := fst (tock_write ex_locs ex_tock ex_kernel 19 4088 [1; 2; 3; 4; 255; 255; 255; 255]).
Definition ex_k2 : kernel := fst (tock_write ex_locs ex_tock ex_k1 19 4088 [3; 3; 255; 6; 1; 1; 1; 1]).
Definition ex_k3 : kernel := fst (tock_erase ex_locs ex_tock ex_k2 3).
Example C68_nonvacuous :
  tock_new ex_locs = Ok ex_tock /\ apart ex_locs /\ has_format (numbers ex_tock) ex_format /\
  ready ex_kernel /\ proper ex_kernel /\ agrees ex_locs ex_kernel blank_flash /\ reachable ex_format (Off blank_flash) /\
  (exists s l w, Store.Model.boot ex_format blank_flash = (Ok tt, s, l) /\ map snd l = [Store.Model.AWrite 0 0 [w]] /\ w <> ERASED) /\
  snd (tock_write ex_locs ex_tock ex_k1 19 4088 [3; 3; 255; 6; 1; 1; 1; 1]) = Ok tt /\
  tock_read ex_tock ex_k3 19 4088 8 = Ok [1; 2; 3; 4; 1; 1; 1; 1] /\
  place ex_locs 19 4088 = 0xD3FF8 /\ k_writes ex_k3 0xD3FF8 = 1%nat /\ k_writes ex_k3 0xD3FFC = 1%nat /\ k_erases ex_k3 0xC3000 = 1%nat /\
  action_cut ex_locs ex_k1 (Store.Model.AWrite 19 1022 [0; 0]) (fun x => if x =? 0xD3FF9 then 0 else k_mem ex_k1 x).
Proof.
  split; [exact ex_new | ]. split; [exact ex_apart | ]. split; [reflexivity | ]. split; [split; reflexivity | ]. split; [intro; reflexivity | ].
  split; [exact ex_agrees | ]. split; [now left | ]. split.
  - pose proof ex_start as H. destruct (Store.Model.boot ex_format blank_flash) as [[r s] l]. destruct H as [-> H].
    exists s, l. destruct (map snd l) as [ | [[] [] [ | w []] | ] []]; try contradiction. exists w. auto.
  - split; [vm_compute; reflexivity | ]. split; [vm_compute; reflexivity | ]. split; [vm_compute; reflexivity | ]. split; [vm_compute; reflexivity | ].
    split; [vm_compute; reflexivity | ]. split; [vm_compute; reflexivity | ].
    constructor. change (bytes_of [0; 0]) with [0; 0; 0; 0; 0; 0; 0; 0].
    replace (place ex_locs (N.of_nat 19) (4 * N.of_nat 1022)) with 0xD3FF8 by (vm_compute; reflexivity). apply cut_word.
    + intros x H. destruct (N.eqb_spec x 0xD3FF9) as [-> | ]; [exfalso; apply H; unfold within; lia | reflexivity].
    + intros x i H. destruct (N.eqb_spec x 0xD3FF9) as [-> | ]; [right | left; reflexivity].
      replace (k_mem (write_words ex_k1 0xD3FF8 [0; 0; 0; 0]) 0xD3FF9) with 0 by (vm_compute; reflexivity). reflexivity.
Qed.
