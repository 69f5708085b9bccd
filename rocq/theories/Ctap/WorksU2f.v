(** Registrations and logins over CTAP1 succeed once the user touches the device. *)
From Verif Require Import Base Facts Hid.Model U2f.Model Cbor.Model Ctap.Crypto Ctap.Types Ctap.Machine
  Ctap.Commands Ctap.Parse Ctap.System Ctap.Logic Ctap.History Ctap.Track Ctap.Pin Ctap.PinChange
  Ctap.Success Ctap.Auth Ctap.Creds Ctap.Answers Ctap.Enumerate Ctap.Keys Ctap.Protect Ctap.Seal Ctap.Stored Ctap.Sealed
  Ctap.Owner Ctap.Works.
From Coq Require Import Lia List.
Import ListNotations.
Open Scope list_scope.

(** A touch is there and has not timed out. *)
Definition touched (w : world) : Prop := (w_now w < has_up (v_up (w_v w)))%N.

Section WorksU2f.
  Variable e : env.
  Notation pr := (e_prims e).
  Hypothesis NF : nofault e.
  Hypothesis K : prims_ok pr.
  Hypothesis R : rnd_ok e.
  Hypothesis C : cfg_ok (e_cfg e).
  Hypothesis Valid : forall i, ecdsa_valid pr (e_rnd e i 32) = true.
  Hypothesis NoEnforce : c_enforce_uv (e_cfg e) = false.

  Lemma x_sw {A} s (m : M status A) w Q : ends m w Q -> ends (to_sw s m) w Q.
  Proof. intros (a & w1 & H & q). exists a, w1. unfold to_sw, map_status. rewrite H. auto. Qed.

  Lemma x_consume w (Q : bool -> world -> Prop) :
    touched w -> (forall w1, w_p w1 = w_p w -> Q true w1) -> ends consume w Q.
  Proof.
    intros T H. unfold consume. apply e_bind, e_now. apply e_bind, e_gets. unfold consume_up, is_elapsed.
    destruct (has_up (v_up (w_v w)) <=? w_now w)%N eqn:E; [apply N.leb_le in E; unfold touched in T; lia | ]. cbn [negb].
    apply e_bind, e_modify. intros w1 P1 _ _. apply e_ret. now apply H.
  Qed.

  (** Without a touch the request starts the wait for one and changes nothing else. *)
  Definition waiting (w w1 : world) : Prop :=
    w_p w1 = w_p w /\ w_now w1 = w_now w /\ needs_up (v_up (w_v w1)) = (w_now w + 10000)%N.
  Lemma x_prompt b w :
    p_uv (w_p w) = false -> wants_touch b -> ~ touched w ->
    exists w1, u2f_process e b w = (Err SW_COND_USE_NOT_SATISFIED, w1) /\ waiting w w1.
  Proof.
    intros Pu W T. unfold u2f_process.
    assert (A : ends (to_sw SW_INTERNAL_EXCEPTION (has_always_uv e)) w
      (fun b w1 => b = false /\ w_p w1 = w_p w /\ w_v w1 = w_v w /\ w_now w1 = w_now w)).
    { apply x_sw. unfold has_always_uv. rewrite NoEnforce. apply e_load; [exact NF | ]. intros w1 P1 V1 N1. rewrite Pu. auto. }
    destruct A as (al & w1 & E & -> & P1 & V1 & N1). unfold bind at 1. rewrite E.
    unfold bind at 1. cbn [guard negb ret]. unfold bind at 1, lift at 1. unfold wants_touch in W.
    assert (CU : consume_up (w_now w1) (v_up (w_v w1)) = (false, mkUp (w_now w + 10000)%N (has_up (v_up (w_v w))))).
    { rewrite N1, V1. unfold consume_up, is_elapsed. unfold touched in T.
      destruct (has_up (v_up (w_v w)) <=? w_now w)%N eqn:X; [reflexivity | apply N.leb_gt in X; contradiction]. }
    assert (CC : exists w2, consume w1 = (Ok false, w2) /\ waiting w w2).
    { unfold consume, bind, now, gets. rewrite CU. eexists. split; [reflexivity | ]. cbn. unfold waiting. cbn. auto. }
    destruct CC as (w2 & C2 & Wt).
    destruct (u2f_parse b) as [x | s]; [ | contradiction]. destruct x as [c a | c a kh [] | | ]; try contradiction.
    - exists w2. split; [ | exact Wt]. unfold bind at 1. rewrite C2. reflexivity.
    - exists w2. split; [ | exact Wt]. unfold bind. rewrite C2. reflexivity.
  Qed.

  (** Then a touch in time, used in time, is there. *)
  Lemma touch_comes w w1 d1 d2 : waiting w w1 -> (d1 < 10000)%N -> (d2 < 30000)%N ->
    let w2 := fold_left (step e) [(OpTick d1, None); (OpTouch, None); (OpTick d2, None)] w1 in
    touched w2 /\ w_p w2 = w_p w.
  Proof.
    intros (P & N & U) H1 H2. cbn. unfold grant_up, is_elapsed, touched. rewrite U, N. cbn.
    destruct (w_now w + 10000 <=? w_now w + d1)%N eqn:E; [apply N.leb_le in E; lia | ]. cbn. split; [ | exact P].
    unfold make_timer, TOUCH_TIMEOUT_MS. lia.
  Qed.

  Lemma x_u2f b x w (Q : bytes -> world -> Prop) :
    p_uv (w_p w) = false -> u2f_parse b = Ok x -> touched w ->
    (forall w1, w_p w1 = w_p w ->
      match x with
      | U2fRegister c a => ends (u2f_register e c a) w1 Q
      | U2fAuthenticate c a kh fl => ends (u2f_authenticate e c a kh fl) w1 Q
      | _ => False
      end) ->
    ends (u2f_process e b) w Q.
  Proof.
    intros Pu Hx T H. unfold u2f_process. apply e_bind, x_sw. unfold has_always_uv. rewrite NoEnforce.
    apply e_load; [exact NF | ]. intros w1 P1 V1 N1. rewrite Pu. apply e_bind, e_guard; [reflexivity | ].
    apply e_bind. eapply e_lift; [exact Hx | ].
    assert (T1 : touched w1) by (unfold touched; now rewrite V1, N1).
    destruct x as [c a | c a kh fl | | ]; try (destruct (H w eq_refl)).
    - apply e_bind, x_consume; [exact T1 | ]. intros w2 P2. apply e_bind, e_guard; [reflexivity | ]. apply H. congruence.
    - apply e_bind. destruct fl.
      + apply e_ret. now apply H.
      + apply e_bind, x_consume; [exact T1 | ]. intros w2 P2. apply e_guard; [reflexivity | ]. apply H. congruence.
      + apply e_ret. now apply H.
  Qed.

  Lemma x_u2f_register c a w ak cert :
    length a = 32%nat -> bytes_ok a = true -> p_batch (w_p w) = Some (ak, cert) -> ecdsa_valid pr ak = true ->
    ends (u2f_register e c a) w (fun _ _ => True).
  Proof.
    intros La Oa B V. unfold u2f_register. cbv zeta. unfold new_key. apply e_bind, e_bind, (x_draw e). intros i w1 (P1 & _). apply e_ret.
    apply e_bind, e_guard; [apply Valid | ]. apply e_bind, x_sw. apply (x_wrap e NF K R C).
    { split.
      - split; [apply R | ]. split; [apply R | discriminate].
      - split; assumption.
      - intros b0 Hx. discriminate. }
    { intros b0 Hx. discriminate. }
    intros id w2 L B2. apply e_bind, e_guard; [now rewrite L | ]. apply e_bind.
    assert (G : ends (map_status SW_PANIC attestation_sw (load e p_batch)) w2 (fun r _ => r = Some (ak, cert))).
    { unfold ends, map_status, load. rewrite NF. eexists _, _. split; [reflexivity | ]. unfold batch in B2. congruence. }
    eapply x_weak; [exact G | ]. cbv beta. intros r w3 ->. apply e_bind, e_guard; [exact V | ]. now apply e_ret.
  Qed.

  Lemma x_u2f_authenticate c a kh fl s w :
    stands_for e (w_p w) kh s -> so_rp_hash s = a -> so_policy s = None -> key_valid e (so_key s) = true -> fl <> CheckOnly ->
    ends (u2f_authenticate e c a kh fl) w (fun r _ => exists counter, length counter = 4%nat /\
      r = 1%N :: counter ++ sign pr (so_key s) (a ++ 1%N :: counter ++ c)).
  Proof.
    intros S Ha Po KV Fl.
    assert (G : ends (u2f_authenticate e c a kh fl) w (fun _ _ => True)).
    { unfold u2f_authenticate. apply e_bind, x_sw. rewrite <- Ha. apply (x_unwrap e NF kh s); [exact S | ]. intros w1 _.
      rewrite Po. cbn [listed]. apply e_bind, e_guard; [destruct fl; congruence | ].
      apply e_bind, x_sw. eapply x_weak with (Q1 := fun _ _ => True).
      { unfold increment_counter. destruct (c_counter _); [ | now apply e_ret].
        eapply x_weak; [ | intros; exact Logic.I]. apply t_bind; [apply t_draw | ]. intro b. unfold incr_global_signature_counter.
        apply t_bind; [now apply t_load | ]. intro. apply t_store; [exact NF | reflexivity]. }
      intros [] w2 _. apply e_bind, x_sw. unfold generate_auth_data, global_signature_counter. apply e_bind, (x_load e NF). intros w3 _.
      apply e_ret. apply e_bind, x_sw. unfold sign_and_encode. rewrite KV. apply e_ret. now apply e_ret. }
    destruct G as (r & w1 & E & _). exists r, w1. split; [exact E | ].
    destruct (u2f_signs e kh s c a fl w r w1 S E) as (_ & _ & ct & A & L). exists ct. split; [exact L | exact A].
  Qed.
End WorksU2f.
