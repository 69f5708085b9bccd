(** Property theorems C79 for CTAP1: registrations and logins succeed. *)
From Verif Require Import Base Facts Hid.Model U2f.Model Cbor.Model Ctap.Crypto Ctap.Types Ctap.Machine
  Ctap.Commands Ctap.Parse Ctap.System Ctap.Logic Ctap.History Ctap.Track Ctap.Pin Ctap.PinChange Ctap.Success
  Ctap.Answers Ctap.Creds Ctap.Enumerate Ctap.Keys Ctap.Protect Ctap.Seal Ctap.Stored Ctap.Sealed Ctap.Toy Ctap.ToyMore
  Ctap.PropsToken Ctap.PropsEnumerate Ctap.PropsSeal Ctap.Owner Ctap.Works Ctap.WorksU2f.
From Coq Require Import String List Lia.
Import ListNotations.
Open Scope list_scope.

(** The usual course of a CTAP1 request after a history: it is answered well at once, or refused for
    want of a touch.  If the user then touches the device within 10 seconds and the request is sent
    again within 30 seconds of the touch, it is answered well. *)
Definition answered_with_touch (e : env) (h : history) (b : bytes) (good : bytes -> Prop) : Prop :=
  (exists r w', run_op e (OpU2f b) (run e h) = (OutU2f (Ok r), w') /\ good r) \/
  ((exists w', run_op e (OpU2f b) (run e h) = (OutU2f (Err SW_COND_USE_NOT_SATISFIED), w')) /\
   forall d1 d2, (d1 < 10000)%N -> (d2 < 30000)%N ->
     exists r w', run_op e (OpU2f b) (run e (h ++ [(OpU2f b, None); (OpTick d1, None); (OpTouch, None); (OpTick d2, None)])) =
       (OutU2f (Ok r), w') /\ good r).

Lemma with_touch e h b x good :
  nofault e -> c_enforce_uv (e_cfg e) = false -> p_uv (w_p (run e h)) = false ->
  u2f_parse b = Ok x -> wants_touch b ->
  (forall w, w_p w = w_p (run e h) ->
    match x with
    | U2fRegister c a => ends (u2f_register e c a) w (fun r _ => good r)
    | U2fAuthenticate c a kh fl => ends (u2f_authenticate e c a kh fl) w (fun r _ => good r)
    | _ => False
    end) ->
  answered_with_touch e h b good.
Proof.
  intros NF NE Pu Hx W H. unfold answered_with_touch.
  destruct (N.ltb (w_now (run e h)) (has_up (v_up (w_v (run e h))))) eqn:T; [apply N.ltb_lt in T | apply N.ltb_ge in T].
  - left. destruct (x_u2f e NF NE b x (run e h) (fun r _ => good r) Pu Hx T H) as (r & w' & E & G).
    exists r, w'. split; [ | exact G]. cbn [run_op]. now rewrite E.
  - right. destruct (x_prompt e NF NE b (run e h) Pu W ltac:(unfold touched; lia)) as (w1 & E & Wt).
    split; [exists w1; cbn [run_op]; now rewrite E | ]. intros d1 d2 D1 D2.
    destruct (touch_comes e _ _ d1 d2 Wt D1 D2) as [T2 P2]. cbv zeta in T2, P2.
    assert (Q : run e (h ++ [(OpU2f b, None); (OpTick d1, None); (OpTouch, None); (OpTick d2, None)]) =
      fold_left (step e) [(OpTick d1, None); (OpTouch, None); (OpTick d2, None)] w1).
    { rewrite run_split. f_equal. unfold step. cbn [fst snd run_op]. now rewrite E. }
    rewrite Q. clear Q. set (w2 := fold_left _ _ w1) in *. clearbody w2.
    destruct (x_u2f e NF NE b x w2 (fun r _ => good r) ltac:(now rewrite P2) Hx T2) as (r & w' & E2 & G).
    { intros w3 P3. apply H. congruence. }
    exists r, w'. split; [ | exact G]. cbn [run_op]. now rewrite E2.
Qed.

(** A CTAP1 registration is answered, after any history of a device with its attestation key, unless
    user verification is always demanded. *)
Theorem C79_u2f_register : forall e h b c a ak cert,
  nofault e -> prims_ok (e_prims e) -> rnd_ok e -> cfg_ok (e_cfg e) ->
  (forall i, ecdsa_valid (e_prims e) (e_rnd e i 32) = true) ->
  c_enforce_uv (e_cfg e) = false -> p_uv (w_p (run e h)) = false ->
  p_batch (w_p (run e h)) = Some (ak, cert) -> ecdsa_valid (e_prims e) ak = true ->
  bytes_ok b = true -> u2f_parse b = Ok (U2fRegister c a) ->
  answered_with_touch e h b (fun _ => True).
Proof.
  intros e h b c a ak cert NF K R C Valid NE Pu Ba Va Ob Hx. destruct (u2f_register_bytes b c a Ob Hx) as [La Oa].
  apply (with_touch e h b (U2fRegister c a)); auto; [unfold wants_touch; now rewrite Hx | ].
  intros w P. apply (x_u2f_register e NF K R C Valid c a w ak cert); auto. now rewrite P.
Qed.
Print Assumptions C79_u2f_register.

(** A key handle once issued, across any later history without reset, power losses included: an
    authentication that names it for its application is answered, with a signature by the registered
    key over the application, presence, the counter and the challenge. *)
Theorem C79_u2f_login : forall e h1 b c a r w1,
  nofault e -> prims_ok (e_prims e) -> rnd_ok e -> cfg_ok (e_cfg e) ->
  (forall i, ecdsa_valid (e_prims e) (e_rnd e i 32) = true) -> c_enforce_uv (e_cfg e) = false ->
  bytes_ok b = true -> u2f_parse b = Ok (U2fRegister c a) ->
  run_op e (OpU2f b) (run e h1) = (OutU2f (Ok r), w1) ->
  exists kh k rest, r = [5%N] ++ (4%N :: cx (pub_of (e_prims e) k) ++ cy (pub_of (e_prims e) k)) ++ [Nlen kh] ++ kh ++ rest /\
    length kh = 241%nat /\
    forall h2 b2 c2,
      let h := h1 ++ (OpU2f b, None) :: h2 in
      no_reset e h2 -> p_uv (w_p (run e h)) = false ->
      u2f_parse b2 = Ok (U2fAuthenticate c2 a kh EnforceUpAndSign) ->
      answered_with_touch e h b2 (fun r2 => exists counter, length counter = 4%nat /\
        r2 = 1%N :: counter ++ sign (e_prims e) k (a ++ 1%N :: counter ++ c2)).
Proof.
  intros e h1 b c a r w1 NF K R C Valid NE Ob Hx H. destruct (u2f_register_bytes b c a Ob Hx) as [La Oa].
  assert (G : exists w0, u2f_register e c a w0 = (Ok r, w1)).
  { cbn [run_op] in H. destruct (u2f_process e b (run e h1)) as [r0 w0] eqn:E. injection H as -> ->.
    unfold u2f_process in E. apply bind_ok in E as (al & w2 & _ & E). apply bind_ok in E as (? & w3 & _ & E).
    apply bind_ok in E as (x' & w4 & E4 & E). unfold lift in E4. rewrite Hx in E4. injection E4 as <- <-.
    apply bind_ok in E as (? & w5 & _ & E). apply bind_ok in E as (? & w6 & _ & E). eauto. }
  destruct G as (w0 & G). destruct (u2f_sealed e C K R c a w0 r w1 La Oa G) as (kh & k & pre & cert & sg & _ & KV & S & -> & ->).
  exists kh, k, (cert ++ sg). split; [unfold uncompressed; rewrite <- !app_assoc; reflexivity | ].
  split; [destruct S as (? & ? & SL & _); exact SL | ]. intros h2 b2 c2 h N Pu Hx2.
  assert (S' : stands_for e (w_p (run e h)) kh (mkSource k a None None)).
  { destruct S as (m & M & U). exists m. split; [ | exact U]. unfold h. rewrite run_split. apply master_history; [ | exact N | ].
    - pose proof (run_wf e (h1 ++ [(OpU2f b, None)])) as W. rewrite run_app in W. exact W.
    - unfold step. cbn [fst snd]. rewrite H. exact M. }
  apply (with_touch e h b2 (U2fAuthenticate c2 a kh EnforceUpAndSign)); auto; [unfold wants_touch; now rewrite Hx2 | ].
  intros w P. apply (x_u2f_authenticate e NF c2 a kh EnforceUpAndSign (mkSource k a None None)); auto; [ | discriminate].
  now rewrite P.
Qed.
Print Assumptions C79_u2f_login.

(** The first attempt is refused, the second is answered; a touch that comes too late does not help. *)
Example C79_u2f_nonvacuous :
  let h0 : history := [(OpVendor ch0 (Some (repeat 7%N 32, [9; 9]%N)) None, None)] in
  let course m d1 d2 : history := [(OpU2f m, None); (OpTick d1, None); (OpTouch, None); (OpTick d2, None)] in
  let h1 := h0 ++ course u2f_reg_msg 9999%N 29999%N in
  let kh := match u2f_answer h1 u2f_reg_msg with OutU2f (Ok r) => firstn 241 (skipn 67 r) | _ => [] end in
  let m := u2f_auth_msg 3 kh in
  let h := h1 ++ [(OpU2f u2f_reg_msg, None); (OpU2f m, Some 2%nat); (OpTick 5, None)] in
  c_enforce_uv toy_cfg = false /\ p_uv (w_p (run toy h0)) = false /\ p_uv (w_p (run toy h)) = false /\
  p_batch (w_p (run toy h0)) = Some (repeat 7%N 32, [9; 9]%N) /\
  bytes_ok u2f_reg_msg = true /\ u2f_parse u2f_reg_msg = Ok (U2fRegister cdh0 toy_app) /\
  u2f_parse m = Ok (U2fAuthenticate cdh0 toy_app kh EnforceUpAndSign) /\
  u2f_answer h0 u2f_reg_msg = OutU2f (Err SW_COND_USE_NOT_SATISFIED) /\ is_u2f_ok h1 u2f_reg_msg = true /\
  u2f_answer h m = OutU2f (Err SW_COND_USE_NOT_SATISFIED) /\ is_u2f_ok (h ++ course m 0%N 12%N) m = true /\
  u2f_answer (h ++ course m 10000%N 12%N) m = OutU2f (Err SW_COND_USE_NOT_SATISFIED) /\
  u2f_answer (h ++ course m 0%N 30000%N) m = OutU2f (Err SW_COND_USE_NOT_SATISFIED).
Proof. vm_compute. repeat split; reflexivity. Qed.
