(** More messages that a platform sends, for examples. *)
From Verif Require Import Base Facts Hid.Model U2f.Model Cbor.Model Ctap.Crypto Ctap.Types Ctap.Machine
  Ctap.Commands Ctap.Parse Ctap.System Ctap.Toy.
From Coq Require Import String Lia List.
Import ListNotations.
Open Scope list_scope.
Open Scope N_scope.

Definition toy_rp : bytes := str "example.com".
Definition cdh0 : bytes := repeat 0xCD 32.
Definition history := list (op * option nat).
(** The token value that a client of protocol 1 obtained. *)
Definition client_token (h : history) : bytes := pp_token (v_proto1 (w_v (run toy h))).
Definition with_auth (param proto : N) (token : option bytes) (msg : bytes) : list (N * value) :=
  match token with
  | Some t => [(param, VBytes (authenticate toy_prims V1 t msg)); (proto, VUnsigned 1)]
  | None => []
  end.
Definition mc_msg (rp : bytes) (user : bytes) (rk : bool) (token : option bytes) : bytes :=
  message 1 ([(1, VBytes cdh0); (2, VMap [(text "id", VText rp)]); (3, VMap [(text "id", VBytes user)]);
              (4, VArray [VMap [(text "alg", VNegative (-7)); (text "type", text "public-key")]]);
              (7, VMap [(text "rk", VSimple (if rk then STrue else SFalse))])] ++ with_auth 8 9 token cdh0).
Definition ga_msg (rp : bytes) (up : bool) (token : option bytes) : bytes :=
  message 2 ([(1, VText rp); (2, VBytes cdh0); (5, VMap [(text "up", VSimple (if up then STrue else SFalse))])] ++
             with_auth 6 7 token cdh0).
Definition cm_msg (sub : N) (data : option value) (token : option bytes) : bytes :=
  let body := match data with Some d => or_nil (cbor_write d) | None => [] end in
  message 10 ([(1, VUnsigned sub)] ++ match data with Some d => [(2, d)] | None => [] end ++
    match token with
    | Some t => [(3, VUnsigned 1); (4, VBytes (authenticate toy_prims V1 t (sub :: body)))]
    | None => []
    end).
Definition token_history (perms : N) (rp : option bytes) : history :=
  [on (set_pin_msg toy_pin); on (token_perms_msg toy_pin perms rp)].
(** A resident credential of [toy_rp], made with a token. *)
Definition h_token : history := token_history 3 (Some toy_rp).
Definition h_made : history := h_token ++ [on (mc_msg toy_rp [1; 1] true (Some (client_token h_token)))].
(** A credential that the device does not store; its ID is the key handle of U2F too. *)
Definition answer (h : history) (m : bytes) : outcome := fst (run_op toy (OpMessage m ch0) (run toy h)).
Definition new_id (o : outcome) : bytes :=
  match o with
  | OutCtap (Ok (RMakeCredential r)) =>
      let ad := mr_auth_data r in
      firstn (N.to_nat (256 * nth 53 ad 0 + nth 54 ad 0)) (skipn 55 ad)
  | _ => []
  end.
Definition u2f_auth_msg (p1 : N) (kh : bytes) : bytes :=
  let data := cdh0 ++ sha256 toy_prims toy_rp ++ [N.of_nat (length kh)] ++ kh in
  [0; 2; p1; 0; 0] ++ be_bytes 2 (N.of_nat (length data)) ++ data ++ [0; 0].
Definition toy_kh : bytes := Eval vm_compute in new_id (answer [] (mc_msg toy_rp [1; 1] false None)).
Definition h_kh : history := [on (mc_msg toy_rp [1; 1] false None)].
