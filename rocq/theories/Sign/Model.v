(** Signatures and key agreement on P-256 (libraries/crypto/src/ecdsa.rs, ecdh.rs, ec/exponent256.rs).
    None is a panic.  Arithmetic is without overflow checks, as in release builds. *)
From Verif Require Import Base Int.Model Point.Model.
From Verif Require Hash.Model.
Open Scope Z_scope.

(** exponent256.rs 55-59: modn. *)
Definition modn (x : int256) : option int256 := modd x c_N.
(** exponent256.rs 74-76: non_zero. *)
Definition non_zero (x : int256) : option int256 := if is_zero x then None else Some x.

(** ** ecdsa.rs *)

(** 62-66 (and ecdh.rs 48-52): genpk. *)
Definition genpk (d : int256) : option point_p256 := base_point_mul false d.
(** 117-137: try_sign; Some None: no signature from this k. *)
Definition try_sign (d k msg : int256) : option (option signature) :=
  let? P := base_point_mul false k in
  let? r := modn (px P) in
  match non_zero r with
  | None => Some None
  | Some r =>
      let? rd := modmul r d c_N in
      let? (s, top) := add rd msg in
      let? k' := inv k in
      let? s := modmul_top k' s top c_N in
      match non_zero s with
      | None => Some None
      | Some s => Some (Some (mkSig r s))
      end
  end.

Section Width.
(** Of usize. *)
Variable width : N.

(** 73-86: sign_rng; [draws] are the outputs of gen_uniform_256.  Some None: all are used up, while the code would
    draw again. *)
Fixpoint sign_draws (d m : int256) (draws : list int256) : option (option signature) :=
  match draws with
  | [] => Some None
  | x :: draws' =>
      let? k := gen_uniform x in
      match k with
      | None => sign_draws d m draws'
      | Some k =>
          let? g := try_sign d k m in
          match g with Some g => Some (Some g) | None => sign_draws d m draws' end
      end
  end.
Definition sign_rng (d : int256) (msg : bytes) (draws : list int256) : option (option signature) :=
  let? h := Hash.Model.hash width msg in
  let? m := modn (from_bin h) in
  sign_draws d m draws.

(** 276-283: Rfc6979. *)
Record rfc6979 := mkRfc { rfc_k : bytes; rfc_v : bytes }.
(** 289-319: new. *)
Definition rfc_new (d : int256) (msg : bytes) : option rfc6979 :=
  let? h1 := Hash.Model.hash width msg in
  let v := repeat 0x01%N 32 in
  let k := repeat 0x00%N 32 in
  let? h := modd (from_bin h1) c_N in
  let? k := Hash.Model.hmac width k (v ++ [0x00%N] ++ to_bin d ++ to_bin h) in
  let? v := Hash.Model.hmac width k v in
  let? k := Hash.Model.hmac width k (v ++ [0x01%N] ++ to_bin d ++ to_bin h) in
  let? v := Hash.Model.hmac width k v in
  Some (mkRfc k v).
(** 321-334: next. *)
Definition rfc_next (s : rfc6979) : option (int256 * rfc6979) :=
  let? t := Hash.Model.hmac width (rfc_k s) (rfc_v s) in
  let? k := Hash.Model.hmac width (rfc_k s) (rfc_v s ++ [0x00%N]) in
  let? v := Hash.Model.hmac width k (rfc_v s) in
  Some (from_bin t, mkRfc k v).
(** 96-110: the loop of sign_rfc6979, at most [fuel] times.  Some None: more are needed. *)
Fixpoint sign_loop (fuel : nat) (d m : int256) (s : rfc6979) : option (option signature) :=
  match fuel with
  | O => Some None
  | S fuel' =>
      let? (x, s) := rfc_next s in
      let? k := nonzero_checked x in
      match k with
      | None => sign_loop fuel' d m s
      | Some k =>
          let? g := try_sign d k m in
          match g with Some g => Some (Some g) | None => sign_loop fuel' d m s end
      end
  end.
(** 89-111: sign_rfc6979. *)
Definition sign_rfc6979 (fuel : nat) (d : int256) (msg : bytes) : option (option signature) :=
  let? h := Hash.Model.hash width msg in
  let? m := modn (from_bin h) in
  let? s := rfc_new d msg in
  sign_loop fuel d m s.

(** 257-267: verify_hash_vartime. *)
Definition verify_hash (Q : point_p256) (hash : bytes) (g : signature) : option bool :=
  let? m := modn (from_bin hash) in
  let? v := inv (sig_s g) in
  let? u := modmul m v c_N in
  let? v := modmul (sig_r g) v c_N in
  let? P := points_mul false Q u v in
  let? x := modn (px P) in
  Some (digits_eqb x (sig_r g)).
(** 269-274: verify_vartime. *)
Definition verify (Q : point_p256) (msg : bytes) (g : signature) : option bool :=
  let? h := Hash.Model.hash width msg in verify_hash Q h g.
End Width.

(** 234-237 (and ecdh.rs 108-111): from_coordinates. *)
Definition from_coordinates (x y : bytes) : option (option point_p256) :=
  let? ok := point_checked (from_bin x) (from_bin y) in
  Some (if ok : bool then Some (mkPoint (from_bin x) (from_bin y)) else None).
(** 249-252 (and ecdh.rs 114-117): to_coordinates. *)
Definition to_coordinates (P : point_p256) : bytes * bytes := (to_bin (px P), to_bin (py P)).

(** ** ecdh.rs *)

(** 54-68, 74-79: exchange_x. *)
Definition exchange_x (a : int256) (Q : point_p256) : option bytes :=
  let? P := point_mul false Q a in Some (to_bin (px P)).
