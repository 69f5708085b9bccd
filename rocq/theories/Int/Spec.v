(** What the 256-bit integers and the encodings should compute, written without the code.
    - SEC 2 version 2.0, section 2.4.2 (secp256r1);
    - ITU-T X.690 for the encoding of signatures (sequence of two integers). *)
From Verif Require Import Base.
Open Scope Z_scope.

(** The number that digits of 32 bits stand for, least significant first, and the numbers of 256 bits. *)
Fixpoint value (x : list Z) : Z :=
  match x with
  | [] => 0
  | d :: x' => d + 2 ^ 32 * value x'
  end.
Definition digits (x : list Z) : Prop := Forall (fun d => 0 <= d < 2 ^ 32) x.
Definition is_int256 (x : list Z) : Prop := length x = 8%nat /\ digits x.

(** The number that bytes stand for, most significant first. *)
Fixpoint big_endian (b : bytes) : Z :=
  match b with
  | [] => 0
  | x :: b' => Z.of_N x * 2 ^ (8 * Z.of_nat (length b')) + big_endian b'
  end.

(** secp256r1. *)
Definition p : Z := 2 ^ 224 * (2 ^ 32 - 1) + 2 ^ 192 + 2 ^ 96 - 1.
Definition n : Z := 0xFFFFFFFF00000000FFFFFFFFFFFFFFFFBCE6FAADA7179E84F3B9CAC2FC632551.
Definition b : Z := 0x5AC635D8AA3A93E7B3EBBD55769886BC651D06B0CC53B0F63BCE3C3E27D2604B.
Definition on_curve (x y : Z) : Prop := (y * y) mod p = (x * x * x - 3 * x + b) mod p.

(** X.690, 8.3: the contents of an INTEGER is a two's complement number of at least one byte, and the
    first nine bits are neither all zeros nor all ones. *)
Definition two_complement (c : bytes) (x : Z) : Prop :=
  x = big_endian c - match c with
                     | first :: _ => if (128 <=? first)%N then 2 ^ (8 * Z.of_nat (length c)) else 0
                     | [] => 0
                     end.
Definition minimal (c : bytes) : Prop :=
  match c with
  | [] => False
  | [_] => True
  | first :: second :: _ =>
      ~ (first = 0%N /\ (second < 128)%N) /\ ~ (first = 255%N /\ (128 <= second)%N)
  end.
Definition der_integer (x : Z) (e : bytes) : Prop :=
  exists c, two_complement c x /\ minimal c /\ bytes_ok c = true /\ (Nlen c < 128)%N /\ e = [2%N; Nlen c] ++ c.
Definition der_signature (r s : Z) (e : bytes) : Prop :=
  exists er es, der_integer r er /\ der_integer s es /\ (Nlen (er ++ es) < 128)%N /\
    e = [48%N; Nlen (er ++ es)] ++ er ++ es.
