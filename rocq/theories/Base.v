(** Shared vocabulary: results, byte strings, big-endian integers and the
    lexicographic order of byte strings. *)
From Coq Require Export List NArith ZArith Bool Lia.
From Coq Require Export ZifyBool ZifyNat ZifyN.
Export ListNotations.
Ltac Zify.zify_post_hook ::= Z.div_mod_to_equations.

Arguments N.add : simpl never.
Arguments N.sub : simpl never.
Arguments N.mul : simpl never.
Arguments N.div : simpl never.
Arguments N.modulo : simpl never.
Arguments N.pow : simpl never.
Arguments N.shiftl : simpl never.
Arguments N.shiftr : simpl never.
Arguments N.land : simpl never.
Arguments N.lor : simpl never.
Arguments N.eqb : simpl never.
Arguments N.ltb : simpl never.
Arguments N.leb : simpl never.
Arguments Z.add : simpl never.
Arguments Z.sub : simpl never.
Arguments Z.mul : simpl never.
Arguments Z.opp : simpl never.
Arguments Z.eqb : simpl never.
Arguments Z.ltb : simpl never.
Arguments Z.leb : simpl never.
Arguments Z.pow : simpl never.

(** Rust's [Result]. *)
Inductive res (E A : Type) : Type :=
| Ok (a : A)
| Err (e : E).
Arguments Ok {E A} a.
Arguments Err {E A} e.

(** Rust's [?] operator. *)
Definition rbind {E A B} (r : res E A) (f : A -> res E B) : res E B :=
  match r with Ok a => f a | Err e => Err e end.
Notation "x <- r ;; k" := (rbind r (fun x => k))
  (at level 61, r at next level, right associativity).
Notation "' p <- r ;; k" := (rbind r (fun x => let p := x in k))
  (at level 61, p pattern, r at next level, right associativity).

Definition is_ok {E A} (r : res E A) : bool :=
  match r with Ok _ => true | Err _ => false end.

(** Byte strings are lists of [N]; [byte_ok] says that an element is a [u8]. *)
Definition byte := N.
Definition bytes := list N.
Definition byte_ok (b : N) : bool := (b <? 256)%N.
Definition bytes_ok (l : bytes) : bool := forallb byte_ok l.

(** Length of a list as an [N]. *)
Definition Nlen {A} (l : list A) : N := N.of_nat (length l).

(** Lexicographic comparison of byte strings, as in Rust's [Ord for [u8]]. *)
Fixpoint lexcmp (a b : bytes) : comparison :=
  match a, b with
  | [], [] => Eq
  | [], _ :: _ => Lt
  | _ :: _, [] => Gt
  | x :: a', y :: b' =>
      match N.compare x y with
      | Eq => lexcmp a' b'
      | c => c
      end
  end.

(** Big-endian bytes of an integer, most significant first. *)
Fixpoint be_bytes (k : nat) (n : N) : bytes :=
  match k with
  | O => []
  | S k' => ((n / 256 ^ (N.of_nat k')) mod 256)%N :: be_bytes k' n
  end.

(** Value of a big-endian byte string, accumulating from [acc]. *)
Definition of_be_acc (acc : N) (l : bytes) : N :=
  fold_left (fun a b => (a * 256 + b)%N) l acc.
Definition of_be (l : bytes) : N := of_be_acc 0 l.
