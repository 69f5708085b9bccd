(** Specification side for the U2F front end: ISO 7816-4 command APDUs, U2F raw messages
    and histories of touches and requests. Independent of the parser. *)
From Verif Require Import Base.
From Verif.Hid Require Import Model.
From Verif.U2f Require Import Model.

(** A length field of one or two bytes where zero stands for the maximum. *)
Definition le1_value (b : N) : N := if (b =? 0)%N then 256%N else b.
Definition le2_value (n : N) : N := if (n =? 0)%N then 65536%N else n.

Definition header_bytes (h : header) : bytes := [h_cla h; h_ins h; h_p1 h; h_p2 h].

(** ISO/IEC 7816-4, 5.1: the seven well-formed command APDUs. [iso_apdu f h d ne] says
    that [f] carries header [h], command data [d] and expected response length [ne]. *)
Inductive iso_apdu : bytes -> header -> bytes -> N -> Prop :=
| iso_1 h : iso_apdu (header_bytes h) h [] 0
| iso_2S h le : iso_apdu (header_bytes h ++ [le]) h [] (le1_value le)
| iso_3S h d : (1 <= Nlen d <= 255)%N ->
    iso_apdu (header_bytes h ++ [Nlen d] ++ d) h d 0
| iso_4S h d le : (1 <= Nlen d <= 255)%N ->
    iso_apdu (header_bytes h ++ [Nlen d] ++ d ++ [le]) h d (le1_value le)
| iso_2E h le : (le <= 65535)%N ->
    iso_apdu (header_bytes h ++ [0%N] ++ be_bytes 2 le) h [] (le2_value le)
| iso_3E h d : (1 <= Nlen d <= 65535)%N ->
    iso_apdu (header_bytes h ++ [0%N] ++ be_bytes 2 (Nlen d) ++ d) h d 0
| iso_4E h d le : (1 <= Nlen d <= 65535)%N -> (le <= 65535)%N ->
    iso_apdu (header_bytes h ++ [0%N] ++ be_bytes 2 (Nlen d) ++ d ++ be_bytes 2 le)
             h d (le2_value le).

(** What the code accepts beyond, and instead of, ISO: a three-byte length field of zero is
    taken as "no data" (not as case 2E), and after an extended length field the expected
    length may also have one byte, or three bytes with a leading zero. *)
Inductive lenient_apdu : bytes -> header -> bytes -> N -> Prop :=
| len_zero_lc h : lenient_apdu (header_bytes h ++ [0; 0; 0]%N) h [] 0
| len_zero_lc_le2 h le : (le <= 65535)%N ->
    lenient_apdu (header_bytes h ++ [0; 0; 0]%N ++ be_bytes 2 le) h [] (le2_value le)
| len_le1 h d le : (Nlen d <= 65535)%N ->
    lenient_apdu (header_bytes h ++ [0%N] ++ be_bytes 2 (Nlen d) ++ d ++ [le])
                 h d (le1_value le)
| len_le3 h d le : (Nlen d <= 65535)%N -> (le <= 65535)%N ->
    lenient_apdu (header_bytes h ++ [0%N] ++ be_bytes 2 (Nlen d) ++ d ++ [0%N] ++ be_bytes 2 le)
                 h d (le2_value le).

(** Case 2E, the one ISO case the code does not support. *)
Definition is_case_2E (f : bytes) : Prop :=
  exists h le, (le <= 65535)%N /\ f = header_bytes h ++ [0%N] ++ be_bytes 2 le.

(** U2F raw message formats 1.2, sections 4.1, 5.1, 6.1: the meaning of header and data. *)
Inductive u2f_message : header -> bytes -> u2f_cmd -> Prop :=
| um_register p1 p2 c a : length c = 32 -> length a = 32 ->
    u2f_message (mkHeader 0 1 p1 p2) (c ++ a) (U2fRegister c a)
| um_check p2 c a kh : length c = 32 -> length a = 32 ->
    u2f_message (mkHeader 0 2 7 p2) (c ++ a ++ [Nlen kh] ++ kh)
                (U2fAuthenticate c a kh CheckOnly)
| um_enforce p2 c a kh : length c = 32 -> length a = 32 ->
    u2f_message (mkHeader 0 2 3 p2) (c ++ a ++ [Nlen kh] ++ kh)
                (U2fAuthenticate c a kh EnforceUpAndSign)
| um_dont p2 c a kh : length c = 32 -> length a = 32 ->
    u2f_message (mkHeader 0 2 8 p2) (c ++ a ++ [Nlen kh] ++ kh)
                (U2fAuthenticate c a kh DontEnforceUpAndSign)
| um_version p1 p2 : u2f_message (mkHeader 0 3 p1 p2) [] U2fVersion
| um_vendor ins p1 p2 d : (0x40 <= ins <= 0xBF)%N ->
    u2f_message (mkHeader 0 ins p1 p2) d (U2fVendor d).

(** Times of a history do not decrease. *)
Fixpoint times_ok (h : list (N * up_event)) : Prop :=
  match h with
  | [] => True
  | e :: h' => (forall e', In e' h' -> (fst e <= fst e')%N) /\ times_ok h'
  end.

(** The answer given to a request at time [t] after history [h] on a fresh device. *)
Definition request_granted (h : list (N * up_event)) (t : N) : bool :=
  fst (consume_up t (fst (up_run up_init h))).

(** No request in the history segment [b], that follows history [a], was granted. *)
Definition none_granted (a b : list (N * up_event)) : Prop :=
  forall b1 t b2, b = b1 ++ (t, Request) :: b2 -> request_granted (a ++ b1) t = false.

Definition no_touch (h : list (N * up_event)) : Prop :=
  forall t, ~ In (t, Touch) h.
