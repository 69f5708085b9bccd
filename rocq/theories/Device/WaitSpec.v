(** Specification vocabulary for waiting. *)
From Verif Require Import Base.
From Verif Require Hid.Model Hid.Spec Ctap.Machine.
From Verif Require Import Device.Wait.
Import Hid.Model Ctap.Machine.

(** The keepalive packet of CTAPHID (CTAP 2.1, section 11.2.9.1.7): command 0x3B with the initialization bit, one byte of
    payload, STATUS_UPNEEDED = 2. *)
Definition upneeded (cid : chan) : packet := cid ++ [0xBB; 0; 1; 2]%N ++ repeat 0%N 56.

(** A CANCEL (section 11.2.9.1.5) for the channel [ch]: received on its transport, with its channel ID and the command 0x11
    with the initialization bit. *)
Definition is_cancel (ch : Ctap.Machine.channel) (l : link) : bool :=
  match l with
  | LReceived t p => transport_eqb t (transport_of ch) && bytes_eqb (firstn 4 p) (cid_of ch) && (nth 4 p 0 =? 0x91)%N
  | _ => false
  end.

(** Received packets are packets. *)
Definition packets_ok (s : surroundings) : Prop := forall n t p d, s_link s n = (LReceived t p, d) -> Hid.Spec.packet_ok p.

(** The k-th wait is for 0 ms, then 100 ms. *)
Definition delay (k : nat) : N := match k with O => 0 | _ => 100 end.
(** The k-th round: a wait that nobody answers, then a keepalive. *)
Definition round (s : surroundings) (ch : Ctap.Machine.channel) (k : nat) : list call :=
  [CWait (delay k) UpTimeout (snd (s_wait s k));
   CSend (transport_of ch) (upneeded (cid_of ch)) (fst (s_link s k)) (snd (s_link s k))].
(** The first k rounds leave the question open. *)
Definition open (s : surroundings) (ch : Ctap.Machine.channel) (k : nat) : Prop :=
  forall j, (j < k)%nat -> fst (s_wait s j) = UpTimeout /\ fst (s_link s j) <> LError /\ is_cancel ch (fst (s_link s j)) = false.
Definition rounds (s : surroundings) (ch : Ctap.Machine.channel) (k : nat) : list call := flat_map (round s ch) (seq 0 k).
