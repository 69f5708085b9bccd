(** Vocabulary of the properties about PIN/UV auth tokens: what the log of a device (newest item
    first) says about the token in force. *)
From Verif Require Import Base Hid.Model U2f.Model Cbor.Model Ctap.Crypto Ctap.Types Ctap.Machine
  Ctap.Commands Ctap.Parse Ctap.System.

(** When a token was last issued in this power cycle. *)
Fixpoint last_issue (log : list item) : option N :=
  match log with
  | [] | LEv EvBoot :: _ => None
  | LEv (EvIssue t _ _) :: _ => Some t
  | _ :: l => last_issue l
  end.
(** The values of the token for the two protocols, and whether they were handed out: when the PIN
    is changed the values are replaced by new ones that no client learns. *)
Fixpoint token_values (log : list item) : option (bool * bytes * bytes) :=
  match log with
  | [] | LEv EvBoot :: _ => None
  | LEv (EvIssue _ a b) :: _ => Some (true, a, b)
  | LEv (EvRenew a b) :: _ => Some (false, a, b)
  | _ :: l => token_values l
  end.
(** The permissions and the RP ID granted to the last issued token. *)
Fixpoint last_grant (log : list item) : option (N * option bytes) :=
  match log with
  | [] | LEv EvBoot :: _ | LEv (EvIssue _ _ _) :: _ => None
  | LEv (EvGrant p r) :: _ => Some (p, r)
  | _ :: l => last_grant l
  end.

(** [sg] is the MAC of [msg] by the token in force for protocol [p] at time [now]: the token was
    issued in this power cycle less than 30 seconds ago and was granted permission [perm] and an
    RP ID that [rp_ok] accepts. *)
Definition authorised (pr : prims) (log : list item) (now : N) (p : pin_proto) (msg sg : bytes)
  (perm : N) (rp_ok : option bytes -> Prop) : Prop :=
  exists t handed a b perms rp,
    last_issue log = Some t /\ (now < t + 30000)%N /\
    token_values log = Some (handed, a, b) /\
    sg = authenticate pr p (match p with V1 => a | V2 => b end) msg /\
    last_grant log = Some (perms, rp) /\ N.land perm perms <> 0%N /\ rp_ok rp.

(** The RP ID granted to a token, if any, covers a credential management request: a token that is
    bound to an RP ID gives access to that RP's credentials only. *)
Definition cm_rp_ok (pr : prims) (p : cm_params) (creds : list (N * cred)) (g : option bytes) : Prop :=
  match cm_sub_ p with
  | CmMetadata | CmRpsBegin => g = None
  | CmCredsBegin =>
      g = None \/ exists r d, g = Some r /\ cm_data_ p = Some d /\ cd_hash d = Some (sha256 pr r)
  | CmDelete | CmUpdate =>
      g = None \/ exists r d x k c, g = Some r /\ cm_data_ p = Some d /\ cd_cred d = Some x /\
        In (k, c) creds /\ cr_id c = de_id x /\ cr_rp c = r
  | CmRpsNext | CmCredsNext => True
  end.
