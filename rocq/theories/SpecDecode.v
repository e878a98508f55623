(** Specification of what the decoders accept *)
From Coq Require Import String ZArith List.
From Verif Require Import GoModel ReadModel Fld Rist PedersenModel InnerProductModel RangeProofModel MlsagModel.
Import ListNotations.
Local Open Scope list_scope.

(** [E] relates encodings to values.  On a reader that does not fail, the decoder succeeds exactly
    when the input starts with an encoding of some value; it then returns the value and leaves what
    follows the encoding; otherwise it returns an error. *)
Definition decodes {A} (p : rprog (res A)) (E : bytes -> A -> Prop) : Prop :=
  forall r, (forall e, ~ In (RFault e) r) ->
    let bytes_of := fun r => concat (map (fun x => match x with RChunk b => b | RFault _ => [] end) r) in
    (forall v rest, (exists r', exec p r = (Ok v, r') /\ bytes_of r' = rest) <-> (exists e, bytes_of r = e ++ rest /\ E e v)) /\
    ((exists err, fst (exec p r) = Err err) <-> forall v rest e, bytes_of r = e ++ rest -> ~ E e v).

(** the same for decoders that read the whole input *)
Definition decodes_all {A} (p : rprog (res A)) (E : bytes -> A -> Prop) : Prop :=
  forall r, (forall e, ~ In (RFault e) r) ->
    let b := concat (map (fun x => match x with RChunk b => b | RFault _ => [] end) r) in
    (Z.of_nat (length b) < 2 ^ 38)%Z ->
    (forall v, exec p r = (Ok v, []) <-> E b v) /\
    ((exists err, fst (exec p r) = Err err) <-> forall v, ~ E b v) /\
    (forall v r', exec p r = (Ok v, r') -> r' = []).

(** encodings of several values one after the other *)
Definition seq_of {A} (E : bytes -> A -> Prop) (b : bytes) (l : list A) : Prop :=
  exists bs, b = concat bs /\ Forall2 E bs l.

Section Spec.
Context (R : rist).
(** 32 bytes that SetBytes accepts as a point; any 32 bytes are a scalar *)
Definition is_point (b : bytes) (p : pt R) : Prop := length b = 32 /\ pset R b = Some p.
Definition is_scalar (b : bytes) (s : F) : Prop := length b = 32 /\ sset R b = s.
(** a big-endian 32-bit number *)
Definition is_count (b : bytes) (n : Z) : Prop := (0 <= n < 2 ^ 32)%Z /\ b = put_u32 n.

Definition is_commitment (blind : F) (b : bytes) (c : commitment R) : Prop := is_point b (c_val R c) /\ c_blind R c = blind.
Definition is_commitments (b : bytes) (cs : list (commitment R)) : Prop :=
  exists n b', b = n ++ b' /\ is_count n (Z.of_nat (length cs)) /\ seq_of (is_commitment f0) b' cs.

(** the decoded keys and responses are appended to those of the receiver *)
Definition is_keys (old : pubkeys R) (n : Z) (b : bytes) (p : pubkeys R) : Prop :=
  exists l, seq_of is_point b l /\ length l = Z.to_nat n /\ p = mkPK R (pk_decoy R old) (pk_keys R old ++ l).
Definition is_responses (old : list F) (n : Z) (b : bytes) (a : list F) : Prop :=
  exists l, seq_of is_scalar b l /\ length l = Z.to_nat n /\ a = old ++ l.
(** c, number of rows, length of a row, responses, and possibly keys; the message, and the keys when
    they are not part of the encoding, are those of the receiver *)
Definition is_signature (old : sig R) (keys : bool) (b : bytes) (s : sig R) : Prop :=
  exists bc bn bk brs bks k, b = bc ++ bn ++ bk ++ brs ++ bks /\
    is_scalar bc (sg_c R s) /\ is_count bn (Z.of_nat (length (sg_r R s))) /\ is_count bk k /\
    seq_of (is_responses [] k) brs (sg_r R s) /\
    (if keys then seq_of (is_keys (mkPK R false []) k) bks (sg_pub R s) /\ length (sg_pub R s) = length (sg_r R s)
     else bks = [] /\ sg_pub R s = sg_pub R old) /\
    sg_msg R s = sg_msg R old.

(** 32 bytes of which it is not checked whether they are a point *)
Definition loose_point (b : bytes) (p : pt R) : Prop :=
  length b = 32 /\ p = match pset R b with Some q => q | None => pjunk R b end.
(** a, b, the points L_1, R_1, L_2, R_2, .., and possibly 32 ignored bytes *)
Definition is_ipp (b : bytes) (p : ipproof R) : Prop :=
  exists ba bb blr extra, b = ba ++ bb ++ blr ++ extra /\ is_scalar ba (ip_A R p) /\ is_scalar bb (ip_B R p) /\
    length (ip_L R p) = length (ip_R R p) /\
    seq_of loose_point blr (concat (map (fun lr => [fst lr; snd lr]) (combine (ip_L R p) (ip_R R p)))) /\
    (length extra = 0 \/ length extra = 32).
(** the commitments, when they are not part of the encoding, are those of the receiver *)
Definition is_proof (old : proof R) (commits : bool) (b : bytes) (p : proof R) : Prop :=
  exists bV bA bS b1 b2 b3 b4 b5 bip ip, b = bV ++ bA ++ bS ++ b1 ++ b2 ++ b3 ++ b4 ++ b5 ++ bip /\
    (if commits then is_commitments bV (pf_V R p) else bV = [] /\ pf_V R p = pf_V R old) /\
    is_point bA (pf_A R p) /\ is_point bS (pf_S R p) /\ is_point b1 (pf_T1 R p) /\ is_point b2 (pf_T2 R p) /\
    is_scalar b3 (pf_taux R p) /\ is_scalar b4 (pf_mu R p) /\ is_scalar b5 (pf_t R p) /\
    pf_ip R p = Some ip /\ is_ipp bip ip.
End Spec.
