(** The receiver of a Decode call, also when the call fails

    The decoders of MlsagModel.v, PedersenModel.v and RangeProofModel.v return the new value of
    the receiver on success only.  Here the same methods are modelled a second time, as programs
    that return the receiver together with the error, so that what a failing call leaves behind is
    visible.  innerproduct.Proof.Decode ([ipp_Decode]) has this form already. *)
From Coq Require Import String ZArith List.
From Verif Require Import GoModel Fld Rist ReadModel PedersenModel InnerProductModel RangeProofModel MlsagModel.
Import ListNotations.
Local Open Scope string_scope.
Local Open Scope list_scope.

(** "if err := d1(s); err != nil { return err }; d2(s)" *)
Definition then_ {S} (d1 d2 : S -> rprog (S * res unit)) (s : S) : rprog (S * res unit) :=
  rbind (d1 s) (fun '(s', r) => match r with Ok _ => d2 s' | Err e => RRet (s', Err e) | Panic => RRet (s', Panic) end).
(** "x, err := p; if err != nil { return err }; k(x)" with receiver s *)
Definition read_ {S A} (p : rprog (res A)) (k : A -> S -> rprog (S * res unit)) (s : S) : rprog (S * res unit) :=
  rbind p (fun r => match r with Ok x => k x s | Err e => RRet (s, Err e) | Panic => RRet (s, Panic) end).
(** d called on a field of the receiver *)
Definition on_ {S T} (get : S -> T) (set : T -> S -> S) (d : T -> rprog (T * res unit)) (s : S) : rprog (S * res unit) :=
  rbind (d (get s)) (fun '(t, r) => RRet (set t s, r)).
(** an assignment to the receiver *)
Definition assign_ {S} (f : S -> S) (s : S) : rprog (S * res unit) := RRet (f s, Ok tt).
(** for i := lo; i < lo+cnt; i++ { if err := body(i); err != nil { return err } } *)
Fixpoint for_ {S} (lo cnt : nat) (body : nat -> S -> rprog (S * res unit)) (s : S) : rprog (S * res unit) :=
  match cnt with
  | O => RRet (s, Ok tt)
  | Datatypes.S k => then_ (body lo) (for_ (Datatypes.S lo) k body) s
  end.
(** d called on rows[i] *)
Definition at_ {T} (d : T -> rprog (T * res unit)) (i : nat) (rows : list T) : rprog (list T * res unit) :=
  match idx rows i with
  | Ok row => rbind (d row) (fun '(row', r) => match set_idx rows i row' with Ok rows' => RRet (rows', r) | Err e => RRet (rows, Err e) | Panic => RRet (rows, Panic) end)
  | Err e => RRet (rows, Err e)
  | Panic => RRet (rows, Panic)
  end.

Section Recv.
Context (R : rist).
(** [junk old x]: the point left in the receiver old by old.SetBytes(x) when x is no encoding.
    It may depend on both in an arbitrary way. *)
Context (junk : pt R -> bytes -> pt R).

(** ** mlsag *)
(** pubkeys.go:44-64 and 65-67: every decoded key is appended at once *)
Definition pk_DecodeR (numKeys : Z) : pubkeys R -> rprog (pubkeys R * res unit) :=
  for_ 0 (Z.to_nat numKeys) (fun _ => read_ (r_bytes 32) (fun x =>
    match pset R x with
    | Some k => assign_ (fun p => mkPK R (pk_decoy R p) (pk_keys R p ++ [k]))
    | None => fun p => RRet (p, Err "point not encodable")
    end)).
(** responses.go:46-62 *)
Definition rsp_DecodeR (numResponses : Z) : list F -> rprog (list F * res unit) :=
  for_ 0 (Z.to_nat numResponses) (fun _ => read_ (r_bytes 32) (fun x => assign_ (fun a => a ++ [sset R x]))).

Definition set_c (c : F) (s : sig R) : sig R := mkSig R c (sg_r R s) (sg_pub R s) (sg_msg R s).
Definition set_r (r : list (list F)) (s : sig R) : sig R := mkSig R (sg_c R s) r (sg_pub R s) (sg_msg R s).
Definition set_pub (ks : list (pubkeys R)) (s : sig R) : sig R := mkSig R (sg_c R s) (sg_r R s) ks (sg_msg R s).

(** mlsag.go:67-110: s.c is assigned first; s.r and s.PubKeys are replaced by slices of lenR empty
    rows, which are then filled in place *)
Definition sig_DecodeR (decodeKeys : bool) : sig R -> rprog (sig R * res unit) :=
  then_ (read_ (r_bytes 32) (fun x => assign_ (set_c (sset R x))))
  (read_ r_u32 (fun lenR =>
   read_ r_u32 (fun numResponses s =>
   RAlloc lenR (
   then_ (assign_ (set_r (repeat [] (Z.to_nat lenR))))
   (then_ (for_ 0 (Z.to_nat lenR) (fun i => on_ (sg_r R) set_r (at_ (rsp_DecodeR numResponses) i)))
   (if negb decodeKeys then assign_ (fun s => s)
    else fun s =>
      RAlloc lenR (
      then_ (assign_ (set_pub (repeat (mkPK R false []) (Z.to_nat lenR))))
      (for_ 0 (Z.to_nat lenR) (fun i => on_ (sg_pub R) set_pub (at_ (pk_DecodeR numResponses) i))) s))) s)))).

(** ** pedersen *)
(** pedersen.go:71-86 *)
Definition com_DecodeR : commitment R -> rprog (commitment R * res unit) :=
  read_ (r_bytes 32) (fun x =>
    match pset R x with
    | Some p => assign_ (fun c => mkCom R p (c_blind R c))
    | None => fun c => RRet (mkCom R (junk (c_val R c) x) (c_blind R c), Err "could not set bytes for commitment, not an encodable point")
    end).

(** ** rangeproof *)
(** rangeproof.go:628-639 and 640-648 *)
Definition readerToPointR : pt R -> rprog (pt R * res unit) :=
  read_ (r_bytes 32) (fun x =>
    match pset R x with
    | Some p => assign_ (fun _ => p)
    | None => fun old => RRet (junk old x, Err "point not encodable")
    end).
Definition readerToScalarR : F -> rprog (F * res unit) :=
  read_ (r_bytes 32) (fun x => assign_ (fun _ => sset R x)).

Definition set_V V (p : proof R) := mkProof R V (pf_A R p) (pf_S R p) (pf_T1 R p) (pf_T2 R p) (pf_taux R p) (pf_mu R p) (pf_t R p) (pf_ip R p).
Definition set_A A (p : proof R) := mkProof R (pf_V R p) A (pf_S R p) (pf_T1 R p) (pf_T2 R p) (pf_taux R p) (pf_mu R p) (pf_t R p) (pf_ip R p).
Definition set_S X (p : proof R) := mkProof R (pf_V R p) (pf_A R p) X (pf_T1 R p) (pf_T2 R p) (pf_taux R p) (pf_mu R p) (pf_t R p) (pf_ip R p).
Definition set_T1 X (p : proof R) := mkProof R (pf_V R p) (pf_A R p) (pf_S R p) X (pf_T2 R p) (pf_taux R p) (pf_mu R p) (pf_t R p) (pf_ip R p).
Definition set_T2 X (p : proof R) := mkProof R (pf_V R p) (pf_A R p) (pf_S R p) (pf_T1 R p) X (pf_taux R p) (pf_mu R p) (pf_t R p) (pf_ip R p).
Definition set_taux x (p : proof R) := mkProof R (pf_V R p) (pf_A R p) (pf_S R p) (pf_T1 R p) (pf_T2 R p) x (pf_mu R p) (pf_t R p) (pf_ip R p).
Definition set_mu x (p : proof R) := mkProof R (pf_V R p) (pf_A R p) (pf_S R p) (pf_T1 R p) (pf_T2 R p) (pf_taux R p) x (pf_t R p) (pf_ip R p).
Definition set_t x (p : proof R) := mkProof R (pf_V R p) (pf_A R p) (pf_S R p) (pf_T1 R p) (pf_T2 R p) (pf_taux R p) (pf_mu R p) x (pf_ip R p).
Definition set_ip x (p : proof R) := mkProof R (pf_V R p) (pf_A R p) (pf_S R p) (pf_T1 R p) (pf_T2 R p) (pf_taux R p) (pf_mu R p) (pf_t R p) x.

(** rangeproof.go:536-581: p.V is assigned after DecodeCommitments has succeeded, the points and
    scalars one by one; p.IPProof is a new empty proof before its own Decode is called *)
Definition pf_DecodeR (includeCommits : bool) : proof R -> rprog (proof R * res unit) :=
  then_ (if includeCommits then read_ (DecodeCommitments R) (fun comms => assign_ (set_V comms)) else assign_ (fun p => p))
  (then_ (on_ (pf_A R) set_A readerToPointR)
  (then_ (on_ (pf_S R) set_S readerToPointR)
  (then_ (on_ (pf_T1 R) set_T1 readerToPointR)
  (then_ (on_ (pf_T2 R) set_T2 readerToPointR)
  (then_ (on_ (pf_taux R) set_taux readerToScalarR)
  (then_ (on_ (pf_mu R) set_mu readerToScalarR)
  (then_ (on_ (pf_t R) set_t readerToScalarR)
  (fun p => rbind (ipp_Decode R (mkIPP R [] [] f0 f0)) (fun '(ip, r) => RRet (set_ip (Some ip) p, r)))))))))).
End Recv.
