(** mlsag on all Go values of type ristretto.Point

    MlsagModel.v takes the operations on points from a record [rist].  [raw_lib] is the record whose
    points are the Go values [rp] of BlsagModel.v: group elements, the zero value ristretto.Point{}
    and whatever else the operations make of it.  Instances of the functions of MlsagModel.v at
    [raw_lib] are these functions with zero values among keys and key images; Verify
    (mlsag.go:261-306) and generateChallenge (mlsag.go:340-389) are used here.  They call Add,
    ScalarMult, ScalarMultBase, Derive and Bytes only; what the other operations ([sub], [neg],
    [eqb]) do is left open.  SetBytes, Derive and SetBase give group elements. *)
From Coq Require Import String ZArith List.
From Verif Require Import GoModel Fld Rist BlsagModel MlsagModel.
Import ListNotations.

Section Raw.
Context (R : rist) (V : raw R).
Local Notation rp := (rp R V).

Definition raw_lib (sub : rp -> rp -> rp) (neg : rp -> rp) (eqb : rp -> rp -> bool) : rist :=
  mkRist rp (emb R V (pt0 R)) (radd R V) sub neg (rsmul R V) (emb R V (pbase R)) eqb (rbytes R V)
    (fun b => option_map (emb R V) (pset R b)) (fun b => emb R V (pjunk R b)) (fun b => emb R V (pderive R b))
    (sbytes R) (sset R) (sderive R).

(** a signature and key images made of group elements *)
Definition emb_pk (L : rist) (f : pt R -> pt L) (k : pubkeys R) : pubkeys L := mkPK L (pk_decoy R k) (map f (pk_keys R k)).
Definition emb_sig (L : rist) (f : pt R -> pt L) (s : sig R) : sig L :=
  mkSig L (sg_c R s) (sg_r R s) (map (emb_pk L f) (sg_pub R s)) (sg_msg R s).
End Raw.
