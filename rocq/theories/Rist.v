(** The external library bwesterb/go-ristretto: group of points over the scalar
    field [F].

    The record [rist] collects the operations that /repo uses; [rist_ok] the laws
    the proofs rely on.  Nothing is assumed about the hash functions
    ([pderive], [sderive]) nor about decoding of byte strings that are not the
    encoding of a point or scalar.  The laws are satisfiable: see RistInst.v. *)
From Coq Require Import String ZArith List Lia Bool Field.
From Verif Require Import GoModel Prime Fld.
Import ListNotations.

Record rist : Type := mkRist {
  pt : Type;                          (** ristretto.Point *)
  pt0 : pt;                           (** Point.SetZero *)
  padd : pt -> pt -> pt;              (** Point.Add *)
  psub : pt -> pt -> pt;              (** Point.Sub *)
  pneg : pt -> pt;                    (** Point.Neg *)
  smul : F -> pt -> pt;               (** Point.ScalarMult, PublicScalarMult *)
  pbase : pt;                         (** Point.SetBase *)
  peqb : pt -> pt -> bool;            (** Point.Equals *)
  pbytes : pt -> bytes;               (** Point.Bytes *)
  pset : bytes -> option pt;          (** Point.SetBytes on 32 bytes: None when it returns false *)
  pjunk : bytes -> pt;                (** value left in the receiver when SetBytes returns false *)
  pderive : bytes -> pt;              (** Point.Derive *)
  sbytes : F -> bytes;                (** Scalar.Bytes *)
  sset : bytes -> F;                  (** Scalar.SetBytes on 32 bytes *)
  sderive : bytes -> F                (** Scalar.Derive *)
}.

Record rist_ok (R : rist) : Prop := mkRistOk {
  padd_comm : forall p q, padd R p q = padd R q p;
  padd_assoc : forall p q r, padd R p (padd R q r) = padd R (padd R p q) r;
  padd_0_l : forall p, padd R (pt0 R) p = p;
  padd_neg_r : forall p, padd R p (pneg R p) = pt0 R;
  psub_def : forall p q, psub R p q = padd R p (pneg R q);
  smul_1 : forall p, smul R f1 p = p;
  smul_mul : forall a b p, smul R (fmul a b) p = smul R a (smul R b p);
  smul_add_l : forall a b p, smul R (fadd a b) p = padd R (smul R a p) (smul R b p);
  smul_add_r : forall a p q, smul R a (padd R p q) = padd R (smul R a p) (smul R a q);
  pbase_nz : pbase R <> pt0 R;
  peqb_ok : forall p q, peqb R p q = true <-> p = q;
  pbytes_len : forall p, length (pbytes R p) = 32%nat;
  pset_pbytes : forall p, pset R (pbytes R p) = Some p;
  sbytes_len : forall s, length (sbytes R s) = 32%nat;
  sset_sbytes : forall s, sset R (sbytes R s) = s
}.
