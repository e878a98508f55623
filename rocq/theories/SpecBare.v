(** Specification of the proof that Prove makes when the loop that draws sL and sR (rangeproof/rangeproof.go:219-230)
    ends after n of the m values: it is the one for random scalars that are zero from there on *)
From Coq Require Import ZArith List Arith.
From Verif Require Import Fld.
Import ListNotations.
Local Open Scope nat_scope.

(** The scalars rs for m values: m blinding factors, that of A, the 2 * 64 m entries of sL and sR alternately, and
    those of S, T1 and T2.  Of the entries of sL and sR only the first 2 * 64 n are kept.  (The scalars drawn after the loop
    keep their places, also when it ends early; as rs is any function, this is no restriction.) *)
Definition bare (n m : nat) (rs : nat -> F) (i : nat) : F :=
  if andb (Nat.leb (m + 1 + 2 * (64 * n)) i) (Nat.ltb i (m + 1 + 2 * (64 * m))) then f0 else rs i.
