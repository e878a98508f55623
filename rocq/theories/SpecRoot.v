(** Specification of which lists of leaf hashes have the same Merkle root *)
From Coq Require Import List Arith.
From Verif Require Import GoModel SpecMerkle.
Import ListNotations.

(** the number of levels above the leaves, at least one *)
Definition depth (hs : list bytes) : nat := Nat.max 1 (Nat.log2_up (length hs)).

(** the level k steps above *)
Fixpoint levels (H : bytes -> bytes) (k : nat) (hs : list bytes) : list bytes :=
  match k with O => hs | S k => levels H k (pair_up H hs) end.

(** the leaves of the complete tree of depth d: where the right half is missing the left half is repeated *)
Fixpoint fill (d : nat) (hs : list bytes) : list bytes :=
  match d with
  | O => hs
  | S d =>
    if Nat.leb (length hs) (2 ^ d) then fill d hs ++ fill d hs
    else firstn (2 ^ d) hs ++ fill d (skipn (2 ^ d) hs)
  end.
