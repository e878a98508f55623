(** Specification of what a Pedersen vector commitment binds *)
From Coq Require Import String ZArith List.
From Coq Require Import Init.Byte.
From Verif Require Import GoModel Fld Rist SpecVector SpecPedersen.
Import ListNotations.

(** element i of vector j, zero beyond the ends *)
Definition coeff (vs : list (list F)) (j i : nat) : F := nth i (nth j vs []) f0.
(** f j i for j < k and i < m, row by row *)
Definition grid {A} (k m : nat) (f : nat -> nat -> A) : list A :=
  map (fun q => f (fst q) (snd q)) (list_prod (seq 0 k) (seq 0 m)).
(** the string that the generators of vector j come from *)
Definition seed_of (data : bytes) (j : nat) : bytes :=
  match j with O => data | S _ => data ++ [low_byte j] end.
(** the first m generators of the first k vectors *)
Definition gens_of (R : rist) (data : bytes) (k m : nat) : list (pt R) :=
  concat (map (fun j => chain R (seed_of data j) m) (seq 0 k)).
