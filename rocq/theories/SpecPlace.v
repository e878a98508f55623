(** Specification of where a shuffle puts the element that was last *)
From Coq Require Import List Arith.
Import ListNotations.

(** where position pos goes when i and j are exchanged *)
Definition moved (i j pos : nat) : nat := if Nat.eqb pos i then j else if Nat.eqb pos j then i else pos.
(** n elements; for i = n-1, ..., 1 element i is exchanged with element [draw t] (t = 0, 1, ...); where the last one ends *)
Definition place (n : nat) (draw : nat -> nat) : nat :=
  fold_left (fun pos t => moved (n - 1 - t) (draw t) pos) (seq 0 (n - 1)) (n - 1).
(** draw t is a number below n - t *)
Definition drawn (n : nat) (js : nat -> nat) (t : nat) : nat := js t mod (n - t).
(** the rows where the signer would be, for the draws [rng s n] that the seed s leads to *)
Definition suspects {A} (rng : nat -> nat -> nat -> nat) (seeds : list nat) (rows : list A) : list (option A) :=
  map (fun s => nth_error rows (place (length rows) (drawn (length rows) (rng s (length rows))))) seeds.
