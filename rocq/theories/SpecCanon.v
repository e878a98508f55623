(** Specification of numbers in little-endian form *)
From Coq Require Import ZArith List.
From Verif Require Import GoModel.
Import ListNotations.
Local Open Scope Z_scope.

(** the number written in b, least significant byte first *)
Fixpoint le_value (b : bytes) : Z := match b with [] => 0 | x :: b => byte_Z x + 256 * le_value b end.
