(** Specification of decoders on input that ends too early *)
From Coq Require Import String ZArith List Arith Bool.
From Verif Require Import GoModel ReadModel.
Import ListNotations.
Local Open Scope nat_scope.

(** the bytes a reader delivers *)
Definition delivers (r : reader) : bytes := concat (map (fun x => match x with RChunk b => b | RFault _ => [] end) r).
(** io.EOF if nothing is left of the field, io.ErrUnexpectedEOF if a part is *)
Definition eof (boundary : bool) : string := if boundary then "EOF" else "unexpected EOF".

(** p accepts the bytes of r, and r' ends before those it took: the error tells whether r' ends where
    a field begins *)
Definition cut_error {A} (field : nat -> bool) (p : rprog (res A)) : Prop :=
  forall r r' tail a, (forall e, ~ In (RFault e) r) -> (forall e, ~ In (RFault e) r') -> delivers r = delivers r' ++ tail ->
    fst (exec p r) = Ok a -> length (delivers r') + length (delivers (snd (exec p r))) < length (delivers r) ->
    fst (exec p r') = Err (eof (field (length (delivers r')))).

(** where fields begin: 32-byte fields; after a count of 4 bytes; after a scalar and two counts *)
Definition plain_fields (n : nat) : bool := Nat.eqb (n mod 32) 0.
Definition counted_fields (n : nat) : bool := Nat.eqb n 0 || (Nat.leb 4 n && Nat.eqb ((n - 4) mod 32) 0).
Definition sig_fields (n : nat) : bool := Nat.eqb n 0 || Nat.eqb n 32 || Nat.eqb n 36 || (Nat.leb 40 n && Nat.eqb ((n - 40) mod 32) 0).
