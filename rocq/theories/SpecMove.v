(** Specification of signatures moved to other keys in the columns without key image *)
From Coq Require Import String ZArith List Arith.
From Verif Require Import GoModel Fld Rist SpecVector SpecMlsag.
Import ListNotations.

(** f applied to each element and the number given for it; elements without a number stay *)
Fixpoint add_each {A} (f : A -> F -> A) (l : list A) (ds : list F) : list A :=
  match l, ds with x :: l, d :: ds => f x d :: add_each f l ds | l, _ => l end.

Section Spec.
Context (R : rist).
(** the first n keys stay, multiples d_j G of the base point are added to the next ones *)
Definition moved_keys (n : nat) (ds : list F) (K : list (pt R)) : list (pt R) :=
  firstn n K ++ add_each (fun k d => padd R k (smul R d (pbase R))) (skipn n K) ds.
(** the responses to the challenge c for these keys *)
Definition moved_responses (n : nat) (c : F) (ds r : list F) : list F :=
  firstn n r ++ add_each (fun a d => fsub a (fmul c d)) (skipn n r) ds.
(** all rows (keys, responses) of a ring that is entered with challenge c; the challenges are those of the
    rows before the change *)
Fixpoint moved_rows (msg : bytes) (I : list (pt R)) (rows : list (list (pt R) * list F)) (dss : list (list F)) (c : F) : list (list (pt R) * list F) :=
  match rows, dss with
  | row :: rows, ds :: dss =>
      (moved_keys (length I) ds (fst row), moved_responses (length I) c ds (snd row)) ::
      moved_rows msg I rows dss (ring_chal R msg I (fst row) (snd row) c)
  | rows, _ => rows
  end.
End Spec.
