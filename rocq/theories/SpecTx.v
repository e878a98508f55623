(** Specification for payments: an output is spent with a dual key signature, into new commitments that come with a range proof *)
From Coq Require Import String ZArith List Arith.
From Coq Require Import Init.Byte.
From Verif Require Import GoModel Fld Rist SpecMlsag SpecFork SpecRing.
Import ListNotations.

(** the sum of integers *)
Definition zsum (l : list Z) : Z := fold_right Z.add 0%Z l.
(** an amount of 64 bits *)
Definition amount (v : Z) : Prop := (0 <= v < 2 ^ 64)%Z.

Section Spec.
Context (R : rist).
(** the sum of points *)
Definition total (l : list (pt R)) : pt R := fold_right (padd R) (pt0 R) l.
(** from the responses r to c and r' to c' of the row of an output (key, value, blinding factor) from which commitments to
    the integers vs were subtracted, with blinding factors that add up to b': the private key x of the output and z, where the
    value is the sum of the integers, or the generator of values is a known multiple of the base point *)
Definition balance_found (o : pt R * F * F) (vs : list Z) (b' : F) (r r' : list F) (c c' x z : F) : Prop :=
  exists a1 a2 b1 b2, nth_error r 0 = Some a1 /\ nth_error r 1 = Some a2 /\ nth_error r' 0 = Some b1 /\ nth_error r' 1 = Some b2 /\
    x = secret a1 b1 c c' /\ z = secret a2 b2 c c' /\ fst (fst o) = smul R x (pbase R) /\
    (to_Z (snd (fst o)) = zsum vs \/
     to_Z (snd (fst o)) <> zsum vs /\
     value_point R = smul R (fmul (fsub z (fsub (snd o) b')) (finv (fsub (snd (fst o)) (of_Z (zsum vs))))) (pbase R)).
End Spec.
