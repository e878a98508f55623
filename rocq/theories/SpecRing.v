(** Specification for further properties of ring signatures: amounts behind dual keys, rotation, simulation *)
From Coq Require Import String ZArith List Arith.
From Coq Require Import Init.Byte.
From Coq Require Import Strings.String Strings.Byte.
From Verif Require Import GoModel Fld Rist SpecMlsag SpecFork MlsagModel MlsagSessions.
Import ListNotations.

(** the first element goes to the end *)
Definition rotate {A} (l : list A) : list A := match l with [] => [] | x :: l => l ++ [x] end.

(** a hash function changed at one string *)
Definition reprogram (h : bytes -> F) (q : bytes) (v : F) (s : bytes) : F :=
  if list_eq_dec Byte.byte_eq_dec s q then v else h s.

Section Spec.
Context (R : rist).
(** the generator of values of every Pedersen object (pedersen.go:32), and the commitment to v with blinding factor b *)
Definition value_point : pt R := pderive R (list_byte_of_string "blindPoint").
Definition com (v b : F) : pt R := padd R (smul R v value_point) (smul R b (pbase R)).
(** a ring for outputs (key, committed point), with the commitment D subtracted from the second column *)
Definition spend_row (D : pt R) (o : pt R * pt R) : list (pt R) := [fst o; psub R (snd o) D].
(** a spender of an output with private key x adds decoys, subtracts D and sets message and keys *)
Definition spend_ops (decoys : list (pt R * pt R)) (D : pt R) (msg : bytes) (x z : F) : list (dop (R := R)) :=
  map (fun o => DDecoy (mkPK R false [fst o; snd o])) decoys ++ [DSub D; DMsg msg; DPrimary x; DComm z].
(** outputs (key, value, blinding factor) *)
Definition outputs (l : list (pt R * F * F)) : list (pt R * pt R) := map (fun o => (fst (fst o), com (snd (fst o)) (snd o))) l.
(** from the responses r to c and r' to c' of the row of an output, with com v' b' subtracted: the private key x of the
    output and z, where the values are equal and z is the difference of the blinding factors, or the value generator is a
    known multiple of the base point *)
Definition amount_found (o : pt R * F * F) (v' b' : F) (r r' : list F) (c c' x z : F) : Prop :=
  exists a1 a2 b1 b2, nth_error r 0 = Some a1 /\ nth_error r 1 = Some a2 /\ nth_error r' 0 = Some b1 /\ nth_error r' 1 = Some b2 /\
    x = secret a1 b1 c c' /\ z = secret a2 b2 c c' /\ fst (fst o) = smul R x (pbase R) /\
    (snd (fst o) = v' /\ z = fsub (snd o) b' \/
     snd (fst o) <> v' /\ value_point = smul R (fmul (fsub z (fsub (snd o) b')) (finv (fsub (snd (fst o)) v'))) (pbase R)).
(** the nonces with which keys xs answer r to the challenge c *)
Definition nonces_for (c : F) (r xs : list F) : list F := map (fun ax => fadd (fst ax) (fmul c (snd ax))) (combine r xs).
End Spec.
