(** Specification of multilayered ring signatures *)
From Coq Require Import String ZArith List Arith.
From Verif Require Import GoModel Fld Rist SpecVector.
Import ListNotations.

Section Spec.
Context (R : rist).

(** the points hashed for one ring member with keys K, responses r and challenge c: r_j B + c K_j
    for every key, then r_j Hp(K_j) + c I_j for every key image I_j *)
Definition row_points (I K : list (pt R)) (r : list F) (c : F) : list (pt R) :=
  zipw (fun r k => padd R (smul R r (pbase R)) (smul R c k)) r K ++
  zipw (fun r ki => padd R (smul R r (pderive R (pbytes R (fst ki)))) (smul R c (snd ki))) r (combine K I).

(** the next challenge *)
Definition ring_chal (msg : bytes) (I : list (pt R)) (K : list (pt R)) (r : list F) (c : F) : F :=
  sderive R (msg ++ concat (map (pbytes R) (row_points I K r c))).

(** the challenge after going through the rows (keys, responses) *)
Definition ring_chain (msg : bytes) (I : list (pt R)) (rows : list (list (pt R) * list F)) (c : F) : F :=
  fold_left (fun c row => ring_chal msg I (fst row) (snd row) c) rows c.

(** rows with enough keys for the key images and enough responses for the keys *)
Definition row_ok (I : list (pt R)) (row : list (pt R) * list F) : Prop :=
  length I <= length (fst row) <= length (snd row).

(** the key image of the private key x *)
Definition key_image (x : F) : pt R := smul R x (pderive R (pbytes R (smul R x (pbase R)))).
End Spec.
