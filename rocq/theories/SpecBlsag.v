(** Specification of the bLSAG challenge chain *)
From Coq Require Import String ZArith List Arith.
From Verif Require Import GoModel Fld Rist BlsagModel.
Import ListNotations.

Section Spec.
Context (R : rist) (V : raw R).
(** the next challenge: H(m, s B + c P, s Hp(P) + c I) *)
Definition bl_chal (m : bytes) (I : rp R V) (row : rp R V * F) (c : F) : F :=
  let (P, s) := row in
  sderive R (m ++ rbytes R V (radd R V (emb R V (smul R s (pbase R))) (rsmul R V c P))
               ++ rbytes R V (radd R V (rsmul R V s (emb R V (pderive R (rbytes R V P)))) (rsmul R V c I))).
Definition bl_chain (m : bytes) (I : rp R V) (rows : list (rp R V * F)) (c : F) : F :=
  fold_left (fun c row => bl_chal m I row c) rows c.
End Spec.
