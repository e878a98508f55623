(** Specification of aggregated 64-bit range proofs over the generators of this package *)
From Coq Require Import String ZArith List.
From Coq Require Import Init.Byte Strings.Byte.
From Verif Require Import GoModel Fld Rist SpecVector SpecPedersen SpecIPP.
Import ListNotations.
Local Open Scope string_scope.
Local Open Scope list_scope.

(** the error of Verify when the proof has the wrong number of rounds for M (vector.go:118) *)
Definition wrong_lengths : string := "length of slice of scalars a does not equal length of slices of points b".

(** the 64 low bits of an integer, least significant first *)
Definition bits64 (v : Z) : list F := map (fun i => if Z.testbit v (Z.of_nat i) then f1 else f0) (seq 0 64).
Definition low64 (v : Z) : Z := (v mod 2 ^ 64)%Z.

Definition two : F := of_Z 2.

(** the powers as computed by ScalarPowers: those of zero are all zero *)
Definition cpowers (x : F) (n : nat) : list F := if feqb x f0 then repeat f0 n else powers x n.

(** z^2 (1,2,..,2^63) || z^3 (1,2,..,2^63) || ..., m blocks *)
Definition z_two (z : F) (m : nat) : list F :=
  concat (map (fun j => vscale (fpow z (j + 2)) (powers two 64)) (seq 0 m)).

(** (z - z^2) sum y^i - z^3 (sum 2^i) (sum z^j) *)
Definition delta (y z : F) (m : nat) : F :=
  fsub (fmul (fsub z (fmul z z)) (fsum (powers y (64 * m))))
       (fmul (fmul (fsum (powers two 64)) (fsum (powers z m))) (fmul z (fmul z z))).

(** sum over j of z^(j+2) v_j *)
Definition z_dot (z : F) (v : list F) : F := dot (map (fun j => fpow z (j + 2)) (seq 0 (length v))) v.

Section Spec.
Context (R : rist).

Definition rp_seed : bytes := list_byte_of_string "dusk.BulletProof.vec1".
Definition rp_G (n : nat) : list (pt R) := chain R rp_seed n.
Definition rp_H (n : nat) : list (pt R) := chain R (rp_seed ++ [x01]) n.
Definition rp_Base : pt R := pderive R (list_byte_of_string "blindPoint").
Definition rp_Blind : pt R := pbase R.

(** challenges y, z, x, w of a proof *)
Definition rp_y (V : list (pt R)) (A S : pt R) : F :=
  sderive R (concat (map (pbytes R) V) ++ pbytes R A ++ pbytes R S).
Definition rp_z (y : F) : F := sderive R (sbytes R y).
Definition rp_x (V : list (pt R)) (A S : pt R) (z : F) (T1 T2 : pt R) : F :=
  sderive R (concat (map (pbytes R) V) ++ pbytes R A ++ pbytes R S ++ sbytes R z ++ pbytes R T1 ++ pbytes R T2).
Definition rp_w (V : list (pt R)) (A S : pt R) (z : F) (T1 T2 : pt R) (x taux mu t : F) : F :=
  sderive R (concat (map (pbytes R) V) ++ pbytes R A ++ pbytes R S ++ sbytes R z ++ pbytes R T1 ++ pbytes R T2 ++
             sbytes R x ++ sbytes R taux ++ sbytes R mu ++ sbytes R t).

(** sum over j < m of z^(j+2) V_j *)
Definition z_msm (z : F) (m : nat) (V : list (pt R)) : pt R :=
  msm R (map (fun j => fpow z (j + 2)) (seq 0 m)) V.

(** the point for which the inner-product argument is made, for m values:
    A + x S - z <1,G> + z <1,H> + <z_two o f, H> - mu Blind + t Q, f = y^-i *)
Definition rp_P (m : nat) (A S : pt R) (x y z mu t : F) (Q : pt R) : pt R :=
  let n := 64 * m in
  padd R (padd R (padd R (padd R (padd R (padd R A (smul R x S))
    (smul R (fneg z) (psum R (rp_G n))))
    (smul R z (psum R (rp_H n))))
    (msm R (zipw fmul (z_two z m) (cpowers (finv y) n)) (rp_H n)))
    (smul R (fneg mu) rp_Blind))
    (smul R t Q).

(** the two sides of the inner-product equation, subtracted *)
Definition rp_ip_defect (m : nat) (L Rs : list (pt R)) (a b : F) (A S : pt R) (x y z w mu t : F) : pt R :=
  let n := 64 * m in
  let us := challenges R [] L Rs in
  let Q := smul R w rp_Base in
  psub R
    (padd R (padd R (smul R a (msm R (svec us) (rp_G n)))
                    (smul R b (msm R (zipw fmul (svec (map finv us)) (cpowers (finv y) n)) (rp_H n))))
            (smul R (fmul a b) Q))
    (padd R (rp_P m A S x y z mu t Q) (lr_sum R us L Rs)).

(** t Base + taux Blind = delta Base + sum z^(j+2) V_j + x T1 + x^2 T2 *)
Definition rp_poly_lhs (t taux : F) : pt R := padd R (smul R t rp_Base) (smul R taux rp_Blind).
Definition rp_poly_rhs (m : nat) (V : list (pt R)) (T1 T2 : pt R) (x y z : F) : pt R :=
  padd R (padd R (padd R (smul R (delta y z m) rp_Base) (z_msm z m V)) (smul R x T1)) (smul R (fmul x x) T2).
End Spec.
