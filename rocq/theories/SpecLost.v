(** Specification of the proof that Prove makes when the loop of sumZMTwoN (rangeproof/poly.go:159-178) ends
    after n of the m values: the terms z^(j+2) 2^i of the values from n on are missing in r(X) *)
From Coq Require Import String ZArith List Arith.
From Coq Require Import Init.Byte Strings.Byte.
From Verif Require Import GoModel Fld Rist SpecVector SpecPedersen PedersenModel SpecIPP InnerProductModel SpecRange RangeProofModel SpecHonest.
Import ListNotations.
Local Open Scope nat_scope.

(** the terms of the first n values, and zeros *)
Definition z_part (z : F) (n m : nat) : list F := z_two z n ++ repeat f0 (64 * (m - n)).
(** the terms of the values from n on *)
Definition z_lost (z : F) (n m : nat) : list F :=
  concat (map (fun j => vscale (fpow z (j + 2)) (powers two 64)) (seq n (m - n))).
(** sum over the values v_j from n on of z^(j+2) (v_j mod 2^64 - z (2^64 - 1)) *)
Definition lost_t (z : F) (n : nat) (v : list F) : F :=
  fsum (zipw (fun j a => fmul (fpow z (j + 2)) (fsub (of_Z (low64 (to_Z a))) (fmul z (fsum (powers two 64))))) (seq n (length v - n)) (skipn n v)).

Section Lost.
Context {R : rist}.
Local Notation "p [+] q" := (padd R p q) (at level 50, left associativity).
Local Notation "s [*] p" := (smul R s p) (at level 40, left associativity).
(** the missing terms, over the bases H_i with their factors y^-i *)
Definition lost_coef (y z : F) (n m : nat) : list F := zipw fmul (z_lost z n m) (skipn (64 * n) (cpowers (finv y) (64 * m))).
Definition lost_H (y z : F) (n m : nat) : pt R := msm R (lost_coef y z n m) (skipn (64 * n) (rp_H R (64 * m))).

Context (h : hp_in R) (n : nat).
Definition lr0 := vadd (zipw fmul (map (fun x => fadd x (hz h)) (haR h)) (hyp h)) (z_part (hz h) n (hm h)).
Definition lt0 := dot (hl0 h) lr0.
Definition lt1 := fadd (dot (h_sL h) lr0) (dot (hl0 h) (hr1 h)).
Definition lT1 := c_val R (com (R := R) lt1 (h_tau1 h)).
Definition lx := rp_x R (vals (hV h)) (hA h) (hS h) (hz h) lT1 (hT2 h).
Definition ltaux := fadd (fadd (fmul lx (h_tau1 h)) (fmul (fmul lx lx) (h_tau2 h))) (z_dot (hz h) (hbl h)).
Definition lmu := fadd (fmul (h_rho h) lx) (h_alpha h).
Definition ll := vadd (hl0 h) (vscale lx (h_sL h)).
Definition lr := vadd lr0 (vscale lx (hr1 h)).
Definition lt := dot ll lr.
Definition lw := rp_w R (vals (hV h)) (hA h) (hS h) (hz h) lT1 (hT2 h) lx ltaux lmu lt.
Definition lQ := lw [*] rp_Base R.
Definition lproof ip := mkProof R (hV h) (hA h) (hS h) lT1 (hT2 h) ltaux lmu lt (Some ip).
Definition lzero_challenge : bool := orb (orb (feqb lx f0) (feqb (hy h) f0)) (feqb (hz h) f0).
End Lost.
