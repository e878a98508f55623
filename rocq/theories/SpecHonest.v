(** Specification of the prover: the aggregated range proof of the Bulletproofs paper
    (section 4.2) over the generators of this package *)
From Coq Require Import String ZArith List Arith.
From Coq Require Import Init.Byte Strings.Byte.
From Verif Require Import GoModel Fld Rist SpecVector SpecPedersen PedersenModel SpecIPP InnerProductModel SpecRange RangeProofModel.
Import ListNotations.
Local Open Scope nat_scope.

(** the bits of all values *)
Definition allbits (v : list F) : list F := concat (map (fun a => bits64 (to_Z a)) v).
(** the values modulo 2^64 *)
Definition lowv (v : list F) : list F := map (fun a => of_Z (low64 (to_Z a))) v.

(** the least power of two that is at least n, and a list padded with zeros to that length *)
Definition pad_size (n : nat) : nat := 2 ^ Nat.log2_up n.
Definition padded (v : list F) : list F := v ++ repeat f0 (pad_size (length v) - length v).

Section Honest.
Context {R : rist}.
Local Notation "p [+] q" := (padd R p q) (at level 50, left associativity).
Local Notation "s [*] p" := (smul R s p) (at level 40, left associativity).

Definition vals (V : list (commitment R)) : list (pt R) := map (c_val R) V.

(** inputs: the padded values, their blinding factors, commitments that follow them, and the
    other random scalars *)
Record hp_in := mkHP { hv : list F; hbl : list F; hextra : list (commitment R); h_alpha : F; h_rho : F; h_tau1 : F; h_tau2 : F;
                       h_sL : list F; h_sR : list F }.
Definition hm (h : hp_in) := length (hv h).
Definition hp_wf (h : hp_in) : Prop :=
  length (hbl h) = hm h /\ length (h_sL h) = 64 * hm h /\ length (h_sR h) = 64 * hm h /\ 0 < hm h /\ (64 * Z.of_nat (hm h) < 2 ^ 32)%Z.

(** a commitment to v under blinding factor b *)
Definition com (v b : F) : commitment R := mkCom R (v [*] rp_Base R [+] b [*] rp_Blind R) b.
Definition hV (h : hp_in) : list (commitment R) := zipw com (hv h) (hbl h) ++ hextra h.
(** bits, their complements, and the commitments A and S *)
Definition haL (h : hp_in) := allbits (hv h).
Definition haR (h : hp_in) := map (fun a => fsub a f1) (haL h).
Definition hA (h : hp_in) := vec_commit R low_byte rp_seed (h_alpha h) [haL h; haR h].
Definition hS (h : hp_in) := vec_commit R low_byte rp_seed (h_rho h) [h_sL h; h_sR h].
Definition hy (h : hp_in) := rp_y R (vals (hV h)) (hA h) (hS h).
Definition hz (h : hp_in) := rp_z R (hy h).
(** l(X) = l0 + sL X, r(X) = r0 + r1 X, and their inner product t0 + t1 X + t2 X^2 *)
Definition hl0 (h : hp_in) := map (fun x => fsub x (hz h)) (haL h).
Definition hyp (h : hp_in) := cpowers (hy h) (64 * hm h).
Definition hr0 (h : hp_in) := vadd (zipw fmul (map (fun x => fadd x (hz h)) (haR h)) (hyp h)) (z_two (hz h) (hm h)).
Definition hr1 (h : hp_in) := zipw fmul (hyp h) (h_sR h).
Definition ht0 (h : hp_in) := dot (hl0 h) (hr0 h).
Definition ht1 (h : hp_in) := fadd (dot (h_sL h) (hr0 h)) (dot (hl0 h) (hr1 h)).
Definition ht2 (h : hp_in) := dot (h_sL h) (hr1 h).
Definition hT1 (h : hp_in) := c_val R (com (ht1 h) (h_tau1 h)).
Definition hT2 (h : hp_in) := c_val R (com (ht2 h) (h_tau2 h)).
Definition hx (h : hp_in) := rp_x R (vals (hV h)) (hA h) (hS h) (hz h) (hT1 h) (hT2 h).
Definition htaux (h : hp_in) := fadd (fadd (fmul (hx h) (h_tau1 h)) (fmul (fmul (hx h) (hx h)) (h_tau2 h))) (z_dot (hz h) (hbl h)).
Definition hmu (h : hp_in) := fadd (fmul (h_rho h) (hx h)) (h_alpha h).
Definition hl (h : hp_in) := vadd (hl0 h) (vscale (hx h) (h_sL h)).
Definition hr (h : hp_in) := vadd (hr0 h) (vscale (hx h) (hr1 h)).
Definition ht (h : hp_in) := dot (hl h) (hr h).
Definition hw (h : hp_in) := rp_w R (vals (hV h)) (hA h) (hS h) (hz h) (hT1 h) (hT2 h) (hx h) (htaux h) (hmu h) (ht h).
(** the point Q and the factors y^-i of the inner-product argument *)
Definition hQ (h : hp_in) := hw h [*] rp_Base R.
Definition hfs (h : hp_in) := cpowers (finv (hy h)) (64 * hm h).
(** the proof, given its inner-product part *)
Definition hproof (h : hp_in) ip := mkProof R (hV h) (hA h) (hS h) (hT1 h) (hT2 h) (htaux h) (hmu h) (ht h) (Some ip).

(** the values and random scalars as Prove uses them: one blinding factor per value, that of A,
    the entries of sL and sR alternately, then the blinding factors of S, T1 and T2 *)
Definition hin (v : list F) (rs : nat -> F) : hp_in :=
  let m := length v in
  let n2 := m + 1 + (64 * m + 64 * m) in
  mkHP v (map rs (seq 0 m)) [] (rs m) (rs n2) (rs (n2 + 1)) (rs (n2 + 2))
    (map (fun i => rs (m + 1 + 2 * i)) (seq 0 (64 * m))) (map (fun i => rs (m + 1 + (2 * i + 1))) (seq 0 (64 * m))).
(** x, y or z is zero *)
Definition zero_challenge (h : hp_in) : bool := orb (orb (feqb (hx h) f0) (feqb (hy h) f0)) (feqb (hz h) f0).

End Honest.
Arguments hp_in R : clear implicits.
Arguments hin R v rs : clear implicits.
