(** Specification of what repeated random scalars give away *)
From Coq Require Import String ZArith List Arith Bool.
From Coq Require Import Init.Byte.
From Verif Require Import GoModel Fld Rist SpecVector SpecPedersen SpecMlsag SpecBlsag SpecRange PedersenModel RangeProofModel MlsagModel BlsagModel.
Import ListNotations.
Local Open Scope nat_scope.

(** x, if r = a - c x and r' = a - c' x *)
Definition from_two (c c' r r' : F) : F := fmul (fsub r r') (finv (fsub c' c)).

Section Reuse.
Context (R : rist).
(** the challenge of row i, as whoever verifies a signature computes it *)
Definition bl_at (V : raw R) (m : bytes) (g : rsig R V) (i : nat) : F :=
  bl_chain R V m (rs_I R V g) (firstn i (combine (rs_pub R V g) (rs_S R V g))) (rs_C R V g).
Definition ml_at (g : sig R) (J : list (pt R)) (i : nat) : F :=
  ring_chain R (sg_msg R g) J (firstn i (combine (map (pk_keys R) (sg_pub R g)) (sg_r R g))) (sg_c R g).

(** the first row in which two signatures have different responses *)
Definition same_row (r r' : list F) : bool := andb (Nat.eqb (length r) (length r')) (forallb (fun x => feqb (fst x) (snd x)) (combine r r')).
Definition first_difference (g g' : sig R) : option nat :=
  find (fun i => negb (same_row (nth i (sg_r R g) []) (nth i (sg_r R g') []))) (seq 0 (length (sg_r R g))).
(** what somebody who only sees two signatures and their key images computes *)
Definition stolen (g : sig R) (J : list (pt R)) (g' : sig R) (J' : list (pt R)) : option (list F) :=
  match first_difference g g' with
  | Some i => Some (zipw (from_two (ml_at g J i) (ml_at g' J' i)) (nth i (sg_r R g) []) (nth i (sg_r R g') []))
  | None => None
  end.

(** the challenge x of a range proof *)
Definition x_of (p : proof R) : F :=
  let V := map (c_val R) (pf_V R p) in
  rp_x R V (pf_A R p) (pf_S R p) (rp_z R (rp_y R V (pf_A R p) (pf_S R p))) (pf_T1 R p) (pf_T2 R p).
(** alpha, if mu = alpha + rho x and mu' = alpha + rho x' *)
Definition alpha_of (p p' : proof R) : F :=
  fsub (pf_mu R p) (fmul (fmul (fsub (pf_mu R p) (pf_mu R p')) (finv (fsub (x_of p) (x_of p')))) (x_of p)).
End Reuse.
