(** Specification of soundness when rounds of the inner-product argument may be drawn early: the
    challenges u_j are hashes of the points L, R only (C77), so a prover can compute some of them before
    the challenges z, x or w of the range proof.  Continues SpecSound.v. *)
From Coq Require Import String ZArith List Arith.
From Verif Require Import GoModel Fld Rist SpecVector SpecIPP SpecRange SpecSound.
Import ListNotations.

(** the coefficients of v over G and H, and c *)
Definition only (v : rep) (c : F) : rep := mkRep (rg v) (rh v) c f0.
(** without knowledge of w: v commits to two vectors with inner product c, and has no value part *)
Definition balanced (us : list F) (b : nat) (y : F) (v : rep) (c : F) : Prop :=
  rb v = f0 /\ good us b f1 y (only v c).
(** both parts of v are spread *)
Definition spans (us : list F) (b : nat) (y : F) (v : rep) : Prop :=
  exists l r : nat -> F,
    (forall i, i < b * 2 ^ length us -> rg v i = spread us b l i) /\
    (forall i, i < b * 2 ^ length us -> fmul (fpow y i) (rh v i) = spread (map finv us) b r i).

(** ** What should hold when z, x, w have just been drawn and rounds us (with Ls, Rs) precede them;
    b is the length of the remaining vectors, 64 m = b 2^|us| *)
Definition t_z (m : nat) (V : nat -> rep) (y z : F) : F := fadd (delta y z m) (zV m V z rb).
Definition t_x (m : nat) (V : nat -> rep) (y z : F) (T1 T2 : rep) (x : F) : F :=
  fadd (t_z m V y z) (fadd (fmul x (rb T1)) (fmul (fmul x x) (rb T2))).
(** A + x S and the public parts of P, with the rounds *)
Definition so_far (m : nat) (us : list F) (Ls Rs : list rep) (A S : rep) (x y z : F) : rep :=
  radd (P_rep m A S x y z f0 f0 f0) (lr_rep us Ls Rs).
Definition right_z (m : nat) (us : list F) (b : nat) (Ls Rs : list rep) (V : nat -> rep) (A S : rep) (y z : F) : Prop :=
  (forall i, i < 64 * m -> zV m V z (fun v => rg v i) = f0) /\
  (forall i, i < 64 * m -> zV m V z (fun v => rh v i) = f0) /\
  balanced us b y (so_far m us Ls Rs A rzero f0 y z) (t_z m V y z) /\
  rb S = f0 /\ spans us b y S.
Definition right_x (m : nat) (us : list F) (b : nat) (Ls Rs : list rep) (V : nat -> rep) (A S : rep) (y z : F) (T1 T2 : rep) (x : F) : Prop :=
  (forall i, i < 64 * m -> fadd (zV m V z (fun v => rg v i)) (fadd (fmul x (rg T1 i)) (fmul (fmul x x) (rg T2 i))) = f0) /\
  (forall i, i < 64 * m -> fadd (zV m V z (fun v => rh v i)) (fadd (fmul x (rh T1 i)) (fmul (fmul x x) (rh T2 i))) = f0) /\
  balanced us b y (so_far m us Ls Rs A S x y z) (t_x m V y z T1 T2 x).
Definition right_w (m : nat) (us : list F) (b : nat) (Ls Rs : list rep) (V : nat -> rep) (A S : rep) (y z : F) (T1 T2 : rep) (x t taux mu w : F) : Prop :=
  vanishes (64 * m) (poly_rep m V y z T1 T2 x t taux) /\
  good us b w y (radd (P_rep m A S x y z w mu t) (lr_rep us Ls Rs)).

(** ** Bad challenges *)
(** of a round drawn before z *)
Definition bad_early (u : F) : Prop := u = f0 \/ fmul u u = f1.
(** z, after the rounds us *)
Definition bad_late_z := right_z.
(** of a round drawn after z and before w: c is t_z (before x) or t_x (after x) *)
Definition bad_v (us : list F) (b : nat) (y : F) (v L R : rep) (c u : F) : Prop :=
  u = f0 \/ (~ balanced us (2 * b) y v c /\ balanced (us ++ [u]) b y (lr_step v L R u) c).
(** x, w after the rounds us *)
Definition bad_late_x (m : nat) (us : list F) (b : nat) (Ls Rs : list rep) (V : nat -> rep) (A S : rep) (y z : F) (T1 T2 : rep) (x : F) : Prop :=
  ~ right_z m us b Ls Rs V A S y z /\ right_x m us b Ls Rs V A S y z T1 T2 x.
Definition bad_late_w (m : nat) (us : list F) (b : nat) (Ls Rs : list rep) (V : nat -> rep) (A S : rep) (y z : F) (T1 T2 : rep) (x t taux mu w : F) : Prop :=
  ~ right_x m us b Ls Rs V A S y z T1 T2 x /\ right_w m us b Ls Rs V A S y z T1 T2 x t taux mu w.
(** round j of us, with the statement that the rounds before it lead to from v *)
Definition bad_step (us : list F) (Ls Rs : list rep) (y : F) (v : rep) (c : F) (j : nat) : Prop :=
  bad_v (firstn j us) (2 ^ (length us - (j + 1))) y (radd v (lr_rep (firstn j us) (firstn j Ls) (firstn j Rs)))
    (nth j Ls rzero) (nth j Rs rzero) c (nth j us f0).
