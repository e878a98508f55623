(** Specification of vector arithmetic: sums, powers, inner products and
    multi-scalar products.  Mathematics only: models no code. *)
From Coq Require Import String ZArith List.
From Verif Require Import GoModel Fld Rist.
Import ListNotations.

(** element-wise combination of two lists *)
Fixpoint zipw {A B C} (f : A -> B -> C) (a : list A) (b : list B) : list C :=
  match a, b with
  | x :: a', y :: b' => f x y :: zipw f a' b'
  | _, _ => []
  end.

(** sum of a list of scalars *)
Definition fsum (l : list F) : F := fold_right fadd f0 l.
(** inner product *)
Definition dot (a b : list F) : F := fsum (zipw fmul a b).
(** sum of a list of points *)
Definition psum (R : rist) (l : list (pt R)) : pt R := fold_right (padd R) (pt0 R) l.
(** multi-scalar product: sum of a_i * P_i *)
Definition msm (R : rist) (a : list F) (P : list (pt R)) : pt R := psum R (zipw (smul R) a P).
(** x^0, ..., x^(n-1) *)
Definition powers (x : F) (n : nat) : list F := map (fpow x) (seq 0 n).
(** multiples of a vector *)
Definition vscale (c : F) (a : list F) : list F := map (fmul c) a.
Definition vadd (a b : list F) : list F := zipw fadd a b.
Definition pscale (R : rist) (c : F) (P : list (pt R)) : list (pt R) := map (smul R c) P.
Definition pvadd (R : rist) (P Q : list (pt R)) : list (pt R) := zipw (padd R) P Q.
