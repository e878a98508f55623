(** Specification of the inner-product argument *)
From Coq Require Import String ZArith List.
From Verif Require Import GoModel Fld Rist SpecVector.
Import ListNotations.

(** subset products of challenges: s_i is the product over j of u_j or its inverse, the
    first challenge deciding between the two halves *)
Fixpoint svec (us : list F) : list F :=
  match us with
  | [] => [f1]
  | u :: us' => vscale (finv u) (svec us') ++ vscale u (svec us')
  end.

(** the product over j < k of u_j if bit k-1-j of i is set, else of its inverse *)
Fixpoint sel_prod (us : list F) (i : nat) : F :=
  match us with
  | [] => f1
  | u :: us' => fmul (if Nat.testbit i (length us') then u else finv u) (sel_prod us' i)
  end.

Section Spec.
Context (R : rist).

(** the challenge of round j is the hash of all L, R up to and including round j *)
Fixpoint challenges (hs : bytes) (Ls Rs : list (pt R)) : list F :=
  match Ls, Rs with
  | l :: Ls', r :: Rs' =>
    let hs := hs ++ pbytes R l ++ pbytes R r in
    sderive R hs :: challenges hs Ls' Rs'
  | _, _ => []
  end.

(** sum over j of u_j^2 L_j + u_j^-2 R_j *)
Fixpoint lr_sum (us : list F) (Ls Rs : list (pt R)) : pt R :=
  match us, Ls, Rs with
  | u :: us', l :: Ls', r :: Rs' =>
    padd R (padd R (smul R (fmul u u) l) (smul R (fmul (finv u) (finv u)) r)) (lr_sum us' Ls' Rs')
  | _, _, _ => pt0 R
  end.

(** <a,G> + <b,H> + <a,b> Q *)
Definition ipp_point (a b : list F) (G H : list (pt R)) (Q : pt R) : pt R :=
  padd R (padd R (msm R a G) (msm R b H)) (smul R (dot a b) Q).

(** the statement proved: <a,G> + <b o fs, H> + <a,b> Q *)
Definition ipp_stmt (a b fs : list F) (G H : list (pt R)) (Q : pt R) : pt R :=
  padd R (padd R (msm R a G) (msm R (zipw fmul b fs) H)) (smul R (dot a b) Q).

(** the equation an accepted proof (Ls, Rs, A, B) satisfies for the statement P *)
Definition ipp_equation (Ls Rs : list (pt R)) (A B : F) (G H : list (pt R)) (fs : list F) (Q P : pt R) : Prop :=
  let us := challenges [] Ls Rs in
  padd R P (lr_sum us Ls Rs) =
  padd R (padd R (smul R A (msm R (svec us) G)) (smul R B (msm R (zipw fmul (svec (map finv us)) fs) H)))
    (smul R (fmul A B) Q).
End Spec.
