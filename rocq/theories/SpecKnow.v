(** Specification of provers for the inner-product argument that are asked several challenges in each round.
    The statement and the generators are fixed before; nothing is assumed about how L and R are made. *)
From Coq Require Import String ZArith List.
From Verif Require Import GoModel Fld Rist SpecVector SpecIPP SpecRewind.
Import ListNotations.

(** coefficients of n points G, n points H and Q *)
Record coefs := mkCo { cg : nat -> F; ch : nat -> F; cq : F }.
Definition co_eval (R : rist) (n : nat) (G H : list (pt R)) (Q : pt R) (v : coefs) : pt R :=
  padd R (padd R (msm R (map (cg v) (seq 0 n)) G) (msm R (map (ch v) (seq 0 n)) H)) (smul R (cq v) Q).
Definition co_zero (n : nat) (v : coefs) : Prop := (forall i, i < n -> cg v i = f0 /\ ch v i = f0) /\ cq v = f0.

(** the challenges asked in each of k rounds, after those of earlier rounds: at least four, with different squares, not zero *)
Definition ip_wide (k : nat) (q : list F -> list F) : Prop :=
  forall us, length us < k -> path q [] us -> NoDup (map (fun u => fmul u u) (q us)) /\ 4 <= length (q us) /\ ~ In f0 (q us).

(** the equation Verify checks, for given challenges *)
Definition ip_equation (R : rist) (us : list F) (Ls Rs : list (pt R)) (A B : F) (G H : list (pt R)) (fs : list F) (Q P : pt R) : Prop :=
  padd R P (lr_sum R us Ls Rs) =
  padd R (padd R (smul R A (msm R (svec us) G)) (smul R B (msm R (zipw fmul (svec (map finv us)) fs) H))) (smul R (fmul A B) Q).
