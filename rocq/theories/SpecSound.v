(** Specification of soundness for range proofs made by a prover who knows a representation of every
    point of the proof over the generators (an algebraic prover): the statements that should hold
    after each message, and the challenges that let a false statement turn into a true one. *)
From Coq Require Import String ZArith List Arith.
From Verif Require Import GoModel Fld Rist SpecVector SpecIPP SpecRange.
Import ListNotations.

Definition Sum (n : nat) (f : nat -> F) : F := fsum (map f (seq 0 n)).

(** coefficients of a point: over G, over H, of the value base and of the blinding base *)
Record rep := mkRep { rg : nat -> F; rh : nat -> F; rb : F; rl : F }.
Definition radd (a b : rep) : rep :=
  mkRep (fun i => fadd (rg a i) (rg b i)) (fun i => fadd (rh a i) (rh b i)) (fadd (rb a) (rb b)) (fadd (rl a) (rl b)).
Definition rscale (c : F) (a : rep) : rep :=
  mkRep (fun i => fmul c (rg a i)) (fun i => fmul c (rh a i)) (fmul c (rb a)) (fmul c (rl a)).
Definition rzero : rep := mkRep (fun _ => f0) (fun _ => f0) f0 f0.
(** all n + n + 2 coefficients are zero *)
Definition vanishes (n : nat) (v : rep) : Prop :=
  (forall i, i < n -> rg v i = f0) /\ (forall i, i < n -> rh v i = f0) /\ rb v = f0 /\ rl v = f0.
(** the point with these coefficients over the first n generators *)
Definition reval (R : rist) (n : nat) (v : rep) : pt R :=
  padd R (padd R (msm R (map (rg v) (seq 0 n)) (rp_G R n)) (msm R (map (rh v) (seq 0 n)) (rp_H R n)))
    (padd R (smul R (rb v) (rp_Base R)) (smul R (rl v) (rp_Blind R))).

(** ** The inner-product argument *)
(** the vector of length m 2^|us| whose blocks of length m are l times the subset products of us *)
Fixpoint spread (us : list F) (m : nat) (l : nat -> F) (i : nat) : F :=
  match us with
  | [] => l i
  | u :: us' =>
    let h := m * 2 ^ length us' in
    if i <? h then fmul (finv u) (spread us' m l i) else fmul u (spread us' m l (i - h))
  end.
(** after challenges us the remaining vectors have length m and the point v (over G and the
    generators y^-i H_i) commits to two of them and to w times their inner product *)
Definition good (us : list F) (m : nat) (w y : F) (v : rep) : Prop :=
  exists l r : nat -> F,
    (forall i, i < m * 2 ^ length us -> rg v i = spread us m l i) /\
    (forall i, i < m * 2 ^ length us -> fmul (fpow y i) (rh v i) = spread (map finv us) m r i) /\
    rb v = fmul w (Sum m (fun i => fmul (l i) (r i))) /\
    rl v = f0.
(** v + u^2 L + u^-2 R *)
Definition lr_step (v L R : rep) (u : F) : rep :=
  radd v (radd (rscale (fmul u u) L) (rscale (fmul (finv u) (finv u)) R)).
Fixpoint lr_rep (us : list F) (Ls Rs : list rep) : rep :=
  match us, Ls, Rs with
  | u :: us', l :: Ls', r :: Rs' =>
    radd (radd (rscale (fmul u u) l) (rscale (fmul (finv u) (finv u)) r)) (lr_rep us' Ls' Rs')
  | _, _, _ => rzero
  end.
(** a challenge that is zero or makes a wrong commitment right *)
Definition bad_u (us : list F) (m : nat) (w y : F) (v L R : rep) (u : F) : Prop :=
  u = f0 \/ (~ good us (2 * m) w y v /\ good (us ++ [u]) m w y (lr_step v L R u)).

(** ** The range proof for m values; V, A, S, T1, T2 are representations *)
Definition bitpow (m : nat) (z : F) (i : nat) : F := nth i (z_two z m) f0.

(** V and A are right: each V_j commits to the number whose bits A holds *)
Definition ok_A (m : nat) (V : nat -> rep) (A : rep) : Prop :=
  (forall j, j < m -> (forall i, i < 64 * m -> rg (V j) i = f0) /\ (forall i, i < 64 * m -> rh (V j) i = f0) /\
                      rb (V j) = Sum 64 (fun i => fmul (fpow two i) (rg A (64 * j + i)))) /\
  (forall i, i < 64 * m -> fmul (rg A i) (rh A i) = f0) /\
  (forall i, i < 64 * m -> fsub (rg A i) (rh A i) = f1).
(** ... tested with powers of y *)
Definition ok_y (m : nat) (V : nat -> rep) (A : rep) (y : F) : Prop :=
  (forall j, j < m -> (forall i, i < 64 * m -> rg (V j) i = f0) /\ (forall i, i < 64 * m -> rh (V j) i = f0) /\
                      rb (V j) = Sum 64 (fun i => fmul (fpow two i) (rg A (64 * j + i)))) /\
  Sum (64 * m) (fun i => fmul (fpow y i) (fmul (rg A i) (rh A i))) = f0 /\
  Sum (64 * m) (fun i => fmul (fpow y i) (fsub (fsub (rg A i) (rh A i)) f1)) = f0.
(** the vectors l(x), r(x) *)
Definition lvec (A S : rep) (x z : F) (i : nat) : F := fsub (fadd (rg A i) (fmul x (rg S i))) z.
Definition rvec (m : nat) (A S : rep) (x y z : F) (i : nat) : F :=
  fadd (fmul (fpow y i) (fadd (fadd (rh A i) (fmul x (rh S i))) z)) (bitpow m z i).
(** the representation of delta Base + sum z^(j+2) V_j + x T1 + x^2 T2 *)
Definition zV (m : nat) (V : nat -> rep) (z : F) (c : rep -> F) : F := Sum m (fun j => fmul (fpow z (j + 2)) (c (V j))).
(** ... combined with powers of z: the constant term of <l(x), r(x)> *)
Definition ok_z (m : nat) (V : nat -> rep) (A : rep) (y z : F) : Prop :=
  (forall i, i < 64 * m -> zV m V z (fun v => rg v i) = f0) /\
  (forall i, i < 64 * m -> zV m V z (fun v => rh v i) = f0) /\
  Sum (64 * m) (fun i => fmul (lvec A rzero f0 z i) (rvec m A rzero f0 y z i)) = fadd (delta y z m) (zV m V z rb).
(** ... at x *)
Definition ok_x (m : nat) (V : nat -> rep) (A S : rep) (y z : F) (T1 T2 : rep) (x : F) : Prop :=
  (forall i, i < 64 * m -> fadd (zV m V z (fun v => rg v i)) (fadd (fmul x (rg T1 i)) (fmul (fmul x x) (rg T2 i))) = f0) /\
  (forall i, i < 64 * m -> fadd (zV m V z (fun v => rh v i)) (fadd (fmul x (rh T1 i)) (fmul (fmul x x) (rh T2 i))) = f0) /\
  Sum (64 * m) (fun i => fmul (lvec A S x z i) (rvec m A S x y z i)) =
    fadd (fadd (delta y z m) (zV m V z rb)) (fadd (fmul x (rb T1)) (fmul (fmul x x) (rb T2))).
(** the coefficients of (left - right) side of the polynomial check; of the point P; and of the
    difference of the two sides of the inner-product check *)
Definition poly_rep (m : nat) (V : nat -> rep) (y z : F) (T1 T2 : rep) (x t taux : F) : rep :=
  let zc c := fadd (zV m V z c) (fadd (fmul x (c T1)) (fmul (fmul x x) (c T2))) in
  mkRep (fun i => fneg (zc (fun v => rg v i))) (fun i => fneg (zc (fun v => rh v i)))
    (fsub t (fadd (delta y z m) (zc rb))) (fsub taux (zc rl)).
Definition P_rep (m : nat) (A S : rep) (x y z w mu t : F) : rep :=
  mkRep (fun i => lvec A S x z i)
    (fun i => fadd (fadd (fadd (rh A i) (fmul x (rh S i))) z) (fmul (bitpow m z i) (nth i (cpowers (finv y) (64 * m)) f0)))
    (fadd (fadd (rb A) (fmul x (rb S))) (fmul t w))
    (fsub (fadd (rl A) (fmul x (rl S))) mu).
Definition ip_rep (m : nat) (us : list F) (Ls Rs : list rep) (a b : F) (A S : rep) (x y z w mu t : F) : rep :=
  radd (mkRep (fun i => fmul a (nth i (svec us) f0))
          (fun i => fmul b (fmul (nth i (svec (map finv us)) f0) (nth i (cpowers (finv y) (64 * m)) f0)))
          (fmul (fmul a b) w) f0)
       (rscale (fneg f1) (radd (P_rep m A S x y z w mu t) (lr_rep us Ls Rs))).
(** ... and after w *)
Definition ok_w (m : nat) (V : nat -> rep) (A S : rep) (y z : F) (T1 T2 : rep) (x t taux mu w : F) : Prop :=
  vanishes (64 * m) (poly_rep m V y z T1 T2 x t taux) /\
  good [] (64 * m) w y (P_rep m A S x y z w mu t).

Definition bad_y (m : nat) (V : nat -> rep) (A : rep) (y : F) : Prop := y = f0 \/ (~ ok_A m V A /\ ok_y m V A y).
Definition bad_z (m : nat) (V : nat -> rep) (A : rep) (y z : F) : Prop := ~ ok_y m V A y /\ ok_z m V A y z.
Definition bad_x (m : nat) (V : nat -> rep) (A S : rep) (y z : F) (T1 T2 : rep) (x : F) : Prop :=
  ~ ok_z m V A y z /\ ok_x m V A S y z T1 T2 x.
Definition bad_w (m : nat) (V : nat -> rep) (A S : rep) (y z : F) (T1 T2 : rep) (x t taux mu w : F) : Prop :=
  ~ ok_x m V A S y z T1 T2 x /\ ok_w m V A S y z T1 T2 x t taux mu w.
(** round j of the inner-product argument *)
Definition bad_round (m : nat) (us : list F) (Ls Rs : list rep) (A S : rep) (x y z w mu t : F) (j : nat) : Prop :=
  bad_u (firstn j us) (2 ^ (length us - (j + 1))) w y
    (radd (P_rep m A S x y z w mu t) (lr_rep (firstn j us) (firstn j Ls) (firstn j Rs)))
    (nth j Ls rzero) (nth j Rs rzero) (nth j us f0).
(** the verifier's own random factor c merges the two checks into c D1 + D2 = 0 *)
Definition bad_c (n : nat) (D1 D2 : rep) (c : F) : Prop :=
  ~ (vanishes n D1 /\ vanishes n D2) /\ vanishes n (radd (rscale c D1) D2).
