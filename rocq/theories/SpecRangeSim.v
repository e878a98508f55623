(** Specification for C97, C98: the relations behind two range proofs with the same points, and the
    points S and T1 that complete a proof whose challenges are known in advance *)
From Coq Require Import String ZArith List.
From Verif Require Import GoModel Fld Rist SpecVector SpecIPP SpecRange SpecSound.
Import ListNotations.

(** differences of the coefficients of the two checks, for proofs with final scalars a b mu t taux (and w)
    and a' b' mu' t' taux' (and w') *)
Definition diff_ip (m : nat) (us : list F) (y w w' a a' b b' mu mu' t t' : F) : rep :=
  mkRep (fun i => fmul (fsub a a') (nth i (svec us) f0))
        (fun i => fmul (fsub b b') (fmul (nth i (svec (map finv us)) f0) (nth i (cpowers (finv y) (64 * m)) f0)))
        (fsub (fmul w (fsub (fmul a b) t)) (fmul w' (fsub (fmul a' b') t')))
        (fsub mu mu').
Definition diff_poly (t t' taux taux' : F) : rep := mkRep (fun _ => f0) (fun _ => f0) (fsub t t') (fsub taux taux').

(** 1/x times what is missing in the two equations when S and T1 are left out *)
Definition sim_S (R : rist) (m : nat) (L Rs : list (pt R)) (us : list F) (a b : F) (A : pt R) (x y z w mu t : F) : pt R :=
  let n := 64 * m in
  let Q := smul R w (rp_Base R) in
  smul R (finv x) (psub R
    (padd R (padd R (smul R a (msm R (svec us) (rp_G R n)))
                    (smul R b (msm R (zipw fmul (svec (map finv us)) (cpowers (finv y) n)) (rp_H R n))))
            (smul R (fmul a b) Q))
    (padd R (rp_P R m A (pt0 R) x y z mu t Q) (lr_sum R us L Rs))).
Definition sim_T1 (R : rist) (m : nat) (V : list (pt R)) (T2 : pt R) (x y z t taux : F) : pt R :=
  smul R (finv x) (psub R (rp_poly_lhs R t taux) (rp_poly_rhs R m V (pt0 R) T2 x y z)).

(** the strings hashed for the challenges of the inner-product part *)
Fixpoint round_strings (R : rist) (hs : bytes) (Ls Rs : list (pt R)) : list bytes :=
  match Ls, Rs with
  | l :: Ls', r :: Rs' => let hs := hs ++ pbytes R l ++ pbytes R r in hs :: round_strings R hs Ls' Rs'
  | _, _ => []
  end.
(** the strings hashed for y, x and w *)
Definition y_string (R : rist) (V : list (pt R)) (A S : pt R) : bytes := concat (map (pbytes R) V) ++ pbytes R A ++ pbytes R S.
Definition x_string (R : rist) (V : list (pt R)) (A S : pt R) (z : F) (T1 T2 : pt R) : bytes :=
  y_string R V A S ++ sbytes R z ++ pbytes R T1 ++ pbytes R T2.
Definition w_string (R : rist) (V : list (pt R)) (A S : pt R) (z : F) (T1 T2 : pt R) (x taux mu t : F) : bytes :=
  x_string R V A S z T1 T2 ++ sbytes R x ++ sbytes R taux ++ sbytes R mu ++ sbytes R t.
