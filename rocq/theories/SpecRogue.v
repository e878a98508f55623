(** Specification of rogue keys against aggregated keys: keys made from the keys of others *)
From Coq Require Import String ZArith List.
From Verif Require Import GoModel Bn BlsModel SpecBls.
Import ListNotations.
Local Open Scope Z_scope.

(** sums and products of numbers *)
Fixpoint zdot (a b : list Z) : Z := match a, b with x :: a, y :: b => x * y + zdot a b | _, _ => 0 end.
Fixpoint zadd (a b : list Z) : list Z := match a, b with x :: a, y :: b => (x + y) :: zadd a b | _, _ => [] end.

Section Spec.
Context {B : bn}.
(** u_1 P_1 + u_2 P_2 + ... *)
Definition lin2 (us : list Z) (Ps : list (g2 B)) : g2 B := sum2 (map (fun uP => mul2 B (fst uP) (snd uP)) (combine us Ps)).
(** a key made from the keys Ps: t g2 + u_1 P_1 + u_2 P_2 + ...; nobody needs to know its private key *)
Definition made_key (Ps : list (g2 B)) (r : Z * list Z) : g2 B := add2 B (mul2 B (fst r) (gen2 B)) (lin2 (snd r) Ps).
(** the factor of each key of Ps in the aggregate of Ps and the keys made from them: its own hash and,
    for each made key, the hash of that key times the coefficient of P in it *)
Fixpoint factors (Ps : list (g2 B)) (rs : list (Z * list Z)) : list Z :=
  match rs with
  | [] => map ht Ps
  | r :: rs => zadd (map (Z.mul (ht (made_key Ps r))) (snd r)) (factors Ps rs)
  end.
(** and the known part of the aggregate *)
Definition known (Ps : list (g2 B)) (rs : list (Z * list Z)) : Z := fold_right (fun r a => ht (made_key Ps r) * fst r + a) 0 rs.
End Spec.
