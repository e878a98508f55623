(** Examples for C30, C32 and C36: Prove and Verify computed in the instance with the constant hash 1 *)
From Coq Require Import String ZArith List Lia Bool Arith.
From Verif Require Import GoModel GlobModel Fld Rist RistInst SpecIPP InnerProductModel RangeProofModel.
Import ListNotations.
Local Open Scope nat_scope.

Definition ex_rs (i : nat) : F := if Nat.eqb i 3 then f1 else f0.
(** no zero folding challenge, the result of Verify, and M *)
Definition ex_run (v : list F) (c : F) : bool * res bool * Z :=
  match grun (Prove tiny v false ex_rs) 1 with
  | (Ok p, m) =>
    (match pf_ip tiny p with
     | Some ip => forallb (fun u => negb (feqb u f0)) (challenges tiny [] (ip_L tiny ip) (ip_R tiny ip))
     | None => false end, fst (grun (Verify tiny c p) m), m)
  | (_, m) => (false, Panic, m)
  end.
Example C30_ex : ex_run [of_Z 5] (of_Z 77) = (true, Ok true, 1%Z).
Proof. vm_compute. reflexivity. Qed.
Example C32_ex : ex_run [of_Z (2 ^ 64)] (of_Z 77) = (true, Err "megacheck failed"%string, 1%Z).
Proof. vm_compute. reflexivity. Qed.
Example C36_ex : match grun (Prove tiny [of_Z 5; of_Z 6] false ex_rs) 1 with (Ok _, m) => m | _ => 0%Z end = 2%Z.
Proof. vm_compute. reflexivity. Qed.
