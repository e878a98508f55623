(** Calls that fill a mlsag.Proof, and what they add *)
From Coq Require Import ZArith List.
From Verif Require Import GoModel Fld Rist MlsagModel.
Import ListNotations.

Section Spec.
Context {R : rist}.
(** mlsag/proof.go:36-45 and 53-62, mlsag/dualkey.go:33-35 *)
Inductive add := ADecoy (k : pubkeys R) | ADecoys (ks : list (pubkeys R)) | ASecret (x : F) | AMsg (m : bytes).
Definition run_add (p : mproof R) (a : add) : mproof R :=
  match a with
  | ADecoy k => AddDecoy R p k
  | ADecoys ks => AddDecoys R p ks
  | ASecret x => AddSecret R p x
  | AMsg m => SetMsg R p m
  end.
(** the zero value of Proof after the calls *)
Definition built (l : list add) : mproof R := fold_left run_add l (mkMP R 0 [] (mkPK R false []) [] []).

(** the keys of the members, the secrets and the messages among the calls *)
Definition members (l : list add) : list (list (pt R)) :=
  flat_map (fun a => match a with ADecoy k => [pk_keys R k] | ADecoys ks => map (pk_keys R) ks | _ => [] end) l.
Definition given (l : list add) : list F := flat_map (fun a => match a with ASecret x => [x] | _ => [] end) l.
Definition messages (l : list add) : list bytes := flat_map (fun a => match a with AMsg m => [m] | _ => [] end) l.
End Spec.
Arguments add : clear implicits.
