(** Sessions with the mlsag package, used to state its properties.  Key vectors handed over
    with AddDecoy are taken not to share memory with each other (for sharing see MlsagHeap.v). *)
From Coq Require Import String ZArith List.
From Verif Require Import GoModel Fld Rist MlsagModel.
Import ListNotations.

Section Sessions.
Context {R : rist}.
(** operations on a Proof; the zero value of Proof is [mp_new] *)
Inductive mop :=
| ODecoy (k : pubkeys R)
| OSecret (x : F)
| OMsg (m : bytes)
| OProve (skipLast : bool) (js : nat -> nat) (rs : nat -> F).
Definition run_mop (p : mproof R) (o : mop) : mproof R :=
  match o with
  | ODecoy k => AddDecoy R p k
  | OSecret x => AddSecret R p x
  | OMsg m => SetMsg R p m
  | OProve sk js rs => snd (prove R p sk js rs)
  end.
Definition mp_new : mproof R := mkMP R 0 [] (mkPK R false []) [] [].

(** building a ring before proving, with SubCommToZero (of DualKey, which embeds Proof);
    after a prove the rows share memory with the signer's keys, so it is left out there *)
Inductive bop := BOp (k : pubkeys R) | BSecret (x : F) | BMsg (m : bytes) | BSub (q : pt R).
Definition run_bop (p : mproof R) (o : bop) : res (mproof R) :=
  match o with
  | BOp k => Ok (AddDecoy R p k)
  | BSecret x => Ok (AddSecret R p x)
  | BMsg m => Ok (SetMsg R p m)
  | BSub q => let! d := SubCommToZero R (mkDK R p []) q in Ok (dk_proof R d)
  end.

(** a row with the point q subtracted from the second key *)
Definition sub_second (q : pt R) (row : pubkeys R) : pubkeys R :=
  mkPK R (pk_decoy R row) (match pk_keys R row with a :: b :: l => a :: psub R b q :: l | l => l end).

(** operations on a DualKey *)
Inductive dop := DDecoy (k : pubkeys R) | DSecret (x : F) | DMsg (m : bytes) | DPrimary (x : F) | DComm (x : F) | DSub (q : pt R)
  | DProve (js : nat -> nat) (rs : nat -> F).
Definition on_proof (d : dualkey R) (f : mproof R -> mproof R) : dualkey R := mkDK R (f (dk_proof R d)) (dk_keys R d).
Definition run_dop (o : dop) (d : dualkey R) : res (dualkey R) :=
  match o with
  | DDecoy k => Ok (on_proof d (fun p => AddDecoy R p k))
  | DSecret x => Ok (on_proof d (fun p => AddSecret R p x))
  | DMsg m => Ok (on_proof d (fun p => SetMsg R p m))
  | DPrimary x => let! (d, _) := SetPrimaryKey R d x in Ok d
  | DComm x => let! (d, _) := SetCommToZero R d x in Ok d
  | DSub q => SubCommToZero R d q
  | DProve js rs => match fst (dk_Prove R d js rs) with Panic => Panic | _ => Ok (snd (dk_Prove R d js rs)) end
  end.

(** those that come before the first Prove *)
Definition setup (o : dop) : Prop := match o with DSecret _ => False | DProve _ _ => False | _ => True end.
(** no Prove; and the secrets added besides the two keys *)
Definition quiet (o : dop) : Prop := match o with DProve _ _ => False | _ => True end.
Definition secret_of (o : dop) : list F := match o with DSecret x => [x] | _ => [] end.
Definition secrets (ops : list dop) : list F := flat_map secret_of ops.
(** a sequence of operations that must all succeed *)
Fixpoint run_all {O S} (f : O -> S -> res S) (ops : list O) (s : S) : res S :=
  match ops with [] => Ok s | o :: ops => let! s := f o s in run_all f ops s end.
(** the Proof after building a ring and then any further history *)
Definition session (bops : list bop) (ops : list mop) : res (mproof R) :=
  let! p := run_all (fun o p => run_bop p o) bops mp_new in Ok (fold_left run_mop ops p).
End Sessions.
