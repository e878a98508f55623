(** Specification for forgers of bLSAG signatures: programs that ask for hash values *)
From Coq Require Import String ZArith List Arith.
From Verif Require Import GoModel Fld Rist SpecRewind SpecFork BlsagModel.
Import ListNotations.

(** the same program with its result changed *)
Fixpoint omap {A B} (g : A -> B) (o : oracle A) : oracle B :=
  match o with Give a => Give (g a) | Ask q k => Ask q (fun c => omap g (k c)) end.

Section Spec.
Context (R : rist) (V : raw R).

(** raw points do not depend on the hash to scalars *)
Definition raw_hash (h : bytes -> F) : raw (with_hash R h) :=
  mkRaw (with_hash R h) (rp R V) (emb R V) (rzero R V) (radd R V) (rsmul R V) (rbytes R V).

(** what a forger gives for a ring of keys fixed in advance *)
Record bl_forgery := mkBlForgery { bf_msg : bytes; bf_c : F; bf_s : list F; bf_image : pt R }.

(** Verify accepts when h derives the challenges *)
Definition bl_accepted (ring : list (pt R)) (h : bytes -> F) (f : bl_forgery) : Prop :=
  Verify (with_hash R h) (raw_hash h) (bf_msg f)
    (mkRS (with_hash R h) (raw_hash h) (emb R V (bf_image f)) (bf_c f) (bf_s f) (map (emb R V) ring)) = Ok true.

(** keys and responses as rows of length one; responses without key are left out *)
Definition ones {A} (l : list A) : list (list A) := map (fun x => [x]) l.
Definition as_rows (n : nat) (f : bl_forgery) : forgery R :=
  mkForgery R (bf_msg f) (bf_c f) (ones (firstn n (bf_s f))) [bf_image f].
(** the strings hashed by Verify, the challenges with which the keys are entered, and when the strings were hashed first *)
Definition bl_hashed (ring : list (pt R)) (h : bytes -> F) (f : bl_forgery) : list bytes :=
  hashed R (ones ring) h (as_rows (length ring) f).
Definition bl_entering (ring : list (pt R)) (h : bytes -> F) (f : bl_forgery) : list F :=
  entering R (ones ring) h (as_rows (length ring) f).
Definition bl_queries (ring : list (pt R)) (h : bytes -> F) (A : oracle bl_forgery) : list bytes :=
  asked h A ++ bl_hashed ring h (answer h A).
Definition bl_places (ring : list (pt R)) (h : bytes -> F) (A : oracle bl_forgery) : list nat :=
  map (first_of (bl_queries ring h A)) (bl_hashed ring h (answer h A)).
End Spec.
