(** Specification for generators, Pedersen commitments and transcripts *)
From Coq Require Import String ZArith List.
From Coq Require Import Init.Byte Strings.Byte.
From Verif Require Import GoModel Fld Rist SpecVector.
Import ListNotations.

Section Spec.
Context (R : rist).

(** the chain of n generators from a seed: Derive(seed), Derive(bytes of previous), ... *)
Fixpoint chain (seed : bytes) (n : nat) : list (pt R) :=
  match n with
  | O => []
  | S k => let p := pderive R seed in p :: chain (pbytes R p) k
  end.

(** <v, G> for the generators G of a seed *)
Definition vec_term (seed : bytes) (v : list F) : pt R := msm R v (chain seed (length v)).

(** sum over j >= k of <v_j, generators of data||label j> *)
Fixpoint vec_terms (label : nat -> byte) (data : bytes) (k : nat) (vs : list (list F)) : pt R :=
  match vs with
  | [] => pt0 R
  | v :: vs' => padd R (vec_term (data ++ [label k]) v) (vec_terms label data (S k) vs')
  end.

(** the commitment to vectors v0..vk under blinding r *)
Definition vec_commit (label : nat -> byte) (data : bytes) (r : F) (vs : list (list F)) : pt R :=
  match vs with
  | [] => pt0 R
  | v0 :: vs' => padd R (padd R (smul R r (pbase R)) (vec_term data v0)) (vec_terms label data 1 vs')
  end.

(** the byte with value j mod 256 *)
Definition low_byte (j : nat) : byte := Z_byte (Z.of_nat j).
End Spec.

(** operations on a generator: Compute(n) or Clear *)
Inductive gen_op := OpCompute (n : nat) | OpClear.
Fixpoint computed (k : nat) (ops : list gen_op) : nat :=
  match ops with
  | [] => k
  | OpCompute n :: ops' => computed (k + n) ops'
  | OpClear :: ops' => computed 0 ops'
  end.

(** operations on a transcript: Append(vals...) or Clear; [since] is the list of strings
    appended since the last Clear *)
Inductive hc_op := HAppend (vals : list bytes) | HClear.
Fixpoint since (acc : list bytes) (ops : list hc_op) : list bytes :=
  match ops with
  | [] => acc
  | HAppend vs :: ops' => since (acc ++ vs) ops'
  | HClear :: ops' => since [] ops'
  end.
