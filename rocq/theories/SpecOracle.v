(** Specification of provers of ranges that ask for hash values, and are run again with other values *)
From Coq Require Import String ZArith List Arith.
From Coq Require Import Init.Byte.
From Verif Require Import GoModel GlobModel Fld Rist SpecVector SpecIPP SpecRange SpecSound PedersenModel InnerProductModel RangeProofModel SpecRewind SpecFork.
Import ListNotations.

Section Spec.
Context (R : rist).
(** what a prover gives: the fields of a proof *)
Record claim := mkClaim { cl_V : list (pt R); cl_A : pt R; cl_S : pt R; cl_T1 : pt R; cl_T2 : pt R;
  cl_taux : F; cl_mu : F; cl_t : F; cl_L : list (pt R); cl_R : list (pt R); cl_a : F; cl_b : F }.
Definition claim_ip (h : bytes -> F) (f : claim) : ipproof (with_hash R h) := mkIPP (with_hash R h) (cl_L f) (cl_R f) (cl_a f) (cl_b f).
Definition claim_proof (h : bytes -> F) (f : claim) : proof (with_hash R h) :=
  mkProof (with_hash R h) (map (fun P => mkCom (with_hash R h) P f0) (cl_V f)) (cl_A f) (cl_S f) (cl_T1 f) (cl_T2 f) (cl_taux f) (cl_mu f) (cl_t f)
    (Some (claim_ip h f)).
(** Verify accepts it, with M = m, for two of its own factors when h derives the challenges *)
Definition convincing (m : nat) (h : bytes -> F) (f : claim) : Prop :=
  exists c c', c <> c' /\ fst (grun (Verify (with_hash R h) c (claim_proof h f)) (Z.of_nat m)) = Ok true /\
    fst (grun (Verify (with_hash R h) c' (claim_proof h f)) (Z.of_nat m)) = Ok true.

(** the strings hashed for y, x, w and the rounds (that for z is the encoding of y) *)
Definition str_y (f : claim) : bytes := concat (map (pbytes R) (cl_V f)) ++ pbytes R (cl_A f) ++ pbytes R (cl_S f).
Definition str_x (f : claim) (z : F) : bytes :=
  concat (map (pbytes R) (cl_V f)) ++ pbytes R (cl_A f) ++ pbytes R (cl_S f) ++ sbytes R z ++ pbytes R (cl_T1 f) ++ pbytes R (cl_T2 f).
Definition str_w (f : claim) (z x : F) : bytes :=
  concat (map (pbytes R) (cl_V f)) ++ pbytes R (cl_A f) ++ pbytes R (cl_S f) ++ sbytes R z ++ pbytes R (cl_T1 f) ++ pbytes R (cl_T2 f) ++
    sbytes R x ++ sbytes R (cl_taux f) ++ sbytes R (cl_mu f) ++ sbytes R (cl_t f).
Fixpoint str_rounds (hs : bytes) (Ls Rs : list (pt R)) : list bytes :=
  match Ls, Rs with
  | l :: Ls, r :: Rs => let hs := hs ++ pbytes R l ++ pbytes R r in hs :: str_rounds hs Ls Rs
  | _, _ => []
  end.
(** all of them, in the order of the protocol *)
Definition strings (h : bytes -> F) (f : claim) : list bytes :=
  let y := h (str_y f) in let z := h (sbytes R y) in let x := h (str_x f z) in
  str_y f :: sbytes R y :: str_x f z :: str_w f z x :: str_rounds [] (cl_L f) (cl_R f).
(** all strings that are hashed when the prover runs and its result is verified *)
Definition history (h : bytes -> F) (A : oracle claim) : list bytes := asked h A ++ strings h (answer h A).

(** The prover is run with the hash functions H t, one for each list of challenges t that is asked (C87).  The strings that
    are hashed for its proof get these challenges, and Verify accepts.  The string of challenge i is at place p i of the
    history; runs whose challenges agree before i also agree on all strings before that place. *)
Definition rewound (m k : nat) (q : questions) (H : list F -> bytes -> F) (A : oracle claim) (p : nat -> nat) : Prop :=
  (forall y z x w us, SpecRewind.asked q k y z x w us -> let t := y :: z :: x :: w :: us in let h := H t in let f := answer h A in
     map h (strings h f) = t /\ convincing m h f /\
     forall i, i < length t -> nth_error (history h A) (p i) = nth_error (strings h f) i) /\
  (forall y z x w us y' z' x' w' us', SpecRewind.asked q k y z x w us -> SpecRewind.asked q k y' z' x' w' us' ->
     let t := y :: z :: x :: w :: us in let t' := y' :: z' :: x' :: w' :: us' in
     forall i, i < length t -> firstn i t = firstn i t' -> forall s, In s (firstn (p i) (history (H t) A)) -> H t s = H t' s).

(** a prover that asks in the order of the protocol and gives the messages of a script *)
Fixpoint ask_rounds {B} (L Rr : list F -> pt R) (hs : bytes) (n : nat) (us : list F) (k : list F -> oracle B) : oracle B :=
  match n with
  | O => k us
  | S n => let hs := hs ++ pbytes R (L us) ++ pbytes R (Rr us) in Ask hs (fun u => ask_rounds L Rr hs n (us ++ [u]) k)
  end.
Definition script_claim (m : nat) (s : script (pt R)) (an : answers) (y z x w : F) (us : list F) : claim :=
  mkClaim (map (s_V s) (seq 0 m)) (s_A s) (s_S s) (s_T1 s y z) (s_T2 s y z) (an_taux an y z x) (an_mu an y z x) (an_t an y z x)
    (rounds (s_L s y z x w) [] us) (rounds (s_R s y z x w) [] us) (an_a an y z x w us) (an_b an y z x w us).
Definition prover (m k : nat) (s : script (pt R)) (an : answers) : oracle claim :=
  Ask (str_y (script_claim m s an f0 f0 f0 f0 [])) (fun y => Ask (sbytes R y) (fun z =>
  Ask (str_x (script_claim m s an y z f0 f0 []) z) (fun x => Ask (str_w (script_claim m s an y z x f0 []) z x) (fun w =>
  ask_rounds (s_L s y z x w) (s_R s y z x w) [] k [] (fun us => Give (script_claim m s an y z x w us)))))).
End Spec.
