(** Property C103: rangeproof/pedersen/pedersen.go, what vector commitments bind *)
From Coq Require Import String ZArith List Arith Lia Bool.
From Coq Require Import Init.Byte.
From Verif Require Import GoModel GoFacts Fld Rist RistFacts RistInst SpecVector VectorFacts PedersenModel SpecPedersen PedersenFacts
  PedersenProps SpecVecCom VecComFacts P_Fork.
Import ListNotations.
Local Open Scope nat_scope.

(** Two commitments with the same value, by any two structs for the same data: the differences of the blinding
    factors and of the elements are a relation between the generators; if it is trivial then blinding factors and
    elements agree. *)
Theorem C103_relation R (OK : rist_ok R) data p p' b b' vs vs' p1 c1 p2 c2 k m :
  ped_reached R data p -> ped_reached R data p' -> small vs -> small vs' -> vs <> [] -> vs' <> [] ->
  CommitToVectors R p b vs = Ok (p1, c1) -> CommitToVectors R p' b' vs' = Ok (p2, c2) -> c_val R c1 = c_val R c2 ->
  length vs <= k -> Forall (fun v => length v <= m) vs -> length vs' <= k -> Forall (fun v => length v <= m) vs' ->
  let w := fsub b b' :: grid k m (fun j i => fsub (coeff vs j i) (coeff vs' j i)) in
  msm R w (pbase R :: gens_of R data k m) = pt0 R /\ length w = length (pbase R :: gens_of R data k m) /\
  (Forall (fun x => x = f0) w -> b = b' /\ forall j i, coeff vs j i = coeff vs' j i).
Proof.
  intros P P' S S' N N' E E' V L A L' A' w.
  destruct (commit_vectors R OK data p b vs P S) as (q & Q & _). rewrite Q in E. injection E as <- <-.
  destruct (commit_vectors R OK data p' b' vs' P' S') as (q' & Q' & _). rewrite Q' in E'. injection E' as <- <-. cbn [c_val] in V.
  split; [|split].
  - exact (vec_commit_relation OK data b b' vs vs' k m N N' L A L' A' V).
  - unfold w. cbn [length]. rewrite (grid_length k m), (gens_of_length data k m). reflexivity.
  - intros Z. inversion Z as [|? ? Z1 Z2]; subst. split; [|exact (grid_zero vs vs' k m L A L' A' Z2)].
    transitivity (fadd (fsub b b') b'); [ring|]. rewrite Z1. ring.
Qed.
Print Assumptions C103_relation.

(** Conversely zeros at the ends of vectors, and vectors of zeros at the end, do not enter the value *)
Theorem C103_zeros R (OK : rist_ok R) data p p' b vs vs' p1 c1 p2 c2 :
  ped_reached R data p -> ped_reached R data p' -> small vs -> small vs' -> vs <> [] -> vs' <> [] ->
  CommitToVectors R p b vs = Ok (p1, c1) -> CommitToVectors R p' b vs' = Ok (p2, c2) ->
  (forall j i, coeff vs j i = coeff vs' j i) -> c1 = c2.
Proof.
  intros P P' S S' N N' E E' C.
  destruct (commit_vectors R OK data p b vs P S) as (q & Q & _). rewrite Q in E. injection E as <- <-.
  destruct (commit_vectors R OK data p' b vs' P' S') as (q' & Q' & _). rewrite Q' in E'. injection E' as <- <-.
  f_equal. exact (vec_commit_same OK data b vs vs' N N' C).
Qed.
Print Assumptions C103_zeros.

(** The generators of the first 256 vectors come from different strings; beyond that C19 *)
Theorem C103_seeds data i j : i < 256 -> j < 256 -> seed_of data i = seed_of data j -> i = j.
Proof.
  intros I J E.
  assert (LB : forall i j, i < 256 -> j < 256 -> low_byte i = low_byte j -> i = j).
  { unfold low_byte. clear. intros i j Hi Hj H. apply (f_equal byte_Z) in H. rewrite !byte_Z_byte in H. rewrite !Z.mod_small in H by lia. lia. }
  destruct i as [|i], j as [|j]; cbn [seed_of] in E.
  - reflexivity.
  - apply (f_equal (@length _)) in E. rewrite app_length in E. cbn [length] in E. lia.
  - apply (f_equal (@length _)) in E. rewrite app_length in E. cbn [length] in E. lia.
  - apply app_inj_tail in E. destruct E as [_ E]. apply LB; assumption.
Qed.
Print Assumptions C103_seeds.

Theorem C103_lengths_bound_refuted R (OK : rist_ok R) data :
  ~ (forall b vs vs' p1 c1 p2 c2, small vs -> small vs' -> length vs <= 256 -> length vs' <= 256 ->
     CommitToVectors R (ped_New R data) b vs = Ok (p1, c1) -> CommitToVectors R (ped_New R data) b vs' = Ok (p2, c2) ->
     c_val R c1 = c_val R c2 -> vs = vs').
Proof.
  intros C.
  assert (S1 : small [[f1]]) by (repeat constructor). assert (S2 : small [[f1; f0]; []]) by (repeat constructor).
  destruct (commit_vectors R OK data (ped_New R data) f1 _ (ped_New_reached R data) S1) as (q1 & E1 & _).
  destruct (commit_vectors R OK data (ped_New R data) f1 _ (ped_New_reached R data) S2) as (q2 & E2 & _).
  assert (H : [[f1]] = [[f1; f0]; []]); [|discriminate H].
  eapply (C f1); try eassumption; try (cbn [length]; lia). cbn [c_val].
  apply (vec_commit_same OK); [discriminate|discriminate|]. intros [|[|[|j]]] [|[|[|i]]]; reflexivity.
Qed.
Print Assumptions C103_lengths_bound_refuted.

(** in a group where a generator is a known multiple of the blinding point there is a relation *)
Lemma two_openings R (OK : rist_ok R) data : pderive R data = pbase R ->
  vec_commit R low_byte data f0 [[f1]] = vec_commit R low_byte data f1 [[f0]; []].
Proof.
  intros E. unfold vec_commit, vec_term, vec_terms. cbn [length chain]. rewrite !msm_cons, E. unfold vec_term. cbn [length chain].
  rewrite !msm_nil_l. lin OK.
Qed.
Example C103_ex : ped_reached tiny [] (ped_New tiny []) /\ small [[f1]] /\ small [[f0]; []] /\
  (exists p1 c1 p2 c2, CommitToVectors tiny (ped_New tiny []) f0 [[f1]] = Ok (p1, c1) /\
    CommitToVectors tiny (ped_New tiny []) f1 [[f0]; []] = Ok (p2, c2) /\ c_val tiny c1 = c_val tiny c2) /\
  coeff [[f1]] 0 0 <> coeff [[f0]; []] 0 0.
Proof.
  assert (S1 : small [[f1]]) by (repeat constructor). assert (S2 : small [[f0]; []]) by (repeat constructor).
  split; [apply ped_New_reached|]. split; [exact S1|]. split; [exact S2|]. split; [|exact f1_neq_f0].
  destruct (commit_vectors tiny tiny_ok [] (ped_New tiny []) f0 _ (ped_New_reached tiny []) S1) as (q1 & E1 & _).
  destruct (commit_vectors tiny tiny_ok [] (ped_New tiny []) f1 _ (ped_New_reached tiny []) S2) as (q2 & E2 & _).
  do 4 eexists. split; [exact E1|]. split; [exact E2|]. exact (two_openings tiny tiny_ok [] eq_refl).
Qed.
