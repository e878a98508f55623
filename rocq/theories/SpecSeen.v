(** Specification of signatures made from signatures that were seen *)
From Coq Require Import String ZArith List.
From Verif Require Import GoModel Bn BlsModel SpecBls.
Import ListNotations.
Local Open Scope Z_scope.

Section Spec.
Context {B : bn}.
(** a signature that was seen: the message, the objects of the key and the signature with the group elements
    they hold, and a number that is the inverse of the hash of the message *)
Record seen := mkSeen { se_msg : bytes; se_pk : ptr; se_P : g2 B; se_u : ptr; se_U : g1 B; se_k : Z }.
(** it was accepted *)
Definition seen_ok (m : mem B) (e : seen) : Prop :=
  pk_is m (se_pk e) (se_P e) /\ usig_is m (se_u e) (se_U e) /\ VerifyUnsafe B (se_pk e) (se_msg e) (se_u e) m = (Ok tt, m) /\
  (ord B | se_k e * hm (B := B) (se_msg e) - 1).
(** the signature moved to another message *)
Definition moved (msg : bytes) (e : seen) : g1 B := mul1 B (hm (B := B) msg * se_k e) (se_U e).
(** the signature of a group, and of a batch, computed from those of the members *)
Definition group_sig (msg : bytes) (l : list seen) : g1 B := sum1 (map (fun e => mul1 B (ht (se_P e)) (moved msg e)) l).
Definition batch_sig (msgs : list bytes) (l : list seen) : g1 B := sum1 (map (fun p => moved (fst p) (snd p)) (combine msgs l)).
End Spec.
Arguments seen : clear implicits.
