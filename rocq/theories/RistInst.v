(** The laws [rist_ok] are satisfiable: the additive group of [F] with the
    32-byte little-endian encoding. *)
From Coq Require Import String ZArith List Lia Bool Field.
From Verif Require Import GoModel GoFacts Prime Fld Rist.
Import ListNotations.
Local Open Scope Z_scope.

Fixpoint le_bytes (n : nat) (z : Z) : bytes :=
  match n with O => [] | S k => Z_byte z :: le_bytes k (z / 256) end.
Fixpoint le_Z (b : bytes) : Z :=
  match b with [] => 0 | x :: b' => byte_Z x + 256 * le_Z b' end.

Lemma le_bytes_length n z : length (le_bytes n z) = n.
Proof. revert z. induction n as [|n IH]; intros z; cbn; [reflexivity|]. rewrite IH. reflexivity. Qed.

Lemma le_Z_bytes n z : 0 <= z < 256 ^ Z.of_nat n -> le_Z (le_bytes n z) = z.
Proof.
  revert z. induction n as [|n IH]; intros z Hz.
  - cbn in *. lia.
  - rewrite Nat2Z.inj_succ, Z.pow_succ_r in Hz by lia.
    cbn [le_bytes le_Z]. rewrite byte_Z_byte, IH.
    + pose proof (Z.div_mod z 256). lia.
    + split; [apply Z.div_pos; lia|]. apply Z.div_lt_upper_bound; lia.
Qed.

Definition f_bytes (x : F) : bytes := le_bytes 32 (to_Z x).
Definition f_set (b : bytes) : F := of_Z (le_Z b).

Lemma f_set_bytes (x : F) : f_set (f_bytes x) = x.
Proof.
  unfold f_set, f_bytes. rewrite le_Z_bytes; [apply of_Z_to_Z|].
  pose proof (to_Z_range x) as H. assert (ell < 256 ^ Z.of_nat 32) by reflexivity. lia.
Qed.

(** [h] is the hash function, arbitrary. *)
Definition fin_rist (h : bytes -> F) : rist :=
  mkRist F f0 fadd fsub fneg fmul f1 feqb f_bytes
    (fun b => if bytes_eqb (f_bytes (f_set b)) b then Some (f_set b) else None)
    (fun _ => f0) h f_bytes f_set h.

Lemma fin_rist_ok (h : bytes -> F) : rist_ok (fin_rist h).
Proof.
  constructor; unfold fin_rist; cbn [pt pt0 padd psub pneg smul pbase peqb pbytes pset sbytes sset];
    intros; try ring.
  - apply f1_neq_f0.
  - apply feqb_eq.
  - apply le_bytes_length.
  - rewrite f_set_bytes, bytes_eqb_refl. reflexivity.
  - apply le_bytes_length.
  - apply f_set_bytes.
Qed.

(** A simple hash function for examples: one plus the big-endian value. *)
Definition toy_hash (b : bytes) : F := of_Z (1 + be_Z b).
Definition toy : rist := fin_rist toy_hash.
Lemma toy_ok : rist_ok toy.
Proof. apply fin_rist_ok. Qed.
(** The constant hash 1, for the examples that would otherwise take long to compute. *)
Definition tiny : rist := fin_rist (fun _ => f1).
