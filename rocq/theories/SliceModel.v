(** Model of slices with shared backing arrays. *)
From Coq Require Import String ZArith List Arith.
From Coq Require Import Init.Byte.
From Verif Require Import GoModel.
Import ListNotations.

(** Memory: the backing arrays.  A slice is a window of one array. *)
Definition mem (E : Type) := list (list E).
Record slice := mkSlice { s_arr : nat; s_off : nat; s_len : nat; s_cap : nat }.

Section Mem.
Context {E : Type}.
Definition array (m : mem E) (a : nat) : list E := nth a m [].
Definition contents (m : mem E) (s : slice) : list E := firstn (s_len s) (skipn (s_off s) (array m (s_arr s))).

Definition overwrite (arr : list E) (pos : nat) (data : list E) : list E :=
  firstn pos arr ++ data ++ skipn (pos + length data) arr.

(** Go's append(s, data...): in place when the capacity suffices, otherwise into a new
    array; [slack] is the number of spare elements the allocator adds (any value), which
    are [zero]. *)
Definition append (zero : E) (slack : nat) (m : mem E) (s : slice) (data : list E) : mem E * slice :=
  if Nat.leb (s_len s + length data) (s_cap s)
  then (upd m (s_arr s) (overwrite (array m (s_arr s)) (s_off s + s_len s) data),
        mkSlice (s_arr s) (s_off s) (s_len s + length data) (s_cap s))
  else (m ++ [contents m s ++ data ++ repeat zero slack],
        mkSlice (length m) 0 (s_len s + length data) (s_len s + length data + slack)).

(** A fresh slice without spare capacity: make([]E, n) filled afterwards, or the 32-byte
    result of H.Sum(nil) in hash.go:48. *)
Definition fresh (m : mem E) (b : list E) : mem E * slice :=
  (m ++ [b], mkSlice (length m) 0 (length b) (length b)).

(** s[i] = x; None = index out of range *)
Definition store (m : mem E) (s : slice) (i : nat) (x : E) : option (mem E) :=
  if Nat.ltb i (s_len s) then Some (upd m (s_arr s) (upd (array m (s_arr s)) (s_off s + i) x)) else None.
(** s[:n] and s[n:] for n <= len(s) *)
Definition upto (s : slice) (n : nat) : slice := mkSlice (s_arr s) (s_off s) n (s_cap s).
Definition from (s : slice) (n : nat) : slice := mkSlice (s_arr s) (s_off s + n) (s_len s - n) (s_cap s - n).
End Mem.

(** ** The append calls in merkletree.go:53, 62, 126, 211 *)
Section Level.
Context (sha3 : bytes -> bytes) (slack : nat).

(** merkletree.go:126-128 and 62: hash of a pair of node hashes *)
Definition pair_hash (m : mem Byte.byte) (l r : slice) : mem Byte.byte * slice :=
  let (m1, payloadHash) := append Byte.x00 slack m l (contents m r) in
  fresh m1 (sha3 (contents m1 payloadHash)).

(** merkletree.go:121-146 (the hash slices of one level only; parent links and the
    early return are in MerkleModel.v) *)
Fixpoint level_mem (m : mem Byte.byte) (nl : list slice) : mem Byte.byte * list slice :=
  match nl with
  | [] => (m, [])
  | l :: rest =>
    let r := match rest with [] => l | r :: _ => r end in
    let (m1, h) := pair_hash m l r in
    match rest with
    | [] => (m1, [h])
    | _ :: rest' => let (m2, hs) := level_mem m1 rest' in (m2, h :: hs)
    end
  end.

(** merkletree.go:119-149: the hash slice of the root; None = out of fuel. *)
Fixpoint root_mem (fuel : nat) (m : mem Byte.byte) (nl : list slice) : option (mem Byte.byte * slice) :=
  match fuel with
  | O => None
  | S f =>
    let (m1, nodes) := level_mem m nl in
    match Nat.eqb (length nl) 2, nodes with
    | true, n :: _ => Some (m1, n)
    | _, _ => root_mem f m1 nodes
    end
  end.
End Level.
