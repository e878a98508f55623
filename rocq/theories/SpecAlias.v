(** Notions used to state what the functions of AliasModel.v do to memory *)
From Coq Require Import String ZArith List Arith Bool.
From Coq Require Import Init.Byte.
From Verif Require Import GoModel Fld Rist SliceModel VectorModel SpecHonest AliasModel.
Import ListNotations.
Local Open Scope nat_scope.

(** the slices that append to [s] leaves alone *)
Definition clear_of (s t : slice) : Prop := s_arr t = s_arr s -> s_off t + s_len t <= s_off s + s_len s \/ s_off s + s_cap s <= s_off t.

(** the same operations on lists *)
Definition vop_list (m : mem F) (a : list F) (o : vop) : res (list F) :=
  match o with
  | VAdd b => Add a (contents m b) | VSub b => Sub a (contents m b) | VHadamard b => Hadamard a (contents m b)
  | VAddScalar b => AddScalar a b | VMulScalar b => MulScalar a b | VSubScalar b => SubScalar a b | VNeg => Neg a
  end.
(** the cases in which the argument itself is returned *)
Definition returns_argument (a : slice) (o : vop) : Prop := (o = VSubScalar f0) \/ (o = VNeg /\ s_len a = 0).

(** the number of elements after the slice of values that Prove overwrites *)
Definition overwritten (v : slice) : nat :=
  if Nat.leb 1 (s_len v) && Nat.leb (s_len v) 16 then min (pad_size (s_len v) - s_len v) (s_cap v - s_len v) else 0.

(** an existing array after labels up to i - 1 were appended *)
Definition labelled (m m' : mem byte) (s : slice) (i : nat) : Prop :=
  length m <= length m' /\ forall a j, a < length m -> nth_error (array m' a) j =
    if Nat.eqb a (s_arr s) && Nat.eqb j (s_off s + s_len s) && Nat.ltb (s_len s) (s_cap s) && Nat.leb 2 i
    then Some (Z_byte (Z.of_nat (i - 1))) else nth_error (array m a) j.
