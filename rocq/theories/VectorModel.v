(** Model of rangeproof/vector/vector.go *)
From Coq Require Import String ZArith List.
From Verif Require Import GoModel Fld Rist.
Import ListNotations.
Local Open Scope string_scope.

(** make([]ristretto.Scalar, n): zero scalars *)
Definition make_scalars (n : nat) : list F := repeat f0 n.

(** the loop "for i := 0; i < len(a); i++ { res[i].Op(&a[i], &b[i]) }" *)
Definition loop2 (op : F -> F -> F) (a b : list F) : res (list F) :=
  for_loop 0 (length a) (fun i r => let! x := idx a i in let! y := idx b i in set_idx r i (op x y))
    (make_scalars (length a)).
(** the loop "for i := 0; i < len(a); i++ { res[i].Op(&a[i], &b) }" *)
Definition loop1 (op : F -> F) (a : list F) : res (list F) :=
  for_loop 0 (length a) (fun i r => let! x := idx a i in set_idx r i (op x)) (make_scalars (length a)).

(** vector.go:12-24 *)
Definition Add (a b : list F) : res (list F) :=
  if negb (Nat.eqb (length a) (length b)) then Err "Length of a does not equal b" else loop2 fadd a b.

(** vector.go:28-37 *)
Definition AddScalar (a : list F) (b : F) : res (list F) := loop1 (fun x => fadd x b) a.

(** vector.go:40-52 *)
Definition Sub (a b : list F) : res (list F) :=
  if negb (Nat.eqb (length a) (length b)) then Err "Length of a does not equal b" else loop2 fsub a b.

(** vector.go:55-67 (for the empty slice the argument itself is returned) *)
Definition Neg (a : list F) : res (list F) :=
  if Nat.eqb (length a) 0 then Ok a else loop1 fneg a.

(** vector.go:70-83 (for b = 0 the argument itself is returned) *)
Definition SubScalar (a : list F) (b : F) : res (list F) :=
  if feqb b f0 then Ok a else loop1 (fun x => fsub x b) a.

(** vector.go:87-96 *)
Definition MulScalar (a : list F) (b : F) : res (list F) := loop1 (fun x => fmul x b) a.

(** vector.go:99-113; on error the zero scalar is returned beside the error *)
Definition InnerProduct (a b : list F) : res F :=
  if negb (Nat.eqb (length a) (length b)) then Err "[Inner Product]:Length of a does not equal length of b"
  else for_loop 0 (length a) (fun i r => let! x := idx a i in let! y := idx b i in
         Ok (fadd (fmul x y) r)) f0.

(** vector.go:116-141; N*M is int multiplication (64 bits) *)
Definition Exp (R : rist) (a : list F) (b : list (pt R)) (N M : Z) : res (pt R) :=
  if negb (Nat.eqb (length a) (length b)) then
    Err "length of slice of scalars a does not equal length of slices of points b"
  else if Z.ltb (Z.of_nat (length a)) (i64 (N * M)) then Err "length of scalar a is not less than N*M"
  else for_loop 0 (length b) (fun i result =>
         let! scalar := idx a i in let! point := idx b i in
         Ok (padd R result (smul R scalar point))) (pt0 R).

(** vector.go:145-171; n is the uint32 as a natural number *)
Definition ScalarPowers (a : F) (n : nat) : res (list F) :=
  let r := make_scalars n in
  if Nat.eqb n 0 then Ok r
  else if feqb a f0 then Ok r
  else
    let! r := set_idx r 0 f1 in
    if Nat.eqb n 1 then Ok r
    else
      let! r := set_idx r 1 a in
      for_loop 2 (n - 2) (fun i r => let! p := idx r (i - 1) in set_idx r i (fmul p a)) r.

(** vector.go:174-199; the state is (res, prev); n is the uint64 as a natural number *)
Definition ScalarPowersSum (a : F) (n : nat) : res F :=
  if Nat.eqb n 0 then Ok f0
  else if Nat.eqb n 1 then Ok f1
  else
    let! st := for_loop 1 (n - 1) (fun i '(r, prev) =>
      let prev := if Nat.ltb 1 i then fmul prev a else prev in
      Ok (fadd r prev, prev)) (f1, a) in
    Ok (fst st).

(** vector.go:202-214 *)
Definition Hadamard (a b : list F) : res (list F) :=
  if negb (Nat.eqb (length a) (length b)) then Err "Length of a does not equal length of b" else loop2 fmul a b.

(** vector.go:217-225 *)
Definition FromScalar (a : F) (n : nat) : res (list F) :=
  for_loop 0 n (fun i r => set_idx r i a) (make_scalars n).

(** vector.go:229-237 and 243-251 (the same code for points and scalars); the length is
    converted to uint32 *)
Definition Split {A} (x : list A) (n : Z) : res (list A * list A) :=
  if Nat.leb (length x) 0 then Err "Original vector has length of zero"
  else if Z.leb (u32 (Z.of_nat (length x))) n then Err "n is larger than the size of the slice x"
  else Ok (firstn (Z.to_nat n) x, skipn (Z.to_nat n) x).
Definition SplitPoints (R : rist) (x : list (pt R)) (n : Z) := Split x n.
Definition SplitScalars (x : list F) (n : Z) := Split x n.
