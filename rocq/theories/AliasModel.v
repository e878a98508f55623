(** Functions of the packages vector, fiatshamir, pedersen, mlsag and rangeproof on slices
    that may share memory (SliceModel.v).  The other models treat slices as lists; here
    the same functions work on windows of arrays.  [slack] arguments are the spare elements
    added by the allocator when append has to grow a slice (any values). *)
From Coq Require Import String ZArith List.
From Coq Require Import Init.Byte.
From Verif Require Import GoModel Fld Rist SliceModel VectorModel PedersenModel GlobModel InnerProductModel RangeProofModel.
Import ListNotations.
Local Open Scope string_scope.
Local Open Scope list_scope.

(** ** vector.go *)
(** a result computed into memory from make() *)
Definition alloc (m : mem F) (r : res (list F)) : mem F * res slice :=
  match r with
  | Ok l => let (m, s) := fresh m l in (m, Ok s)
  | Err e => (m, Err e)
  | Panic => (m, Panic)
  end.
(** the element-wise operations, with their second argument *)
Inductive vop := VAdd (b : slice) | VSub (b : slice) | VHadamard (b : slice) | VAddScalar (b : F) | VMulScalar (b : F)
  | VSubScalar (b : F) | VNeg.
(** vector.go:12-24, 28-37, 40-52, 55-67, 70-83, 87-96, 202-214 *)
Definition vec_mem (m : mem F) (a : slice) (o : vop) : mem F * res slice :=
  match o with
  | VAdd b => alloc m (Add (contents m a) (contents m b))
  | VSub b => alloc m (Sub (contents m a) (contents m b))
  | VHadamard b => alloc m (Hadamard (contents m a) (contents m b))
  | VAddScalar b => alloc m (AddScalar (contents m a) b)
  | VMulScalar b => alloc m (MulScalar (contents m a) b)
  | VSubScalar b => if feqb b f0 then (m, Ok a) else alloc m (SubScalar (contents m a) b)
  | VNeg => if Nat.eqb (s_len a) 0 then (m, Ok a) else alloc m (Neg (contents m a))
  end.
(** vector.go:229-237 and 243-251 *)
Definition split_mem (x : slice) (n : Z) : res (slice * slice) :=
  if Nat.leb (s_len x) 0 then Err "Original vector has length of zero"
  else if Z.leb (u32 (Z.of_nat (s_len x))) n then Err "n is larger than the size of the slice x"
  else Ok (upto x (Z.to_nat n), from x (Z.to_nat n)).

(** ** fiatshamir.go: the HashCacher is the slice Cache *)
(** fiatshamir.go:12-17 *)
Fixpoint hc_append_mem (slack : nat -> nat) (m : mem byte) (h : slice) (vals : list bytes) : mem byte * slice :=
  match vals with
  | [] => (m, h)
  | x :: vals => let (m, h) := append x00 (slack (length vals)) m h x in hc_append_mem slack m h vals
  end.
(** fiatshamir.go:26-28: []byte{} *)
Definition hc_clear_mem (m : mem byte) : mem byte * slice := fresh m [].

(** ** generator.go and pedersen.go *)
Section Pedersen.
Context (R : rist).
(** generator.go:11-14 and pedersen.go:14-19; the generator keeps the slice, not the bytes *)
Record pedmem := mkPM { pm_data : slice; pm_gdata : slice; pm_bases : list (pt R) }.
(** pedersen.go:25-40: BaseVector and GenData share the slice *)
Definition pm_New (genData : slice) : pedmem := mkPM genData genData [].
(** the object as the list model sees it while the memory is [m] *)
Definition pm_at (m : mem byte) (p : pedmem) : pedersen R :=
  mkPed R (mkGen R (contents m (pm_gdata p)) (pm_bases p)) (contents m (pm_data p)) (pbase R) (pderive R (str_bytes "blindPoint")).
(** generator.go:51-57: the data is read when it is needed *)
Definition pm_Compute (m : mem byte) (p : pedmem) (num : nat) : res pedmem :=
  let! g := gen_Compute R num (p_gens R (pm_at m p)) in Ok (mkPM (pm_data p) (pm_gdata p) (g_bases R g)).
(** pedersen.go:116-152 *)
Definition pm_commit (m : mem byte) (p : pedmem) (blind : option F) (scalars : list F) : res (pedmem * pt R) :=
  let! (p', sum) := commitToScalars R (pm_at m p) blind scalars in
  Ok (mkPM (pm_data p) (pm_gdata p) (g_bases R (p_gens R p')), sum).
(** pedersen.go:181-212 *)
Definition pm_CommitToVectors (slack : nat -> nat) (m : mem byte) (p : pedmem) (blind : F) (vectors : list (list F)) :
    res (mem byte * pedmem * commitment R) :=
  let! st := for_loop 0 (length vectors) (fun i '(m, p, sum) =>
      let! vector := idx vectors i in
      if Nat.eqb i 0 then
        let! (p, commit) := pm_commit m p (Some blind) vector in
        Ok (m, p, padd R sum commit)
      else
        let (m, genData) := append x00 (slack i) m (pm_data p) [Z_byte (Z.of_nat i)] in
        let! (_, commit) := pm_commit m (pm_New genData) None vector in
        Ok (m, p, padd R sum commit)) (m, p, pt0 R) in
  let '(m, p, sum) := st in
  Ok (m, p, mkCom R sum blind).
End Pedersen.

(** ** rangeproof.go *)
Section Range.
Context (R : rist) (slack : nat -> nat).
(** rangeproof.go:59-63 *)
Fixpoint pad_mem (k : nat) (mm : mem F) (v : slice) : mem F * slice :=
  match k with
  | O => (mm, v)
  | S k => let (mm, v) := append f0 (slack k) mm v [f0] in pad_mem k mm v
  end.
(** rangeproof.go:45-208: as [Prove], with the values in memory; after the padding v is only
    read (rangeproof.go:74, 88, 143, 155, debug.go:27-33, poly.go:143) *)
Definition ProveMem (mm : mem F) (v : slice) (debug : bool) (rs : nat -> F) : gprog (mem F * res (proof R)) :=
  if Nat.ltb (s_len v) 1 then GRet (mm, Err "length of slice v is zero")
  else
    GSet (Z.of_nat (s_len v)) (
    GGet (fun m =>
      if Z.ltb maxM m then GRet (mm, Err "maximum amount of values must be less than 16")
      else
        GGet (fun m =>
        let padAmount := DiffNextPow2 (u32 m) in
        GGet (fun m => GSet (m + padAmount)%Z (
        let (mm, v) := pad_mem (Z.to_nat padAmount) mm v in
        gbind (prove_padded R (contents mm v) debug rs) (fun r => GRet (mm, r))))))).
End Range.
