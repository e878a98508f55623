(** Model of /repo/hash/hash.go. *)
From Coq Require Import String ZArith List DecimalString.
From Verif Require Import GoModel.
Import ListNotations.
Local Open Scope Z_scope.

(** A freshly created hash.Hash (hash.go:16): the outcome of Write on it and the
    digest returned by Sum(nil) after a successful Write.  A digest depends only on
    the bytes written. *)
Record hasher := mkHasher {
  h_write : bytes -> option string;     (** None: success; Some e: error *)
  h_sum : bytes -> bytes
}.

(** hash.go:43-49 PerformHash.  On a Write error the digest is discarded. *)
Definition PerformHash (H : hasher) (bs : bytes) : res bytes :=
  match h_write H bs with
  | Some e => Err e
  | None => Ok (h_sum H bs)
  end.

(** hash.go:19-34, 38-40, 53-60: Blake2b256, Blake2b512, Sha3256, Sha3512, Xxhash
    all create a hasher and call PerformHash.  For Blake2b the constructor can
    fail ([mk] is an error); for the others it cannot. *)
Definition Digest (mk : res hasher) (bs : bytes) : res bytes :=
  let! H := mk in PerformHash H bs.
Definition Blake2b256 (mk : res hasher) := Digest mk.
Definition Blake2b512 (mk : res hasher) := Digest mk.
Definition Sha3256 (H : hasher) := Digest (Ok H).
Definition Sha3512 (H : hasher) := Digest (Ok H).
Definition Xxhash (H : hasher) := Digest (Ok H).

(** hash.go:94-101 Checksum; hash[:4] panics on a digest shorter than 4 bytes
    (the capacity of the digest slice is taken to be its length). *)
Definition Checksum (H : hasher) (data : bytes) : res Z :=
  let! h := Xxhash H data in
  if Nat.ltb (length h) 4 then Panic else Ok (get_u32 (firstn 4 h)).

(** hash.go:81-90 CompareChecksum *)
Definition CompareChecksum (H : hasher) (data : bytes) (want : Z) : res bool :=
  match Checksum H data with
  | Err _ => Ok false
  | Panic => Panic
  | Ok got => if got =? want then Ok true else Ok false
  end.

(** Outcome of crypto/rand.Read on a buffer: the bytes delivered (at most the
    length of the buffer, stored at its start) and an error. *)
Record entropy := mkEntropy { e_bytes : bytes; e_err : option string }.

(** strconv.Itoa, and %d of fmt: decimal digits *)
Definition itoa (z : Z) : string := NilZero.string_of_int (Z.to_int z).

(** hash.go:64-76 RandEntropy: the buffer of n zero bytes is filled from its start. *)
Definition RandEntropy (src : entropy) (n : Z) : res bytes :=
  let b := e_bytes src ++ repeat Byte.x00 (Z.to_nat n - length (e_bytes src)) in
  let a := Z.of_nat (length (e_bytes src)) in
  match e_err src with
  | Some e => Err ("Error generating entropy " ++ e)
  | None => if u32 a =? n then Ok b else Err ("Error expected to read" ++ itoa n ++ " bytes instead read " ++ itoa a ++ " bytes")
  end.

(** hash.Hash as an object with state.  [al_write prior new] is the outcome of Write:
    the number of bytes absorbed and an error; [al_sum] is Sum(nil), which leaves the
    state alone.  The state is the string absorbed so far. *)
Record algo := mkAlgo { al_write : bytes -> bytes -> nat * option string; al_sum : bytes -> bytes }.

(** hash.go:43-49 PerformHash on an object in state [st]; the object is neither reset
    before nor after. *)
Definition PerformHashOn (A : algo) (st bs : bytes) : bytes * res bytes :=
  let (n, err) := al_write A st bs in
  let st' := st ++ firstn n bs in
  match err with
  | Some e => (st', Err e)
  | None => (st', Ok (al_sum A st'))
  end.

(** A sequence of PerformHash calls on one object: the results. *)
Fixpoint PerformAll (A : algo) (st : bytes) (l : list bytes) : list (res bytes) :=
  match l with
  | [] => []
  | bs :: l' => let (st', r) := PerformHashOn A st bs in r :: PerformAll A st' l'
  end.

(** A freshly created object, as above. *)
Definition fresh_hasher (A : algo) : hasher := mkHasher (fun bs => snd (al_write A [] bs)) (al_sum A).
