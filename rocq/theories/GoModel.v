(** Go run-time conventions used by all models: results, bytes, fixed-width
    big-endian integers, io.Reader and io.Writer. *)
From Coq Require Import String ZArith NArith List Lia.
From Coq Require Import Init.Byte Strings.Byte.
Import ListNotations.
Local Open Scope Z_scope.

(** Outcome of a Go call returning (T, error): a value, an error, or a
    run-time panic (index out of range, nil dereference). *)
Inductive res (A : Type) : Type :=
| Ok (a : A)
| Err (e : string)
| Panic.
Arguments Ok {A} a.
Arguments Err {A} e.
Arguments Panic {A}.

Definition bind {A B} (r : res A) (f : A -> res B) : res B :=
  match r with Ok a => f a | Err e => Err e | Panic => Panic end.
Notation "'let!' x ':=' r 'in' k" := (bind r (fun x => k))
  (at level 200, x pattern, r at level 100, k at level 200, right associativity).

(** errors.Wrap(err, msg) of github.com/pkg/errors on the error of a result: the text is put in front; nil stays nil *)
Notation wrap msg r := (match r with Ok x => Ok x | Err e => Err (append msg (append ": " e)) | Panic => Panic end) (only parsing).

(** Slice indexing [s[i]]: panics when out of range. *)
Definition idx {A} (l : list A) (i : nat) : res A :=
  match nth_error l i with Some a => Ok a | None => Panic end.

(** Assignment [s[i] = a] on an existing slice: panics when out of range. *)
Fixpoint upd {A} (l : list A) (i : nat) (a : A) : list A :=
  match l, i with
  | [], _ => []
  | _ :: l', O => a :: l'
  | x :: l', S j => x :: upd l' j a
  end.
Definition set_idx {A} (l : list A) (i : nat) (a : A) : res (list A) :=
  if Nat.ltb i (List.length l) then Ok (upd l i a) else Panic.

(** Bytes. *)
Definition bytes := list byte.
Definition byte_Z (b : byte) : Z := Z.of_N (Byte.to_N b).
Definition Z_byte (z : Z) : byte :=
  match Byte.of_N (Z.to_N (z mod 256)) with Some b => b | None => x00 end.

Definition byte_eqb (a b : byte) : bool := Byte.eqb a b.
Fixpoint bytes_eqb (a b : bytes) : bool :=
  match a, b with
  | [], [] => true
  | x :: a', y :: b' => byte_eqb x y && bytes_eqb a' b'
  | _, _ => false
  end.

(** uint32 conversion wraps modulo 2^32. *)
Definition u32 (z : Z) : Z := z mod 2 ^ 32.
Definition u64 (z : Z) : Z := z mod 2 ^ 64.

(** encoding/binary.BigEndian.PutUint32 / Uint32. *)
Definition put_u32 (z : Z) : bytes :=
  [Z_byte (z / 2 ^ 24); Z_byte (z / 2 ^ 16); Z_byte (z / 2 ^ 8); Z_byte z].
Definition get_u32 (b : bytes) : Z :=
  match b with
  | a :: b :: c :: d :: _ =>
      byte_Z a * 2 ^ 24 + byte_Z b * 2 ^ 16 + byte_Z c * 2 ^ 8 + byte_Z d
  | _ => 0
  end.

(** big.Int.SetBytes: unsigned big-endian. *)
Definition be_Z (b : bytes) : Z := fold_left (fun acc x => acc * 256 + byte_Z x) b 0.

(** An io.Reader: the sequence of results of its future Read calls; a chunk may
    be consumed by several calls, an empty chunk is a (0, nil) result; after the
    last event every call returns io.EOF. *)
Inductive revent : Type :=
| RChunk (bs : bytes)
| RFault (e : string).
Definition reader := list revent.

(** io.ReadFull(r, buf) with len(buf) = need, as used by encoding/binary.Read
    for fixed-size values: loops over Read until the buffer is full; EOF after a
    partial read is "unexpected EOF". [acc] is what has been read so far. *)
Fixpoint read_full_acc (need : nat) (acc : bytes) (r : reader) : res bytes * reader :=
  match need with
  | O => (Ok acc, r)
  | _ =>
    match r with
    | [] => (match acc with [] => Err "EOF" | _ => Err "unexpected EOF" end, [])
    | RFault e :: r' => (Err e, r')
    | RChunk bs :: r' =>
        if Nat.leb (List.length bs) need
        then read_full_acc (need - List.length bs) (acc ++ bs) r'
        else (Ok (acc ++ firstn need bs), RChunk (skipn need bs) :: r')
    end
  end.
Definition read_full (need : nat) (r : reader) : res bytes * reader := read_full_acc need [] r.

(** bytes.Buffer.ReadFrom(r): reads until EOF; a fault is returned as error. *)
Fixpoint read_all_acc (acc : bytes) (r : reader) : res bytes * reader :=
  match r with
  | [] => (Ok acc, [])
  | RFault e :: r' => (Err e, r')
  | RChunk bs :: r' => read_all_acc (acc ++ bs) r'
  end.
Definition read_all (r : reader) : res bytes * reader := read_all_acc [] r.

(** binary.Read(r, binary.BigEndian, &x) for x uint32. *)
Definition read_u32 (r : reader) : res Z * reader :=
  match read_full 4 r with
  | (Ok b, r') => (Ok (get_u32 b), r')
  | (Err e, r') => (Err e, r')
  | (Panic, r') => (Panic, r')
  end.

(** An io.Writer: bytes accepted so far, and the outcome of the next Write calls:
    [None] accepts everything, [Some k] accepts the first k bytes and returns an
    error.  When the plan is exhausted every call succeeds. *)
Record writer := mkW { w_out : bytes; w_plan : list (option nat) }.

(** w.Write(bs), as called once by binary.Write(w, binary.BigEndian, bs). *)
Definition w_write (bs : bytes) (w : writer) : res unit * writer :=
  match w_plan w with
  | [] => (Ok tt, mkW (w_out w ++ bs) [])
  | None :: pl => (Ok tt, mkW (w_out w ++ bs) pl)
  | Some k :: pl => (Err "write error", mkW (w_out w ++ firstn k bs) pl)
  end.

(** Sequencing of writes with early return on error. *)
Definition w_seq (a b : writer -> res unit * writer) (w : writer) : res unit * writer :=
  match a w with
  | (Ok _, w') => b w'
  | (Err e, w') => (Err e, w')
  | (Panic, w') => (Panic, w')
  end.
Definition w_ret (w : writer) : res unit * writer := (Ok tt, w).
Definition w_fresh : writer := mkW [] [].

(** for _, x := range l { err = f(x); if err != nil { return err } } *)
Fixpoint w_each {A} (f : A -> writer -> res unit * writer) (l : list A) : writer -> res unit * writer :=
  match l with
  | [] => w_ret
  | x :: l' => w_seq (f x) (w_each f l')
  end.

(** for i := lo; i < lo+cnt; i++ { body }: a loop whose body may fail or panic. *)
Fixpoint for_loop {S} (lo cnt : nat) (body : nat -> S -> res S) (st : S) : res S :=
  match cnt with
  | O => Ok st
  | Datatypes.S k => let! st' := body lo st in for_loop (Datatypes.S lo) k body st'
  end.

(** int arithmetic wraps to 64 bits (two's complement). *)
Definition i64 (z : Z) : Z := (z + 2 ^ 63) mod 2 ^ 64 - 2 ^ 63.
