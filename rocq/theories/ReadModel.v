(** Programs reading from an io.Reader, as used by all decoders of /repo.

    A program is a tree of the read calls it makes; [run] executes it on a reader
    and also returns the sizes of the slices allocated with make([]T, n). *)
From Coq Require Import String ZArith List.
From Verif Require Import GoModel.
Import ListNotations.

Inductive rprog (X : Type) : Type :=
| RRet (x : X)
| RRead (n : nat) (k : res bytes -> rprog X)   (** binary.Read of n bytes / io.ReadFull *)
| RAll (k : res bytes -> rprog X)              (** bytes.Buffer.ReadFrom *)
| RAlloc (n : Z) (k : rprog X).                (** make([]T, n) *)
Arguments RRet {X} x.
Arguments RRead {X} n k.
Arguments RAll {X} k.
Arguments RAlloc {X} n k.

Fixpoint run {X} (p : rprog X) (r : reader) : X * reader * list Z :=
  match p with
  | RRet x => (x, r, [])
  | RRead n k => let (b, r') := read_full n r in run (k b) r'
  | RAll k => let (b, r') := read_all r in run (k b) r'
  | RAlloc n k => let '(x, r', al) := run k r in (x, r', n :: al)
  end.

Fixpoint rbind {X Y} (p : rprog X) (f : X -> rprog Y) : rprog Y :=
  match p with
  | RRet x => f x
  | RRead n k => RRead n (fun b => rbind (k b) f)
  | RAll k => RAll (fun b => rbind (k b) f)
  | RAlloc n k => RAlloc n (rbind k f)
  end.

(** "x, err := p; if err != nil { return err }; k" *)
Notation "'let?' x ':=' p 'in' k" :=
  (rbind p (fun r => match r with Ok x => k | Err e => RRet (Err e) | Panic => RRet Panic end))
  (at level 200, x pattern, p at level 100, k at level 200, right associativity).

Definition rret {A} (a : A) : rprog (res A) := RRet (Ok a).
Definition rerr {A} (e : string) : rprog (res A) := RRet (Err e).

(** binary.Read(r, BigEndian, &buf) for buf [n]byte *)
Definition r_bytes (n : nat) : rprog (res bytes) := RRead n (fun b => RRet b).
(** binary.Read(r, BigEndian, &x) for x uint32 *)
Definition r_u32 : rprog (res Z) := let? b := r_bytes 4 in rret (get_u32 b).

(** for i := lo; i < lo+cnt; i++ { if err := body(i); err != nil { return err } } *)
Fixpoint r_for {S} (lo cnt : nat) (body : nat -> S -> rprog (res S)) (st : S) : rprog (res S) :=
  match cnt with
  | O => rret st
  | Datatypes.S k => let? st' := body lo st in r_for (Datatypes.S lo) k body st'
  end.

(** executing a reader program and dropping the allocation trace *)
Definition exec {X} (p : rprog X) (r : reader) : X * reader := fst (run p r).
Definition allocs {X} (p : rprog X) (r : reader) : list Z := snd (run p r).
