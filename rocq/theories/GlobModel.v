(** Programs that read and write a package-level variable of type int, and their
    sequential and concurrent execution. *)
From Coq Require Import String ZArith List.
From Verif Require Import GoModel.
Import ListNotations.

(** A program is the tree of its accesses to the variable; computation between two
    accesses is local to the goroutine. *)
Inductive gprog (X : Type) : Type :=
| GRet (x : X)
| GGet (k : Z -> gprog X)
| GSet (m : Z) (k : gprog X).
Arguments GRet {X} x.
Arguments GGet {X} k.
Arguments GSet {X} m k.

Fixpoint gbind {X Y} (p : gprog X) (f : X -> gprog Y) : gprog Y :=
  match p with
  | GRet x => f x
  | GGet k => GGet (fun m => gbind (k m) f)
  | GSet m k => GSet m (gbind k f)
  end.

Notation gres A := (gprog (res A)).
(** errors.Wrap on the error of a program *)
Definition gwrap {A} (msg : string) (p : gres A) : gres A := gbind p (fun r => GRet (wrap msg r)).
Notation "'let*' x ':=' p 'in' k" :=
  (gbind p (fun r => match r with Ok x => k | Err e => GRet (Err e) | Panic => GRet Panic end))
  (at level 200, x pattern, p at level 100, k at level 200, right associativity).

Definition getM : gres Z := GGet (fun m => GRet (Ok m)).
Definition setM (m : Z) : gres unit := GSet m (GRet (Ok tt)).
Definition glift {A} (r : res A) : gres A := GRet r.

(** sequential execution from value [m]: result and final value *)
Fixpoint grun {X} (p : gprog X) (m : Z) : X * Z :=
  match p with
  | GRet x => (x, m)
  | GGet k => grun (k m) m
  | GSet m' k => grun k m'
  end.

(** "for i := lo; cond; i++ { body }" where the condition reads the variable before each iteration:
    one test of the condition and, if it holds, one iteration; the flag says whether to go on *)
Definition gonce {S} (cond : nat -> Z -> bool) (body : nat -> S -> gres S) (i : nat) (st : S) : gres (bool * (nat * S)) :=
  let* m := getM in
  if cond i m then
    let* st' := body i st in
    GRet (Ok (true, (i + 1, st')))
  else GRet (Ok (false, (i, st))).
(** at most [p] of them *)
Fixpoint gwhile {S} (p : positive) (cond : nat -> Z -> bool) (body : nat -> S -> gres S) (i : nat) (st : S) : gres (bool * (nat * S)) :=
  match p with
  | xH => gonce cond body i st
  | xO q =>
    let* (go, (i, st)) := gwhile q cond body i st in
    if go then gwhile q cond body i st else GRet (Ok (false, (i, st)))
  | xI q =>
    let* (go, (i, st)) := gonce cond body i st in
    if go then
      let* (go, (i, st)) := gwhile q cond body i st in
      if go then gwhile q cond body i st else GRet (Ok (false, (i, st)))
    else GRet (Ok (false, (i, st)))
  end.
(** The number of iterations is below 2^63, the number of values of the counter (an int): a loop that
    would exceed this, which takes another goroutine that changes the variable all the time, is
    counted as a panic. *)
Definition gfor {S} (lo : nat) (cond : nat -> Z -> bool) (body : nat -> S -> gres S) (st : S) : gres S :=
  let* (go, (_, st)) := gwhile (2 ^ 63) cond body lo st in
  if go then GRet Panic else GRet (Ok st).

(** One step of a goroutine, atomic access to the variable. *)
Definition gstep {X} (p : gprog X) (m : Z) : gprog X * Z :=
  match p with
  | GRet x => (GRet x, m)
  | GGet k => (k m, m)
  | GSet m' k => (k, m')
  end.

(** Goroutines and their scheduling: the schedule says which goroutine makes the next step. *)
Fixpoint sched_run {X} (pool : list (gprog X)) (m : Z) (schedule : list nat) : list (gprog X) * Z :=
  match schedule with
  | [] => (pool, m)
  | i :: rest =>
    match nth_error pool i with
    | Some p => let (p', m') := gstep p m in sched_run (upd pool i p') m' rest
    | None => sched_run pool m rest
    end
  end.
