(** Sharing of memory in the mlsag package: key vectors (pubkeys.go:11-16) and rings (proof.go:26, mlsag.go:16-21, 252-257) *)
From Coq Require Import String ZArith List Arith Bool.
From Verif Require Import GoModel Fld Rist MlsagModel.
Import ListNotations.
Local Open Scope nat_scope.

Section Keys.
Context (R : rist).
(** The arrays behind the key vectors; a PubKeys value is its decoy flag and the slice of its
    first [w_len] keys in one array (the field is not exported and only ever grown by append,
    so slices start at offset 0).  Copying a PubKeys value copies the slice, not the array. *)
Definition kmem := list (list (pt R)).
Record hrow := mkRow { w_decoy : bool; w_arr : nat; w_len : nat }.
Definition karray (m : kmem) (a : nat) : list (pt R) := nth a m [].
Definition view (m : kmem) (w : hrow) : pubkeys R := mkPK R (w_decoy w) (firstn (w_len w) (karray m (w_arr w))).

(** proof.go:31-39 *)
Definition hAddDecoy (rows : list hrow) (w : hrow) : list hrow := rows ++ [mkRow true (w_arr w) (w_len w)].
(** dualkey.go:39-44: the address of keys[1] is taken and written to *)
Definition hSubCommToZero (m : kmem) (rows : list hrow) (q : pt R) : res kmem :=
  for_loop 0 (length rows) (fun i m =>
    let! w := idx rows i in
    let! k := idx (firstn (w_len w) (karray m (w_arr w))) 1 in
    let! a := set_idx (karray m (w_arr w)) 1 (psub R k q) in
    set_idx m (w_arr w) a) m.
End Keys.

Section Rings.
Context {A : Type} (zero : A).
(** The arrays behind the slices of type []PubKeys *)
Definition rmem := list (list A).
Record rslice := mkRS { r_arr : nat; r_len : nat; r_cap : nat }.
Definition rarray (m : rmem) (a : nat) : list A := nth a m [].
Definition ring (m : rmem) (s : rslice) : list A := firstn (r_len s) (rarray m (r_arr s)).
(** append of one element (proof.go:33): in place if there is spare capacity, otherwise into
    a new array with some amount of spare room *)
Definition rappend (slack : nat) (m : rmem) (s : rslice) (x : A) : rmem * rslice :=
  if Nat.ltb (r_len s) (r_cap s)
  then (upd m (r_arr s) (upd (rarray m (r_arr s)) (r_len s) x), mkRS (r_arr s) (r_len s + 1) (r_cap s))
  else (m ++ [ring m s ++ x :: repeat zero slack], mkRS (length m) (r_len s + 1) (r_len s + 1 + slack)).
(** a loop that swaps elements of the slice, such as proof.go:73-76: only the window is touched *)
Definition in_place (f : list A -> res (list A)) (m : rmem) (s : rslice) : res rmem :=
  let! l := f (ring m s) in
  set_idx m (r_arr s) (l ++ skipn (r_len s) (rarray m (r_arr s))).
(** proof.go:46-51 and 71-76: the row of the signer is appended and the ring shuffled *)
Definition hShuffle (f : list A -> res (list A)) (slack : nat) (m : rmem) (s : rslice) (row : A) : res (rmem * rslice) :=
  let (m, s) := rappend slack m s row in
  let! m := in_place f m s in
  Ok (m, s).
End Rings.
