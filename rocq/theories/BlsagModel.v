(** Model of ringsig/blsag/blsag.go.

    Sign leaves zero values of ristretto.Point in the ring, which are not group elements.
    The record [raw] describes the Go values of type ristretto.Point up to representation:
    group elements [emb p], the zero value, and whatever else the operations of the library may
    make of it; [raw_ok] says that the operations are the group operations on group elements and
    that the zero value is none of these.  Nothing else is assumed about the zero value.

    Scalars compare by value (blsag.go:157 compares the structs with !=).
    Randomness: [rs] is the stream of scalars returned by successive Scalar.Rand calls and [j0]
    the number behind rand.Intn. *)
From Coq Require Import String ZArith List Arith.
From Verif Require Import GoModel Fld Rist.
Import ListNotations.

Record raw (R : rist) : Type := mkRaw {
  rp : Type;
  emb : pt R -> rp;
  rzero : rp;                       (** ristretto.Point{} *)
  radd : rp -> rp -> rp;
  rsmul : F -> rp -> rp;
  rbytes : rp -> bytes
}.
Record raw_ok (R : rist) (V : raw R) : Prop := mkRawOk {
  radd_emb : forall p q, radd R V (emb R V p) (emb R V q) = emb R V (padd R p q);
  rsmul_emb : forall s p, rsmul R V s (emb R V p) = emb R V (smul R s p);
  rbytes_emb : forall p, rbytes R V (emb R V p) = pbytes R p;
  emb_not_zero : forall p, emb R V p <> rzero R V
}.

Section Blsag.
Context (R : rist) (V : raw R).
Local Notation rp := (rp R V).
Local Notation emb := (emb R V).

(** blsag.go:12-17 *)
Record rsig := mkRS { rs_I : rp; rs_C : F; rs_S : list F; rs_pub : list rp }.

(** blsag.go:191-196 *)
Definition appendToBuf (buf : bytes) (data : list bytes) : bytes := fold_left (fun b d => b ++ d) data buf.

(** blsag.go:164-189; ScalarMultBase and Derive always give group elements *)
Definition computeCLR (message : bytes) (I pubKey : rp) (s c : F) : F * rp * rp :=
  let H := emb (pderive R (rbytes R V pubKey)) in
  let L := radd R V (emb (smul R s (pbase R))) (rsmul R V c pubKey) in
  let Rr := radd R V (rsmul R V s H) (rsmul R V c I) in
  (sderive R (appendToBuf [] [message; rbytes R V L; rbytes R V Rr]), L, Rr).

(** blsag.go:73-86: for i := i0; ; i++ { if i % n == j { break }; body(i) }.  [fuel] bounds the
    number of iterations; the loop is shown to leave through the break. *)
Fixpoint bl_loop {S} (fuel i j n : nat) (body : nat -> S -> res S) (st : S) : res S :=
  match fuel with
  | O => Panic
  | Datatypes.S f => if Nat.eqb (i mod n) j then Ok st else let! st := body i st in bl_loop f (i + 1) j n body st
  end.

(** blsag.go:21-100 *)
Definition Sign (m : bytes) (mixin : list rp) (sK : F) (j0 : nat) (rs : nat -> F) : res rsig :=
  let pK := smul R sK (pbase R) in
  let n := length mixin + 1 in
  let j := j0 mod n in
  let hPK := pderive R (pbytes R pK) in
  let I := emb (smul R sK hPK) in
  let alpha := rs 0 in
  let! sVals := for_loop 1 (n - 1) (fun i s => set_idx s i (rs i)) (repeat f0 n) in
  let Lj := smul R alpha (pbase R) in
  let Rj := smul R alpha hPK in
  let cPlus1 := sderive R (appendToBuf [] [m; pbytes R Lj; pbytes R Rj]) in
  let! cVals := set_idx (repeat f0 n) ((j + 1) mod n) cPlus1 in
  let! pubKeys := set_idx (repeat (rzero R V) n) j (emb pK) in
  let! (cVals, cPlus1) := bl_loop (n + 1) (j + 1) j n (fun i '(cVals, cPlus1) =>
    let l := i mod n in
    let k := (i + 1) mod n in
    let! P := idx pubKeys l in
    let! s := idx sVals l in
    let '(c, _, _) := computeCLR m I P s cPlus1 in
    let! cVals := set_idx cVals k c in
    Ok (cVals, c)) (cVals, cPlus1) in
  let! sVals := set_idx sVals j (fadd (fneg (fmul cPlus1 sK)) alpha) in
  let! C := idx cVals 0 in
  Ok (mkRS I C sVals pubKeys).

(** blsag.go:104-162 *)
Definition Verify (m : bytes) (sg : rsig) : res bool :=
  let n := length (rs_pub sg) in
  let! (Ls, Rs, Cs, _) := for_loop 0 n (fun i '(Ls, Rs, Cs, currC) =>
    let! P := idx (rs_pub sg) i in
    let! s := idx (rs_S sg) i in
    let '(cPlus1, L, Rr) := computeCLR m (rs_I sg) P s currC in
    let! Cs := set_idx Cs ((i + 1) mod n) cPlus1 in
    let! Ls := set_idx Ls i L in
    let! Rs := set_idx Rs i Rr in
    Ok (Ls, Rs, Cs, cPlus1)) (repeat (rzero R V) n, repeat (rzero R V) n, repeat f0 n, rs_C sg) in
  if andb (negb (Nat.eqb (length Ls) (length Rs))) (negb (Nat.eqb (length Rs) (length Cs))) then Ok false
  else
    let! ok := for_loop 0 (length Cs) (fun i ok =>
      if negb ok then Ok ok
      else
        let! L := idx Ls i in
        let! Rr := idx Rs i in
        let cPlus1 := sderive R (appendToBuf [] [m; rbytes R V L; rbytes R V Rr]) in
        let! c := idx Cs ((i + 1) mod length Cs) in
        Ok (feqb c cPlus1)) true in
    if negb ok then Ok false
    else
      let! c0 := idx Cs 0 in
      if negb (feqb c0 (rs_C sg)) then Ok false else Ok true.
End Blsag.
