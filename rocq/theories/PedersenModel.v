(** Model of rangeproof/generators/generator.go, rangeproof/pedersen/pedersen.go and
    rangeproof/fiatshamir/fiatshamir.go *)
From Coq Require Import String ZArith List.
From Coq Require Import Init.Byte Strings.Byte.
From Verif Require Import GoModel ReadModel Fld Rist.
Import ListNotations.
Local Open Scope string_scope.
Local Open Scope list_scope.

(** []byte("...") *)
Definition str_bytes (s : string) : bytes := list_byte_of_string s.

Section Pedersen.
Context (R : rist).

(** ** generator.go *)
(** generator.go:11-14 *)
Record generator := mkGen { g_data : bytes; g_bases : list (pt R) }.
(** generator.go:18-23 *)
Definition gen_New (data : bytes) : generator := mkGen data [].
(** generator.go:27-29 *)
Definition gen_Clear (g : generator) : generator := mkGen (g_data g) [].
(** generator.go:34-47 *)
Definition gen_Iterate (g : generator) : res (pt R) :=
  if Nat.eqb (length (g_bases g)) 0 then Ok (pderive R (g_data g))
  else
    let! prevPoint := idx (g_bases g) (length (g_bases g) - 1) in
    Ok (pderive R (pbytes R prevPoint)).
(** generator.go:51-57; num is a uint32 *)
Definition gen_Compute (num : nat) (g : generator) : res generator :=
  for_loop 0 num (fun _ g => let! p := gen_Iterate g in Ok (mkGen (g_data g) (g_bases g ++ [p]))) g.

(** ** pedersen.go *)
(** pedersen.go:14-19 *)
Record pedersen := mkPed { p_gens : generator; p_data : bytes; p_blind : pt R; p_base : pt R }.
(** pedersen.go:25-40 *)
Definition ped_New (genData : bytes) : pedersen :=
  mkPed (gen_New genData) genData (pbase R) (pderive R (str_bytes "blindPoint")).

(** pedersen.go:44-50 *)
Record commitment := mkCom { c_val : pt R; c_blind : F }.

(** pedersen.go:52-54: the chunk written *)
Definition com_chunks (c : commitment) : list bytes := [pbytes R (c_val c)].
(** pedersen.go:56-69: the chunks written one after the other *)
Definition coms_chunks (cs : list commitment) : list bytes :=
  put_u32 (u32 (Z.of_nat (length cs))) :: concat (map com_chunks cs).
Definition EncodeCommitments (cs : list commitment) : writer -> res unit * writer :=
  w_each w_write (coms_chunks cs).

(** pedersen.go:71-86 for a non-nil receiver: result is the new receiver *)
Definition com_Decode (c : commitment) : rprog (res commitment) :=
  let? cBytes := r_bytes 32 in
  match pset R cBytes with
  | Some p => rret (mkCom p (c_blind c))
  | None => rerr "could not set bytes for commitment, not an encodable point"
  end.
(** the zero value Commitment{}; its Value is not a valid point, but it is always
    overwritten before use *)
Definition com_zero : commitment := mkCom (pt0 R) f0.
(** pedersen.go:88-106 *)
Definition DecodeCommitments : rprog (res (list commitment)) :=
  let? lenV := r_u32 in
  RAlloc lenV (
    r_for 0 (Z.to_nat lenV) (fun i comms =>
      let? c := com_Decode com_zero in rret (comms ++ [c])) []).

(** pedersen.go:108-114 *)
Definition EqualValue (c other : commitment) : bool := peqb R (c_val c) (c_val other).
Definition com_Equals (c other : commitment) : bool :=
  EqualValue c other && feqb (c_blind c) (c_blind other).

(** pedersen.go:116-152; returns the updated receiver (more generators) *)
Definition commitToScalars (p : pedersen) (blind : option F) (scalars : list F) : res (pedersen * pt R) :=
  let n := length scalars in
  let sum := pt0 R in
  let sum := match blind with
             | Some b => padd R sum (smul R b (p_blind p))
             | None => sum
             end in
  let! gens := (if Nat.ltb (length (g_bases (p_gens p))) n
                then gen_Compute (Z.to_nat (u32 (Z.of_nat (n - length (g_bases (p_gens p)))))) (p_gens p)
                else Ok (p_gens p)) in
  let p := mkPed gens (p_data p) (p_blind p) (p_base p) in
  let! sum := for_loop 0 n (fun i sum =>
      let! bi := idx scalars i in
      let! Hi := idx (g_bases (p_gens p)) i in
      Ok (padd R sum (smul R bi Hi))) sum in
  Ok (p, sum).

(** pedersen.go:155-176; [blind] is the value drawn by Rand *)
Definition CommitToScalar (p : pedersen) (blind : F) (v : F) : commitment :=
  mkCom (padd R (smul R v (p_base p)) (smul R blind (p_blind p))) blind.

(** pedersen.go:181-212; [blind] is the value drawn by Rand.  The label is uint8(i).
    (append to GenData writes into spare capacity of the caller's slice, if any; this
    is not visible in the result: AliasModel.v and C84.) *)
Definition CommitToVectors (p : pedersen) (blind : F) (vectors : list (list F)) : res (pedersen * commitment) :=
  let! st := for_loop 0 (length vectors) (fun i '(p, sum) =>
      let! vector := idx vectors i in
      if Nat.eqb i 0 then
        let! (p, commit) := commitToScalars p (Some blind) vector in
        Ok (p, padd R sum commit)
      else
        let ped2 := ped_New (p_data p ++ [Z_byte (Z.of_nat i)]) in
        let! (_, commit) := commitToScalars ped2 None vector in
        Ok (p, padd R sum commit)) (p, pt0 R) in
  let (p, sum) := st in
  Ok (p, mkCom sum blind).
End Pedersen.

(** ** fiatshamir.go: the HashCacher is its Cache *)
Definition cacher := bytes.
(** fiatshamir.go:12-17 *)
Definition hc_Append (h : cacher) (vals : list bytes) : cacher := fold_left (fun c x => c ++ x) vals h.
(** fiatshamir.go:21-23 *)
Definition hc_Result (h : cacher) : bytes := h.
(** fiatshamir.go:26-28 *)
Definition hc_Clear (_ : cacher) : cacher := [].
(** fiatshamir.go:32-36 *)
Definition hc_Derive (R : rist) (h : cacher) : F := sderive R h.
