(** Specification of the receiver left behind by Decode *)
From Coq Require Import String ZArith List Arith.
From Verif Require Import GoModel ReadModel Fld Rist PedersenModel InnerProductModel RangeProofModel MlsagModel.
Import ListNotations.
Local Open Scope list_scope.

(** the bytes a reader delivers *)
Definition bytes_of (r : reader) : bytes := concat (map (fun x => match x with RChunk b => b | RFault _ => [] end) r).

(** [p] returns the receiver and an error, [q] the new value on success only: on every reader, failing
    or not, they have the same outcome, make the same allocations and leave the same reader *)
Definition same_outcome {A} (p : rprog (A * res unit)) (q : rprog (res A)) : Prop :=
  forall r, allocs p r = allocs q r /\ snd (exec p r) = snd (exec q r) /\
    fst (exec q r) = match fst (exec p r) with (s, Ok _) => Ok s | (_, Err e) => Err e | (_, Panic) => Panic end.

(** the complete 32-byte blocks at the beginning of b, at most n of them *)
Fixpoint blocks (n : nat) (b : bytes) : list bytes :=
  match n with
  | O => []
  | S k => if length b <? 32 then [] else firstn 32 b :: blocks k (skipn 32 b)
  end.

Section Spec.
Context (R : rist).

(** ** mlsag *)
(** the points encoded by the blocks before the first block that encodes none *)
Fixpoint points (bs : list bytes) : list (pt R) :=
  match bs with
  | [] => []
  | x :: bs => match pset R x with Some p => p :: points bs | None => [] end
  end.
Definition left_keys (p : pubkeys R) (n : nat) (b : bytes) : pubkeys R := mkPK R (pk_decoy R p) (pk_keys R p ++ points (blocks n b)).
Definition left_responses (a : list F) (n : nat) (b : bytes) : list F := a ++ map (sset R) (blocks n b).

(** m rows of n responses; rows that the input does not reach are empty *)
Fixpoint left_rows (m n : nat) (b : bytes) : list (list F) :=
  match m with
  | O => []
  | S k => map (sset R) (blocks n b) :: left_rows k n (skipn (32 * n) b)
  end.
(** m rows of n keys; the rows after the first incomplete one are empty *)
Fixpoint left_key_rows (m n : nat) (b : bytes) : list (pubkeys R) :=
  match m with
  | O => []
  | S k => let row := points (blocks n b) in
           mkPK R false row :: if length row =? n then left_key_rows k n (skipn (32 * n) b) else repeat (mkPK R false []) k
  end.
(** the number of rows and their length in the header of an encoded signature *)
Definition rows_in (b : bytes) : nat := Z.to_nat (get_u32 (firstn 4 (skipn 32 b))).
Definition row_len (b : bytes) : nat := Z.to_nat (get_u32 (firstn 4 (skipn 36 b))).
(** the receiver s after s.Decode(r, keys), where r delivers b: untouched if there is no complete c;
    with an incomplete header only c is new; otherwise also the responses are replaced; the keys
    only if the input contains all responses *)
Definition left_signature (s : sig R) (keys : bool) (b : bytes) : sig R :=
  if length b <? 32 then s
  else if length b <? 40 then mkSig R (sset R (firstn 32 b)) (sg_r R s) (sg_pub R s) (sg_msg R s)
  else
    let m := rows_in b in
    let n := row_len b in
    let b1 := skipn 40 b in
    mkSig R (sset R (firstn 32 b)) (left_rows m n b1)
      (if andb keys (m * (32 * n) <=? length b1) then left_key_rows m n (skipn (m * (32 * n)) b1) else sg_pub R s)
      (sg_msg R s).

(** ** range proof *)
Context (junk : pt R -> bytes -> pt R).
(** how many of the seven fields A, S, T1, T2, taux, mu, t are decoded: there must be a block, and
    the first four must encode points *)
Fixpoint decoded (i : nat) (bs : list bytes) : nat :=
  match bs with
  | [] => 0
  | x :: bs => match (if i <? 4 then pset R x else Some (pt0 R)) with Some _ => S (decoded (S i) bs) | None => 0 end
  end.
(** field i holds the decoded value, or what SetBytes left there, or the old value *)
Definition left_point (bs : list bytes) (i : nat) (old : pt R) : pt R :=
  if i <=? decoded 0 bs then
    match nth_error bs i with
    | Some x => match pset R x with Some p => p | None => junk old x end
    | None => old
    end
  else old.
Definition left_scalar (bs : list bytes) (i : nat) (old : F) : F :=
  if i <? decoded 0 bs then match nth_error bs i with Some x => sset R x | None => old end else old.
(** the inner product proof is replaced when all seven fields are decoded: it has no L and R, and a and
    b are zero unless both are in the input *)
Definition left_ip (bs : list bytes) (rest : bytes) (old : option (ipproof R)) : option (ipproof R) :=
  if decoded 0 bs =? 7 then
    Some (if length rest <? 64 then mkIPP R [] [] f0 f0 else mkIPP R [] [] (sset R (firstn 32 rest)) (sset R (firstn 32 (skipn 32 rest))))
  else old.
Definition left_proof (p : proof R) (b : bytes) : proof R :=
  let bs := blocks 7 b in
  mkProof R (pf_V R p) (left_point bs 0 (pf_A R p)) (left_point bs 1 (pf_S R p)) (left_point bs 2 (pf_T1 R p)) (left_point bs 3 (pf_T2 R p))
    (left_scalar bs 4 (pf_taux R p)) (left_scalar bs 5 (pf_mu R p)) (left_scalar bs 6 (pf_t R p)) (left_ip bs (skipn 224 b) (pf_ip R p)).
End Spec.
