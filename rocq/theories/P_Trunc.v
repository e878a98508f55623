(** Property C121 *)
From Coq Require Import String ZArith List Lia Bool Arith.
From Coq Require Import Init.Byte.
From Verif Require Import GoModel GoFacts Fld Rist RistInst ReadModel ReadFacts SpecTrunc PedersenModel InnerProductModel RangeProofModel MlsagModel StreamFacts TruncFacts TruncTail.
Import ListNotations.
Local Open Scope nat_scope.

(** ** C121.  Input that ends too early: "EOF" if it ends where a field begins, "unexpected EOF" otherwise *)
Theorem C121_fields R : (forall c, cut_error plain_fields (com_Decode R c)) /\ (forall p n, cut_error plain_fields (pk_Decode R p n)) /\
  (forall a n, cut_error plain_fields (rsp_Decode R a n)) /\ cut_error counted_fields (DecodeCommitments R) /\
  (forall s b, cut_error sig_fields (sig_Decode R s b)).
Proof.
  split; [exact (com_cut R)|]. split; [exact (pk_cut R)|]. split; [exact (rsp_cut R)|]. split; [exact (coms_cut R)|exact (sig_cut R)].
Qed.
Print Assumptions C121_fields.
(** A range proof of which less than its fields and the two scalars of its inner product proof is left *)
Theorem C121_range_proof R p b r r' tail q : (forall e, ~ In (RFault e) r) -> (forall e, ~ In (RFault e) r') -> delivers r = delivers r' ++ tail ->
  fst (exec (pf_Decode R p b) r) = Ok q -> length (delivers r') < (if b then 4 + 32 * length (pf_V R q) else 0) + 288 ->
  fst (exec (pf_Decode R p b) r') = Err (eof ((if b then counted_fields else plain_fields) (length (delivers r')))).
Proof.
  intros F F'. rewrite (delivers_rbytes _ F), (delivers_rbytes _ F'). exact (pf_cut R p b r r' tail q F F').
Qed.
Print Assumptions C121_range_proof.
(** and any input of less than 64 bytes to the inner product proof's *)
Theorem C121_inner_product R p r : (forall e, ~ In (RFault e) r) -> length (delivers r) < 64 ->
  fst (exec (ipp_Decode R p) r) = (p, Err (eof (plain_fields (length (delivers r))))).
Proof. intros F. rewrite (delivers_rbytes _ F). exact (ipp_cut R p r F). Qed.
Print Assumptions C121_inner_product.

(** Later the error is another one, and where the input ends between two points it is no error at all: the
    rounds that are complete are taken.  n bytes of the rounds are left: *)
Theorem C121_inner_product_rounds R p0 r r' tail p : (forall e, ~ In (RFault e) r) -> (forall e, ~ In (RFault e) r') -> delivers r = delivers r' ++ tail ->
  (Z.of_nat (length (delivers r)) < 2 ^ 38)%Z -> fst (exec (ipp_Decode R p0) r) = (p, Ok tt) ->
  forall n, length (delivers r') = 64 + n -> fst (exec (ipp_Decode R p0) r') =
    if Nat.eqb (n mod 32) 0 then (mkIPP R (firstn (n / 64) (ip_L R p)) (firstn (n / 64) (ip_R R p)) (ip_A R p) (ip_B R p), Ok tt)
    else (mkIPP R (ip_L R p0) (ip_R R p0) (ip_A R p) (ip_B R p), Err "proof was not formatted correctly"%string).
Proof.
  intros F F'. rewrite (delivers_rbytes _ F), (delivers_rbytes _ F'). intros E Z X n L. pose proof (ipp_tail R p0 r r' tail p F F' E Z X) as T. cbn zeta in T.
  rewrite L in T. replace (64 + n - 64) with n in T by lia. apply T. lia.
Qed.
Print Assumptions C121_inner_product_rounds.
Theorem C121_range_proof_rounds R p b r r' tail q : (forall e, ~ In (RFault e) r) -> (forall e, ~ In (RFault e) r') -> delivers r = delivers r' ++ tail ->
  (Z.of_nat (length (delivers r)) < 2 ^ 38)%Z -> fst (exec (pf_Decode R p b) r) = Ok q ->
  forall n, length (delivers r') = (if b then 4 + 32 * length (pf_V R q) else 0) + 288 + n -> fst (exec (pf_Decode R p b) r') =
    if Nat.eqb (n mod 32) 0 then
      Ok (mkProof R (pf_V R q) (pf_A R q) (pf_S R q) (pf_T1 R q) (pf_T2 R q) (pf_taux R q) (pf_mu R q) (pf_t R q)
        match pf_ip R q with Some ip => Some (mkIPP R (firstn (n / 64) (ip_L R ip)) (firstn (n / 64) (ip_R R ip)) (ip_A R ip) (ip_B R ip)) | None => None end)
    else Err "proof was not formatted correctly"%string.
Proof.
  intros F F'. rewrite (delivers_rbytes _ F), (delivers_rbytes _ F'). intros E Z X n L. pose proof (pf_tail R p b r r' tail q F F' E Z X) as T. cbn zeta in T.
  rewrite L in T. rewrite T by lia. replace (_ + 288 + n - _) with n by lia. reflexivity.
Qed.
Print Assumptions C121_range_proof_rounds.

(** one commitment: after the count, and in the middle of the point *)
Example C121_ex : let enc := put_u32 1 ++ pbytes tiny (pbase tiny) in
  match fst (exec (DecodeCommitments tiny) [RChunk enc]) with Ok l => length l = 1 | _ => False end /\
  map (fun n => match fst (exec (DecodeCommitments tiny) [RChunk (firstn n enc)]) with Err e => e | _ => ""%string end) [0; 2; 4; 5; 35] =
    ["EOF"; "unexpected EOF"; "EOF"; "unexpected EOF"; "unexpected EOF"]%string.
Proof. vm_compute. split; reflexivity. Qed.
(** a signature with one row of one response *)
Example C121_ex_sig : let enc := repeat x00 32 ++ put_u32 1 ++ put_u32 1 ++ repeat x01 32 in
  match fst (exec (sig_Decode tiny (mkSig tiny f0 [] [] []) false) [RChunk enc]) with Ok s => length (sg_r tiny s) = 1 | _ => False end /\
  map (fun n => match fst (exec (sig_Decode tiny (mkSig tiny f0 [] [] []) false) [RChunk (firstn n enc)]) with Err e => e | _ => ""%string end) [0; 31; 32; 36; 38; 40; 71] =
    ["EOF"; "unexpected EOF"; "EOF"; "EOF"; "unexpected EOF"; "EOF"; "unexpected EOF"]%string.
Proof. vm_compute. split; reflexivity. Qed.
(** an inner product proof of one round, whole and without 1, 32, 33 and 64 of its bytes: rounds accepted *)
Example C121_ex_rounds : let enc := repeat x00 64 ++ pbytes tiny (pbase tiny) ++ pbytes tiny (pbase tiny) in
  map (fun n => match fst (exec (ipp_Decode tiny (mkIPP tiny [] [] f0 f0)) [RChunk (firstn n enc)]) with (p, Ok _) => Some (length (ip_L tiny p)) | _ => None end) [128; 127; 96; 95; 64] =
    [Some 1; None; Some 0; None; Some 0].
Proof. vm_compute. reflexivity. Qed.
