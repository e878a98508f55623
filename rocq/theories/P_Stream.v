(** Properties C65-C67 *)
From Coq Require Import String ZArith List Lia Bool Arith.
From Coq Require Import Init.Byte.
From Verif Require Import GoModel GoFacts Fld Rist RistInst ReadModel ReadFacts SpecStream PedersenModel InnerProductModel RangeProofModel MlsagModel StreamFacts.
Import ListNotations.
Local Open Scope nat_scope.

(** ** C65.  Decoders do not depend on how the stream is chunked; faults are reported. *)
Theorem C65_chunking R : (forall c, chunking_free (com_Decode R c)) /\ chunking_free (DecodeCommitments R) /\ (forall p n, chunking_free (pk_Decode R p n)) /\ (forall a n, chunking_free (rsp_Decode R a n)) /\
  (forall s b, chunking_free (sig_Decode R s b)) /\ (forall p, chunking_free (ipp_Decode R p)) /\ (forall p b, chunking_free (pf_Decode R p b)).
Proof. repeat split; intros; apply all_chunking_free; assumption. Qed.
Print Assumptions C65_chunking.
Theorem C65_faults R : (forall c, fault_reported (com_Decode R c)) /\ fault_reported (DecodeCommitments R) /\ (forall p n, fault_reported (pk_Decode R p n)) /\ (forall a n, fault_reported (rsp_Decode R a n)) /\
  (forall s b, fault_reported (sig_Decode R s b)).
Proof.
  split; [|split; [|split; [|split]]]; intros; apply reported; first [apply com_Decode_sc|apply DecodeCommitments_sc|apply pk_Decode_sc|apply rsp_Decode_sc|apply mlsag_Decode_sc].
Qed.
Print Assumptions C65_faults.
(** these two read to the end of the stream, so that every fault is reported *)
Theorem C65_faults_to_end R r0 e r1 : (forall e', ~ In (RFault e') r0) ->
  (forall p, exists q err, fst (exec (ipp_Decode R p) (r0 ++ RFault e :: r1)) = (q, Err err)) /\
  (forall p b, exists err, fst (exec (pf_Decode R p b) (r0 ++ RFault e :: r1)) = Err err).
Proof. intros N. split; [intros p; exact (ipp_Decode_fault R p r0 e r1 N)|intros p b; exact (pf_Decode_fault R p b r0 e r1 N)]. Qed.
Print Assumptions C65_faults_to_end.
(** no decoder panics, whatever the reader does *)
Theorem C65_no_panic R r : (forall c, fst (exec (com_Decode R c) r) <> Panic) /\ fst (exec (DecodeCommitments R) r) <> Panic /\ (forall p n, fst (exec (pk_Decode R p n) r) <> Panic) /\
  (forall a n, fst (exec (rsp_Decode R a n) r) <> Panic) /\ (forall s b, fst (exec (sig_Decode R s b) r) <> Panic) /\ (forall p, snd (fst (exec (ipp_Decode R p) r)) <> Panic) /\ (forall p b, fst (exec (pf_Decode R p b) r) <> Panic).
Proof.
  split; [intros; apply exec_calm, com_Decode_sc|]. split; [apply exec_calm, DecodeCommitments_sc|]. split; [intros; apply exec_calm, pk_Decode_sc|]. split; [intros; apply exec_calm, rsp_Decode_sc|].
  split; [intros; apply exec_calm, mlsag_Decode_sc|]. split; [intros p; exact (ipp_Decode_calm R p r)|intros p b; exact (exec_calm _ (pf_Decode_calm R p b) r)].
Qed.
Print Assumptions C65_no_panic.
Example C65_ex : (fst (exec r_u32 [RChunk [x00; x00]; RChunk []; RChunk [x01]; RChunk [x02; x03]]) = Ok 258%Z) /\
  (fst (exec (DecodeCommitments tiny) [RChunk [x00; x00; x00]; RFault "timeout"]) = Err "timeout") /\
  (fst (exec (DecodeCommitments tiny) [RChunk [x00; x00; x00]; RChunk [x00]; RFault "timeout"]) = Ok []).
Proof. repeat split; reflexivity. Qed.

(** ** C66.  Encoders write a prefix when the writer fails. *)
Theorem C66_prefix R : (forall c, writes_prefix (w_each w_write (com_chunks R c))) /\ (forall cs, writes_prefix (EncodeCommitments R cs)) /\ (forall p, writes_prefix (pk_Encode R p)) /\ (forall a, writes_prefix (rsp_Encode R a)) /\
  (forall s b, writes_prefix (sig_Encode R s b)) /\ (forall p, writes_prefix (ipp_Encode R p)) /\ (forall p b, writes_prefix (pf_Encode R p b)).
Proof.
  split; [intros c; apply wp_each, wp_write|]. split; [intros cs; apply wp_each, wp_write|]. split; [intros p; apply wp_each, wp_write|]. split; [intros a; apply wp_each, wp_write|].
  split; [intros s b; apply wp_mlsag|]. split; [intros p; apply wp_ipp|intros p b; apply wp_pf].
Qed.
Print Assumptions C66_prefix.
(** the second write fails after two bytes *)
Example C66_ex : let s := mkSig tiny f0 [[]] [] [] in let full := w_out (snd (sig_Encode tiny s true w_fresh)) in
  match sig_Encode tiny s true (mkW [] [None; Some 2; None]) with (r, w) => (r, bytes_eqb (w_out w) (firstn 34 full), length full, w_plan w) = (Err "write error"%string, true, 40, [None]) end.
Proof. vm_compute. reflexivity. Qed.

(** ** C67.  What is allocated before the input is read. *)
Theorem C67_commitments R n : (0 < n < 2 ^ 32)%Z -> let input := [RChunk (put_u32 n)] in
  allocs (DecodeCommitments R) input = [n] /\ exists e, fst (exec (DecodeCommitments R) input) = Err e.
Proof.
  intros Hn. split; [|exact (coms_short R n Hn)]. apply (coms_allocs R _ n []); [lia|intros e [X|[]]; discriminate|reflexivity].
Qed.
Print Assumptions C67_commitments.
Theorem C67_range_proof R p n rest : (0 <= n < 2 ^ 32)%Z -> exists al, allocs (pf_Decode R p true) [RChunk (put_u32 n ++ rest)] = n :: al.
Proof. intros Hn. apply (pf_allocs R p _ n rest Hn); [intros e [X|[]]; discriminate|cbn; rewrite app_nil_r; reflexivity]. Qed.
Print Assumptions C67_range_proof.
Theorem C67_mlsag R s b c n k : length c = 32 -> (0 < n < 2 ^ 32)%Z -> (0 < k < 2 ^ 32)%Z -> let input := [RChunk (c ++ put_u32 n ++ put_u32 k)] in
  allocs (sig_Decode R s b) input = [n] /\ exists e, fst (exec (sig_Decode R s b) input) = Err e.
Proof.
  intros Lc Hn Hk input. destruct (mlsag_header R s b input c n k [] Lc) as [r' [_ [_ [al [E H]]]]]; [lia|lia|intros e [X|[]]; discriminate|unfold input; cbn; rewrite !app_nil_r; reflexivity|].
  destruct H as [-> [e X]]; [lia|lia|cbn; lia|]. split; [exact E|eauto].
Qed.
Print Assumptions C67_mlsag.
(** forty bytes are even accepted as a signature with any number of empty rows *)
Theorem C67_empty_rows R s b c n : length c = 32 -> (0 <= n < 2 ^ 32)%Z -> let input := [RChunk (c ++ put_u32 n ++ put_u32 0)] in
  exists t, fst (exec (sig_Decode R s b) input) = Ok t /\ Z.of_nat (length (sg_r R t)) = n /\ allocs (sig_Decode R s b) input = if b then [n; n] else [n].
Proof.
  intros Lc Hn input. destruct (mlsag_rows R s b input c n [] Lc Hn) as [r' [E A]]; [intros e [X|[]]; discriminate|unfold input; cbn; rewrite !app_nil_r; reflexivity|].
  rewrite E. eexists. split; [reflexivity|]. split; [cbn; rewrite repeat_length; lia|exact A].
Qed.
Print Assumptions C67_empty_rows.
(** the inner product decoder allocates no more than the input justifies *)
Theorem C67_inner_product R p b : Forall (fun n => (0 <= 64 * n <= Z.of_nat (length b))%Z) (allocs (ipp_Decode R p) [RChunk b]).
Proof.
  pose proof (ipp_allocs R p [RChunk b]) as H. cbn [rbytes] in H. rewrite app_nil_r in H. apply H. intros e [X|[]]; discriminate.
Qed.
Print Assumptions C67_inner_product.
Example C67_ex : allocs (DecodeCommitments tiny) [RChunk [x00; x00; x00; x07]] = [7%Z] /\
  fst (exec (DecodeCommitments tiny) [RChunk [x00; x00; x00; x07]]) = Err "EOF".
Proof. split; reflexivity. Qed.
Example C67_ex_max R : put_u32 4294967295 = [xff; xff; xff; xff] /\ allocs (DecodeCommitments R) [RChunk (put_u32 4294967295)] = [4294967295%Z].
Proof. split; [reflexivity|]. apply C67_commitments. split; reflexivity. Qed.
