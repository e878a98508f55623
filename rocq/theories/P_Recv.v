(** What a failing Decode leaves in its receiver: property C85 *)
From Coq Require Import String ZArith List Arith Lia Bool.
From Coq Require Import Init.Byte.
From Verif Require Import GoModel GoFacts ReadModel ReadFacts Fld Rist RistInst PedersenModel InnerProductModel RangeProofModel MlsagModel SpecDecode RecvModel SpecRecv RecvFacts RecvMore.
Import ListNotations.
Local Open Scope nat_scope.
Local Open Scope list_scope.

(** ** C85.  Decode and its receiver. *)
(** on success the receiver is the value of C73; errors, panics and consumed input are the same *)
Theorem C85_outcomes R junk :
  (forall n p, same_outcome (pk_DecodeR R n p) (pk_Decode R p n)) /\ (forall n a, same_outcome (rsp_DecodeR R n a) (rsp_Decode R a n)) /\
  (forall k s, same_outcome (sig_DecodeR R k s) (sig_Decode R s k)) /\ (forall c, same_outcome (com_DecodeR R junk c) (com_Decode R c)) /\
  (forall k p, same_outcome (pf_DecodeR R junk k p) (pf_Decode R p k)).
Proof.
  split; [|split; [|split; [|split]]]; intros; apply sim_same; [apply pk_sim|apply rsp_sim|apply sig_sim|apply com_sim|apply pf_sim].
Qed.
Print Assumptions C85_outcomes.

(** keys and responses are appended as far as the input goes *)
Theorem C85_lists R r : (forall e, ~ In (RFault e) r) ->
  (forall n p, fst (fst (exec (pk_DecodeR R n p) r)) = left_keys R p (Z.to_nat n) (bytes_of r)) /\
  (forall n a, fst (fst (exec (rsp_DecodeR R n a) r)) = left_responses R a (Z.to_nat n) (bytes_of r)).
Proof. intros Fr. split; intros; eapply ends_value; [exact Fr|apply pk_ends|exact Fr|apply rsp_ends]. Qed.
Print Assumptions C85_lists.
Theorem C85_signature R keys s r : (forall e, ~ In (RFault e) r) -> fst (fst (exec (sig_DecodeR R keys s) r)) = left_signature R s keys (bytes_of r).
Proof. intros Fr. destruct (sig_ends R keys s (bytes_of r)) as (o & _ & H). eapply ends_value; [exact Fr|exact H]. Qed.
Print Assumptions C85_signature.
Theorem C85_commitment R junk c r : (forall e, ~ In (RFault e) r) -> let b := bytes_of r in
  fst (fst (exec (com_DecodeR R junk c) r)) =
    if length b <? 32 then c
    else mkCom R (match pset R (firstn 32 b) with Some p => p | None => junk (c_val R c) (firstn 32 b) end) (c_blind R c).
Proof. intros Fr b. eapply ends_value; [exact Fr|apply com_ends]. Qed.
Print Assumptions C85_commitment.
(** a reader that fails leaves the receiver as if the input had ended there *)
Theorem C85_faults R junk r0 e r1 : (forall e', ~ In (RFault e') r0) ->
  (forall n p, fst (fst (exec (pk_DecodeR R n p) (r0 ++ RFault e :: r1))) = fst (fst (exec (pk_DecodeR R n p) r0))) /\
  (forall n a, fst (fst (exec (rsp_DecodeR R n a) (r0 ++ RFault e :: r1))) = fst (fst (exec (rsp_DecodeR R n a) r0))) /\
  (forall k s, fst (fst (exec (sig_DecodeR R k s) (r0 ++ RFault e :: r1))) = fst (fst (exec (sig_DecodeR R k s) r0))) /\
  (forall c, fst (fst (exec (com_DecodeR R junk c) (r0 ++ RFault e :: r1))) = fst (fst (exec (com_DecodeR R junk c) r0))).
Proof.
  intros Fr. split; [|split; [|split]]; intros; apply stable_fault; try exact Fr; [apply pk_stable|apply rsp_stable|apply sig_stable|apply com_stable].
Qed.
Print Assumptions C85_faults.

(** range proofs *)
Theorem C85_proof R junk p r q e : (forall e, ~ In (RFault e) r) -> fst (exec (pf_DecodeR R junk false p) r) = (q, Err e) -> q = left_proof R junk p (bytes_of r).
Proof.
  intros Fr X. destruct (pf_gives R junk p (bytes_of r) r Fr (eq_sym (bytes_of_rbytes r Fr))) as (s & o & r' & E & H). rewrite E in X. cbn in X. injection X as -> ->. destruct H as [H|[_ H]]; [discriminate|exact H].
Qed.
Print Assumptions C85_proof.
Theorem C85_proof_commitments R junk p r q e : (forall e, ~ In (RFault e) r) -> fst (exec (pf_DecodeR R junk true p) r) = (q, Err e) ->
  (forall V b rest, is_commitments R b V -> bytes_of r = b ++ rest ->
     q = left_proof R junk (mkProof R V (pf_A R p) (pf_S R p) (pf_T1 R p) (pf_T2 R p) (pf_taux R p) (pf_mu R p) (pf_t R p) (pf_ip R p)) rest) /\
  ((forall V b rest, bytes_of r = b ++ rest -> ~ is_commitments R b V) -> q = p).
Proof.
  intros Fr X. split.
  - intros V b rest C B. destruct (pf_gives_commits R junk p V b rest C r Fr) as (s & o & r' & E & H); [rewrite <- (bytes_of_rbytes r Fr); exact B|]. rewrite E in X. cbn in X. injection X as -> ->. destruct H as [H|[_ H]]; [discriminate|exact H].
  - intros N. destruct (pf_no_commits R junk p (bytes_of r) (fun V rest b B => N V b rest B) r Fr (eq_sym (bytes_of_rbytes r Fr))) as (s & o & r' & E & H & _). rewrite E in X. cbn in X. injection X as -> ->. exact H.
Qed.
Print Assumptions C85_proof_commitments.

(** Verify on a signature left by a failed Decode panics: when the failure was in the keys ... *)
Theorem C85_verify_keys R s s' r J e : (forall e, ~ In (RFault e) r) -> let b := bytes_of r in
  fst (exec (sig_DecodeR R true s) r) = (s', Err e) -> 40 + rows_in b * (32 * row_len b) <= length b -> row_len b <= length J ->
  sig_Verify R s' J = Panic.
Proof. intros Fr b. exact (verify_keys R s s' r J e Fr). Qed.
Print Assumptions C85_verify_keys.
(** ... and when it was in the responses and the receiver had keys for rows of that length *)
Theorem C85_verify_responses R k s s' r J e : (forall e, ~ In (RFault e) r) -> let b := bytes_of r in
  fst (exec (sig_DecodeR R k s) r) = (s', Err e) -> 40 <= length b < 40 + rows_in b * (32 * row_len b) ->
  sg_pub R s <> [] -> J <> [] -> (forall p, In p (sg_pub R s) -> row_len b <= length (pk_keys R p)) -> sig_Verify R s' J = Panic.
Proof. intros Fr b. exact (verify_responses R k s s' r J e Fr). Qed.
Print Assumptions C85_verify_responses.

(** decoding again into the same receiver: PubKeys keeps the keys of the failed attempt ... *)
Theorem C85_retry_keys R n p r1 p1 e1 r2 p2 : (forall e, ~ In (RFault e) r1) -> (forall e, ~ In (RFault e) r2) ->
  fst (exec (pk_DecodeR R n p) r1) = (p1, Err e1) -> fst (exec (pk_DecodeR R n p1) r2) = (p2, Ok tt) ->
  exists l, length l = Z.to_nat n /\ pk_keys R p2 = pk_keys R p ++ points R (blocks (Z.to_nat n) (bytes_of r1)) ++ l /\
    pk_keys R p1 = pk_keys R p ++ points R (blocks (Z.to_nat n) (bytes_of r1)).
Proof. exact (pk_retry R n p r1 p1 e1 r2 p2). Qed.
Print Assumptions C85_retry_keys.
(** ... a signature decoded with its keys depends on nothing but the message of the receiver *)
Theorem C85_retry_signature R s1 s2 r s' : (forall e, ~ In (RFault e) r) -> sg_msg R s1 = sg_msg R s2 ->
  fst (exec (sig_DecodeR R true s1) r) = (s', Ok tt) -> fst (exec (sig_DecodeR R true s2) r) = (s', Ok tt).
Proof. exact (sig_retry R s1 s2 r s'). Qed.
Print Assumptions C85_retry_signature.

(** ** Examples *)
Definition ex_old : sig tiny := mkSig tiny f1 [[f1]] [mkPK tiny false [f1]] [].
Definition ex_zeros (n : nat) : bytes := repeat x00 n.
(** one row of one response, and a key of 31 bytes *)
Definition ex_in : bytes := ex_zeros 32 ++ [x00; x00; x00; x01] ++ [x00; x00; x00; x01] ++ ex_zeros 32 ++ ex_zeros 31.
Example C85_ex_failed : exists e, snd (fst (exec (sig_DecodeR tiny true ex_old) [RChunk ex_in])) = Err e.
Proof. eexists. vm_compute. reflexivity. Qed.
Example C85_ex_left : let s' := fst (fst (exec (sig_DecodeR tiny true ex_old) [RChunk ex_in])) in
  to_Z (sg_c tiny s') = 0%Z /\ map (map to_Z) (sg_r tiny s') = [[0%Z]] /\ map (fun k => length (pk_keys tiny k)) (sg_pub tiny s') = [0] /\
  rows_in ex_in = 1 /\ row_len ex_in = 1 /\ length ex_in = 103.
Proof. vm_compute. auto 10. Qed.
Example C85_ex_verify : sig_Verify tiny (fst (fst (exec (sig_DecodeR tiny true ex_old) [RChunk ex_in]))) [f1] = Panic.
Proof.
  destruct C85_ex_failed as [e E]. destruct C85_ex_left as (_ & _ & _ & M & N & L).
  assert (B : bytes_of [RChunk ex_in] = ex_in) by (cbn [bytes_of map concat]; apply app_nil_r).
  apply (C85_verify_keys tiny ex_old _ [RChunk ex_in] [f1] e); [intros x [H|[]]; discriminate|rewrite <- E; apply surjective_pairing| |]; rewrite B, ?M, ?N, ?L; cbn; lia.
Qed.
Example C85_ex_responses : let r := [RChunk (firstn 71 ex_in)] in
  (exists e, snd (fst (exec (sig_DecodeR tiny false ex_old) r)) = Err e) /\ map (map to_Z) (sg_r tiny (fst (fst (exec (sig_DecodeR tiny false ex_old) r)))) = [[]] /\
  map (fun k => map to_Z (pk_keys tiny k)) (sg_pub tiny (fst (fst (exec (sig_DecodeR tiny false ex_old) r)))) = [[1%Z]] /\
  sig_Verify tiny (fst (fst (exec (sig_DecodeR tiny false ex_old) r))) [f1] = Panic.
Proof.
  cbv zeta. split; [eexists; vm_compute; reflexivity|]. split; [vm_compute; reflexivity|]. split; [vm_compute; reflexivity|].
  vm_compute. reflexivity.
Qed.
Example C85_ex_retry : let p1 := fst (fst (exec (pk_DecodeR tiny 2 (mkPK tiny false [])) [RChunk (ex_zeros 40)])) in
  length (pk_keys tiny p1) = 1 /\ length (pk_keys tiny (fst (fst (exec (pk_DecodeR tiny 2 p1) [RChunk (ex_zeros 64)])))) = 3.
Proof. vm_compute. auto. Qed.
(** "a failing Decode leaves the receiver alone" is false, for signatures and range proofs *)
Definition ex_proof : proof tiny := mkProof tiny [] f1 f1 f1 f1 f1 f1 f1 None.
Lemma f1_not_0 x : to_Z x = 0%Z -> x <> f1.
Proof. intros H ->. vm_compute in H. discriminate. Qed.
Theorem C85_unchanged_refuted : 
  ~ (forall R k s r s' e, fst (exec (sig_DecodeR R k s) r) = (s', Err e) -> s' = s) /\
  ~ (forall R junk k p r q e, fst (exec (pf_DecodeR R junk k p) r) = (q, Err e) -> pf_A R q = pf_A R p \/ pf_S R q <> pf_S R p).
Proof.
  split; intros H.
  - destruct C85_ex_failed as [e E]. specialize (H tiny true ex_old [RChunk ex_in] _ e (eq_trans (surjective_pairing _) (f_equal (pair _) E))).
    apply (f_equal (sg_c tiny)) in H. revert H. apply f1_not_0. vm_compute. reflexivity.
  - set (r := [RChunk (ex_zeros 40)]). assert (E : exists e, snd (fst (exec (pf_DecodeR tiny (fun p _ => p) false ex_proof) r)) = Err e) by (eexists; vm_compute; reflexivity).
    destruct E as [e E]. specialize (H tiny (fun p _ => p) false ex_proof r _ e (eq_trans (surjective_pairing _) (f_equal (pair _) E))). destruct H as [H|H].
    + revert H. apply f1_not_0. vm_compute. reflexivity.
    + apply H. unfold r. cbv - [f1]. reflexivity.
Qed.
Print Assumptions C85_unchanged_refuted.
(** all fields of the range proof decoded and the inner product proof missing: a new, empty one *)
Example C85_ex_ip : let x := fst (exec (pf_DecodeR tiny (fun p _ => p) false ex_proof) [RChunk (ex_zeros 224)]) in
  (exists e, snd x = Err e) /\ to_Z (pf_t tiny (fst x)) = 0%Z /\ match pf_ip tiny (fst x) with Some ip => length (ip_L tiny ip) | None => 1 end = 0.
Proof. cbv zeta. split; [eexists; vm_compute; reflexivity|]. split; vm_compute; reflexivity. Qed.
