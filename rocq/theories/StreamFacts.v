(** Decoders and encoders over readers and writers that may fail *)
From Coq Require Import String ZArith List Lia Bool Arith.
From Verif Require Import GoModel GoFacts Fld Rist ReadModel ReadFacts SpecStream PedersenModel InnerProductModel RangeProofModel MlsagModel.
Import ListNotations.
Local Open Scope nat_scope.

(** ** Chunking *)
Lemma rbytes_concat r : fault_free r -> concat (map (fun x => match x with RChunk b => b | RFault _ => [] end) r) = rbytes r.
Proof. intros F. induction r as [|[b|e] r IH]; cbn; [reflexivity| |exfalso; apply (F e); left; reflexivity]. f_equal. apply IH. eapply fault_free_cons. exact F. Qed.
Lemma run_ff {X} (p : rprog X) : forall r, fault_free r -> fault_free (snd (exec p r)).
Proof.
  induction p as [x|n k IH|k IH|n k IH]; intros r F.
  - exact F.
  - rewrite exec_RRead. destruct (read_full_chunking n r r F F eq_refl) as [_ [_ [G _]]]. destruct (read_full n r) as [b r']. apply IH, G.
  - rewrite exec_RAll, (read_all_ok r F). apply IH. intros e [].
  - rewrite exec_RAlloc. apply IH, F.
Qed.
Lemma all_chunking_free {X} (p : rprog X) : chunking_free p.
Proof.
  intros r1 r2 F1 F2 E. rewrite (rbytes_concat r1 F1), (rbytes_concat r2 F2) in E. rewrite (rbytes_concat _ (run_ff p r1 F1)), (rbytes_concat _ (run_ff p r2 F2)). destruct (run_chunking p r1 r2 F1 F2 E) as [A [B C]]. unfold exec, allocs. auto.
Qed.

(** ** Faults *)
(** no read ever leads to a panic *)
Fixpoint calm {A} (p : rprog (res A)) : Prop :=
  match p with
  | RRet x => x <> Panic
  | RRead n k => forall b, b <> Panic -> calm (k b)
  | RAll k => forall b, b <> Panic -> calm (k b)
  | RAlloc _ k => calm k
  end.
Lemma read_full_acc_calm r : forall n acc, fst (read_full_acc n acc r) <> Panic.
Proof.
  induction r as [|[b|e] r IH]; intros n acc; destruct n; cbn; try discriminate.
  - destruct acc; discriminate.
  - destruct (length b <=? S n); [apply IH|discriminate].
Qed.
Lemma read_all_acc_calm r : forall acc, fst (read_all_acc acc r) <> Panic.
Proof. induction r as [|[b|e] r IH]; intros acc; cbn; try discriminate. apply IH. Qed.
Lemma exec_calm {A} (p : rprog (res A)) : calm p -> forall r, fst (exec p r) <> Panic.
Proof.
  induction p as [x|n k IH|k IH|n k IH]; cbn [calm]; intros C r.
  - exact C.
  - rewrite exec_RRead. pose proof (read_full_acc_calm r n []) as N. unfold read_full. destruct (read_full_acc n [] r) as [b r']. apply IH, C, N.
  - rewrite exec_RAll. pose proof (read_all_acc_calm r []) as N. unfold read_all. destruct (read_all_acc [] r) as [b r']. apply IH, C, N.
  - rewrite exec_RAlloc. apply IH, C.
Qed.
Lemma calm_rbind {A B} (p : rprog (res A)) (f : A -> rprog (res B)) : calm p -> (forall a, calm (f a)) -> calm (let? x := p in f x).
Proof. induction p as [x|n k IH|k IH|n k IH]; cbn [calm rbind]; intros C H; auto. destruct x; cbn [calm]; [apply H|discriminate|contradiction]. Qed.
Lemma calm_r_bytes n : calm (r_bytes n). Proof. cbn. auto. Qed.
Lemma calm_r_u32 : calm r_u32. Proof. apply (calm_rbind (r_bytes 4) (fun b => rret (get_u32 b))); [apply calm_r_bytes|cbn; discriminate]. Qed.
Lemma calm_r_for {S} (body : nat -> S -> rprog (res S)) n : (forall i s, calm (body i s)) -> forall lo st, calm (r_for lo n body st).
Proof. intros H. induction n as [|n IH]; intros lo st; cbn [r_for]; [cbn; discriminate|]. apply (calm_rbind (body lo st) (fun st' => r_for (1 + lo) n body st')); auto. Qed.
Lemma reported {A} (p : rprog (res A)) : strict res_good p -> calm p -> fault_reported p.
Proof.
  intros S C r0 e r1 F. pose proof (exec_calm p C (r0 ++ RFault e :: r1)) as N. pose proof (run_fault res_good p r0 e r1 S F) as G.
  destruct (fst (exec p (r0 ++ RFault e :: r1))) as [a|err|] eqn:E; [right|left; eauto|contradiction]. exists a. split; [reflexivity|]. symmetry. apply G. reflexivity.
Qed.

Section Decoders.
Context (R : rist).
Ltac sc := first [ apply (strict_rbind (A := _)) | apply calm_rbind ].
Lemma com_Decode_sc c : strict res_good (com_Decode R c) /\ calm (com_Decode R c).
Proof.
  unfold com_Decode. split.
  - apply (strict_rbind (r_bytes 32) (fun b => match pset R b with Some p => rret (mkCom R p (c_blind R c)) | None => rerr _ end)); [apply strict_r_bytes|]. intros b. destruct (pset R b); exact I.
  - apply (calm_rbind (r_bytes 32) (fun b => match pset R b with Some p => rret (mkCom R p (c_blind R c)) | None => rerr _ end)); [apply calm_r_bytes|]. intros b. destruct (pset R b); discriminate.
Qed.
Lemma DecodeCommitments_sc : strict res_good (DecodeCommitments R) /\ calm (DecodeCommitments R).
Proof.
  unfold DecodeCommitments. destruct (com_Decode_sc (com_zero R)) as [S C]. split.
  - apply (strict_rbind r_u32 (fun lenV => RAlloc lenV (r_for 0 (Z.to_nat lenV) (fun i comms => let? c := com_Decode R (com_zero R) in rret (comms ++ [c])) []))); [apply strict_r_u32|].
    intros n. cbn [strict]. apply strict_r_for. intros _ s. apply (strict_rbind _ (fun c => rret (s ++ [c]))); [exact S|intros; exact I].
  - apply (calm_rbind r_u32 (fun lenV => RAlloc lenV (r_for 0 (Z.to_nat lenV) (fun i comms => let? c := com_Decode R (com_zero R) in rret (comms ++ [c])) []))); [apply calm_r_u32|].
    intros n. cbn [calm]. apply calm_r_for. intros _ s. apply (calm_rbind _ (fun c => rret (s ++ [c]))); [exact C|intros; discriminate].
Qed.
Lemma pk_Decode_sc p n : strict res_good (pk_Decode R p n) /\ calm (pk_Decode R p n).
Proof.
  unfold pk_Decode. split; [apply strict_r_for|apply calm_r_for]; intros _ s.
  - apply (strict_rbind (r_bytes 32) (fun x => match pset R x with Some x => rret (AddPubKey R s x) | None => rerr _ end)); [apply strict_r_bytes|]. intros b. destruct (pset R b); exact I.
  - apply (calm_rbind (r_bytes 32) (fun x => match pset R x with Some x => rret (AddPubKey R s x) | None => rerr _ end)); [apply calm_r_bytes|]. intros b. destruct (pset R b); discriminate.
Qed.
Lemma rsp_Decode_sc p n : strict res_good (rsp_Decode R p n) /\ calm (rsp_Decode R p n).
Proof.
  unfold rsp_Decode. split; [apply strict_r_for|apply calm_r_for]; intros _ s.
  - apply (strict_rbind (r_bytes 32) (fun x => rret (s ++ [sset R x]))); [apply strict_r_bytes|]. intros b. exact I.
  - apply (calm_rbind (r_bytes 32) (fun x => rret (s ++ [sset R x]))); [apply calm_r_bytes|]. discriminate.
Qed.
Lemma mlsag_Decode_sc s b : strict res_good (sig_Decode R s b) /\ calm (sig_Decode R s b).
Proof.
  unfold sig_Decode. split.
  - refine (strict_rbind (r_bytes 32) (fun x => _) (strict_r_bytes 32) _). intros x. refine (strict_rbind r_u32 (fun lenR => _) strict_r_u32 _). intros lenR.
    refine (strict_rbind r_u32 (fun num => _) strict_r_u32 _). intros num. cbn [strict]. refine (strict_rbind (r_for _ _ _ _) (fun r => _) _ _).
    + apply strict_r_for. intros _ rows. refine (strict_rbind (rsp_Decode R [] num) (fun a => _) (proj1 (rsp_Decode_sc _ _)) _). intros a. exact I.
    + intros r. destruct b; cbn [negb strict]; [|exact I]. refine (strict_rbind (r_for _ _ _ _) (fun r => _) _ _).
      * apply strict_r_for. intros _ rows. refine (strict_rbind (pk_Decode R _ num) (fun a => _) (proj1 (pk_Decode_sc _ _)) _). intros a. exact I.
      * intros ks. exact I.
  - refine (calm_rbind (r_bytes 32) (fun x => _) (calm_r_bytes 32) _). intros x. refine (calm_rbind r_u32 (fun lenR => _) calm_r_u32 _). intros lenR.
    refine (calm_rbind r_u32 (fun num => _) calm_r_u32 _). intros num. cbn [calm]. refine (calm_rbind (r_for _ _ _ _) (fun r => _) _ _).
    + apply calm_r_for. intros _ rows. refine (calm_rbind (rsp_Decode R [] num) (fun a => _) (proj2 (rsp_Decode_sc _ _)) _). intros a. discriminate.
    + intros r. destruct b; cbn [negb calm]; [|discriminate]. refine (calm_rbind (r_for _ _ _ _) (fun r => _) _ _).
      * apply calm_r_for. intros _ rows. refine (calm_rbind (pk_Decode R _ num) (fun a => _) (proj2 (pk_Decode_sc _ _)) _). intros a. discriminate.
      * intros ks. discriminate.
Qed.
(** decoders that read to the end report every fault *)
Lemma ipp_Decode_fault p r0 e r1 : fault_free r0 -> exists q err, fst (exec (ipp_Decode R p) (r0 ++ RFault e :: r1)) = (q, Err err).
Proof.
  intros F. unfold ipp_Decode, r_bytes. cbn [rbind]. rewrite exec_RRead. unfold read_full.
  destruct (read_full_acc_fault e r1 r0 32 [] F) as [[q [_ [Fq D]]]|[q D]]; rewrite D; [|cbn; eauto]. cbn [rbind]. rewrite exec_RRead. unfold read_full.
  destruct (read_full_acc_fault e r1 q 32 [] Fq) as [[q' [_ [Fq' D']]]|[q' D']]; rewrite D'; [|cbn; eauto]. rewrite exec_RAll. unfold read_all.
  destruct (read_all_fault e r1 q' Fq' []) as [q'' D'']. rewrite D''. cbn. eauto.
Qed.
Lemma readerToPoint_fault : strict res_good (readerToPoint R) /\ calm (readerToPoint R).
Proof.
  unfold readerToPoint. split.
  - refine (strict_rbind (r_bytes 32) (fun x => _) (strict_r_bytes 32) _). intros b. destruct (pset R b); exact I.
  - refine (calm_rbind (r_bytes 32) (fun x => _) (calm_r_bytes 32) _). intros b. destruct (pset R b); discriminate.
Qed.
Lemma readerToScalar_fault : strict res_good (readerToScalar R) /\ calm (readerToScalar R).
Proof.
  unfold readerToScalar. split.
  - refine (strict_rbind (r_bytes 32) (fun x => _) (strict_r_bytes 32) _). intros b. exact I.
  - refine (calm_rbind (r_bytes 32) (fun x => _) (calm_r_bytes 32) _). discriminate.
Qed.
(** [always p]: on a reader with a fault p reports an error or leaves a reader with the fault *)
Definition pending (e : string) (r1 : reader) (r : reader) : Prop := exists r0, fault_free r0 /\ r = r0 ++ RFault e :: r1.
Lemma step_pending {A} (p : rprog (res A)) e r1 : (exists k, p = RRead 32 k /\ (forall er, exists er', k (Err er) = RRet (Err er')) /\ (forall b, b <> Panic -> exists x, k b = RRet x /\ x <> Panic)) ->
  forall r, pending e r1 r -> (exists a r', exec p r = (Ok a, r') /\ pending e r1 r') \/ exists err, fst (exec p r) = Err err.
Proof.
  intros [k [-> [H1 H2]]] r [r0 [F ->]]. rewrite exec_RRead. unfold read_full. destruct (read_full_acc_fault e r1 r0 32 [] F) as [[q [_ [Fq D]]]|[q D]]; rewrite D.
  - destruct (H2 (Ok ([] ++ firstn 32 (rbytes r0)))) as [x [Ex Nx]]; [discriminate|]. rewrite Ex, exec_RRet. destruct x as [a|err|]; [left|right|contradiction]; [|cbn; eauto].
    exists a, (q ++ RFault e :: r1). split; [reflexivity|]. exists q. auto.
  - destruct (H1 e) as [er' E]. rewrite E. right. cbn. eauto.
Qed.
Lemma bind_pending {A B} (p : rprog (res A)) (f : A -> rprog (res B)) e r1 :
  (forall r, pending e r1 r -> (exists a r', exec p r = (Ok a, r') /\ pending e r1 r') \/ exists err, fst (exec p r) = Err err) ->
  (forall a r, pending e r1 r -> exists err, fst (exec (f a) r) = Err err) ->
  forall r, pending e r1 r -> exists err, fst (exec (let? x := p in f x) r) = Err err.
Proof.
  intros H1 H2 r P. rewrite exec_rbind. destruct (H1 r P) as [[a [r' [E P']]]|[err E]]; [rewrite E; apply H2, P'|]. destruct (exec p r) as [x r']. cbn in E. subst x. cbn. eauto.
Qed.
Lemma point_pending e r1 r : pending e r1 r -> (exists a r', exec (readerToPoint R) r = (Ok a, r') /\ pending e r1 r') \/ exists err, fst (exec (readerToPoint R) r) = Err err.
Proof.
  apply step_pending. eexists. split; [reflexivity|]. split; [intros er; eexists; reflexivity|]. intros [b|er|] N; [|eexists; split; [reflexivity|discriminate]|contradiction].
  cbn [rbind]. destruct (pset R b); eexists; (split; [reflexivity|discriminate]).
Qed.
Lemma scalar_pending e r1 r : pending e r1 r -> (exists a r', exec (readerToScalar R) r = (Ok a, r') /\ pending e r1 r') \/ exists err, fst (exec (readerToScalar R) r) = Err err.
Proof.
  apply step_pending. eexists. split; [reflexivity|]. split; [intros er; eexists; reflexivity|]. intros [b|er|] N; [|eexists; split; [reflexivity|discriminate]|contradiction].
  cbn [rbind]. eexists; (split; [reflexivity|discriminate]).
Qed.
Lemma ipp_Decode_calm p r : snd (fst (exec (ipp_Decode R p) r)) <> Panic.
Proof.
  unfold ipp_Decode, r_bytes. cbn [rbind]. rewrite exec_RRead. unfold read_full. pose proof (read_full_acc_calm r 32 []) as N. destruct (read_full_acc 32 [] r) as [[x|e|] r1]; cbn [rbind]; [|discriminate|contradiction].
  rewrite exec_RRead. unfold read_full. pose proof (read_full_acc_calm r1 32 []) as N1. destruct (read_full_acc 32 [] r1) as [[y|e|] r2]; [|discriminate|contradiction].
  rewrite exec_RAll. unfold read_all. pose proof (read_all_acc_calm r2 []) as N2. destruct (read_all_acc [] r2) as [[z|e|] r3]; [|discriminate|contradiction].
  destruct (negb _); [discriminate|]. rewrite !exec_RAlloc. destruct (lr_decode R _ z). discriminate.
Qed.
Lemma pf_Decode_calm p b : calm (pf_Decode R p b).
Proof.
  unfold pf_Decode. refine (calm_rbind (if b then DecodeCommitments R else rret (pf_V R p)) (fun V => _) _ _); [destruct b; [apply DecodeCommitments_sc|discriminate]|]. intros V.
  do 4 (refine (calm_rbind (readerToPoint R) (fun A => _) (proj2 readerToPoint_fault) _); intros ?). do 3 (refine (calm_rbind (readerToScalar R) (fun A => _) (proj2 readerToScalar_fault) _); intros ?).
  unfold ipp_Decode, r_bytes. cbn [rbind calm]. intros [x|e|] Nx; cbn [rbind calm rerr]; [|discriminate|contradiction]. intros [y|e|] Ny; cbn [rbind calm rerr]; [|discriminate|contradiction].
  intros [z|e|] Nz; cbn [rbind calm rerr]; [|discriminate|contradiction]. destruct (negb _); cbn [rbind calm rerr]; [discriminate|]. destruct (lr_decode R _ z). cbn [rbind calm rret]. discriminate.
Qed.
(** no read to the end *)
Fixpoint noall {A} (p : rprog (res A)) : Prop := match p with RRet _ => True | RRead n k => forall b, noall (k b) | RAll _ => False | RAlloc _ k => noall k end.
Lemma noall_rbind {A B} (p : rprog (res A)) (f : A -> rprog (res B)) : noall p -> (forall a, noall (f a)) -> noall (let? x := p in f x).
Proof. induction p as [x|n k IH|k IH|n k IH]; cbn [noall rbind]; intros C H; auto. destruct x; cbn [noall]; auto. Qed.
Lemma noall_r_for {S} (body : nat -> S -> rprog (res S)) n : (forall i s, noall (body i s)) -> forall lo st, noall (r_for lo n body st).
Proof. intros H. induction n as [|n IH]; intros lo st; cbn [r_for]; [exact I|]. apply (noall_rbind (body lo st) (fun st' => r_for (1 + lo) n body st')); auto. Qed.
Lemma DecodeCommitments_noall : noall (DecodeCommitments R).
Proof.
  unfold DecodeCommitments. refine (noall_rbind r_u32 (fun lenV => _) _ _).
  - refine (noall_rbind (r_bytes 4) (fun b => rret (get_u32 b)) _ _); cbn; auto.
  - intros n. cbn [noall]. apply noall_r_for. intros _ s. refine (noall_rbind (com_Decode R (com_zero R)) (fun c => rret (s ++ [c])) _ _); [|intros; exact I].
    unfold com_Decode. refine (noall_rbind (r_bytes 32) (fun b => match pset R b with Some p => rret (mkCom R p _) | None => rerr _ end) _ _); [cbn; auto|]. intros b. destruct (pset R b); exact I.
Qed.
Lemma pf_Decode_fault p b r0 e r1 : fault_free r0 -> exists err, fst (exec (pf_Decode R p b) (r0 ++ RFault e :: r1)) = Err err.
Proof.
  intros F. assert (P : pending e r1 (r0 ++ RFault e :: r1)) by (exists r0; auto). revert P. generalize (r0 ++ RFault e :: r1). unfold pf_Decode.
  refine (bind_pending (if b then DecodeCommitments R else rret (pf_V R p)) (fun V => _) e r1 _ _).
  - destruct b; [|intros r P; left; exists (pf_V R p), r; split; [reflexivity|exact P]].
    intros r [q0 [Fq ->]]. destruct DecodeCommitments_sc as [S C]. clear - Fq S C.
    (* a strict, calm program without RAll leaves the fault behind *)
    assert (K : forall {A} (p : rprog (res A)), strict res_good p -> calm p -> noall p ->
      forall q0, fault_free q0 -> (exists a r', exec p (q0 ++ RFault e :: r1) = (Ok a, r') /\ pending e r1 r') \/ exists err, fst (exec p (q0 ++ RFault e :: r1)) = Err err).
    { intros A p. induction p as [x|n k IH|k IH|n k IH]; cbn [strict calm noall]; intros S0 C0 N0 q F.
      - destruct x as [a|err|]; [left|right|contradiction]; [|cbn; eauto]. exists a, (q ++ RFault e :: r1). split; [reflexivity|]. exists q. auto.
      - rewrite exec_RRead. unfold read_full. destruct (read_full_acc_fault e r1 q n [] F) as [[q' [_ [Fq' D]]]|[q' D]]; rewrite D.
        + apply IH; [apply S0|apply C0; discriminate|apply N0|exact Fq'].
        + right. destruct S0 as [S0 _]. specialize (S0 e q'). pose proof (exec_calm (k (Err e)) (C0 (Err e) ltac:(discriminate)) q') as NP. destruct (fst (exec (k (Err e)) q')) as [a|err|]; [discriminate|eauto|contradiction].
      - contradiction.
      - rewrite exec_RAlloc. apply IH; assumption. }
    apply K; [exact S|exact C|exact DecodeCommitments_noall|exact Fq].
  - intros V. refine (bind_pending (readerToPoint R) (fun A => _) e r1 (point_pending e r1) _). intros A.
    refine (bind_pending (readerToPoint R) (fun pS => _) e r1 (point_pending e r1) _). intros pS.
    refine (bind_pending (readerToPoint R) (fun T1 => _) e r1 (point_pending e r1) _). intros T1.
    refine (bind_pending (readerToPoint R) (fun T2 => _) e r1 (point_pending e r1) _). intros T2.
    refine (bind_pending (readerToScalar R) (fun taux => _) e r1 (scalar_pending e r1) _). intros taux.
    refine (bind_pending (readerToScalar R) (fun mu => _) e r1 (scalar_pending e r1) _). intros mu.
    refine (bind_pending (readerToScalar R) (fun t => _) e r1 (scalar_pending e r1) _). intros t.
    intros r [q [Fq ->]]. rewrite exec_rbind. destruct (ipp_Decode_fault (mkIPP R [] [] f0 f0) q e r1 Fq) as [ip [err E]].
    destruct (exec (ipp_Decode R (mkIPP R [] [] f0 f0)) (q ++ RFault e :: r1)) as [[ip' rr] r']. cbn in E. injection E as -> ->. cbn. eauto.
Qed.
End Decoders.

(** ** Writers *)
Lemma wp_ret : writes_prefix w_ret.
Proof. intros w. exists [], [], []. cbn. rewrite app_nil_r. repeat split; auto. Qed.
Lemma wp_panic : writes_prefix (fun w => (Panic, w)).
Proof. intros w. exists [], [], []. cbn. rewrite app_nil_r. repeat split; auto. Qed.
(** on a writer without plan only the bytes written matter *)
Definition oblivious (enc : writer -> res unit * writer) : Prop :=
  forall out, exists b, enc (mkW out []) = (fst (enc w_fresh), mkW (out ++ b) []).
Definition wp (enc : writer -> res unit * writer) : Prop := writes_prefix enc /\ oblivious enc.
Lemma wp_write b : wp (w_write b).
Proof.
  split.
  - intros [out plan]. unfold w_write. cbn [w_plan w_out w_fresh app]. destruct plan as [|[k|] plan].
    + exists b, [], []. rewrite app_nil_r. cbn. repeat split; auto.
    + exists (firstn k b), (skipn k b), [Some k]. rewrite firstn_skipn. cbn. repeat split; auto. left. split; [exists k; auto|eauto].
    + exists b, [], [None]. rewrite app_nil_r. cbn. repeat split; auto. right. split; [intros k [H|[]]; discriminate|auto].
  - intros out. exists b. reflexivity.
Qed.
Lemma wp_seq a b : wp a -> wp b -> wp (w_seq a b).
Proof.
  intros [Wa Oa] [Wb Ob]. assert (OO : oblivious (w_seq a b)).
  { intros out. unfold w_seq. destruct (Oa out) as [x E]. destruct (Oa []) as [x0 E0]. change (mkW [] []) with w_fresh in E0. rewrite E, E0. cbn [fst snd].
    assert (x0 = x) as ->.
    { specialize (Wa (mkW out [])). rewrite E, E0 in Wa. cbn [w_out w_plan] in Wa. destruct Wa as [wr [rest [used [H1 [H2 [H3 [_ H4]]]]]]]. apply app_inv_head in H1. subst wr. destruct used; [|discriminate].
      destruct H4 as [[[k []] _]|[_ [_ ->]]]. cbn in H2. rewrite app_nil_r in H2. exact H2. }
    destruct (fst (a w_fresh)); [|exists x; reflexivity|exists x; reflexivity].
    destruct (Ob (out ++ x)) as [y Ey]. destruct (Ob ([] ++ x)) as [y' Ey']. rewrite Ey, Ey'. exists (x ++ y). rewrite app_assoc. reflexivity. }
  split; [|exact OO]. intros w. specialize (Wa w). destruct (Oa []) as [x0 E0]. change (mkW [] []) with w_fresh in E0. cbn [app] in E0.
  unfold w_seq at 2. rewrite E0 in Wa |- *. unfold w_seq. destruct (a w) as [ra wa]. cbn [w_out w_plan] in Wa.
  destruct Wa as [wr [rest [used [H1 [H2 [H3 [H5 H4]]]]]]]. destruct (Ob x0) as [y Ey].
  assert (C : fst (a w_fresh) = Ok tt \/ fst (a w_fresh) = Panic) by exact H5. clear H5.
  destruct C as [C|C]; rewrite C in *.
  - rewrite Ey. pose proof (Wb wa) as W. destruct (Ob []) as [y' Ey']. change (mkW [] []) with w_fresh in Ey'. cbn [app] in Ey'. rewrite Ey' in W.
    assert (y' = y) as ->.
    { specialize (Wb (mkW x0 [])). rewrite Ey, Ey' in Wb. cbn [w_out w_plan] in Wb. destruct Wb as [wr' [rest' [used' [G1 [G2 [G3 [_ G4]]]]]]]. apply app_inv_head in G1. subst wr'. destruct used'; [|discriminate].
      destruct G4 as [[[k []] _]|[_ [_ ->]]]. rewrite app_nil_r in G2. exact G2. }
    destruct H4 as [[Hk [e ->]]|[Hk [-> ->]]].
    + exists wr, (rest ++ y), used. cbn [w_out]. rewrite H2, app_assoc. split; [exact H1|]. split; [reflexivity|]. split; [exact H3|]. split; [destruct (b wa); destruct W as [? [? [? [_ [_ [_ [W _]]]]]]]; exact W|]. left. split; [exact Hk|eauto].
    + rewrite app_nil_r in H2. subst x0. destruct (b wa) as [rb wb]. cbn [w_out w_plan] in W |- *. destruct W as [wr' [rest' [used' [G1 [G2 [G3 [G5 G4]]]]]]].
      exists (wr ++ wr'), rest', (used ++ used'). rewrite G1, H1, <- app_assoc. split; [reflexivity|]. rewrite G2, app_assoc. split; [reflexivity|]. rewrite H3, G3, app_assoc. split; [reflexivity|]. split; [exact G5|].
      destruct G4 as [[[k G4] Er]|[G4 [-> ->]]]; [left|right].
      * split; [exists k; apply in_or_app; auto|exact Er].
      * split; [intros k IK; apply in_app_or in IK; destruct IK as [IK|IK]; [exact (Hk k IK)|exact (G4 k IK)]|auto].
  - destruct H4 as [[Hk [e ->]]|[Hk [-> ->]]]; exists wr; [exists rest|exists []]; exists used; cbn [w_out].
    + split; [exact H1|]. split; [exact H2|]. split; [exact H3|]. split; [auto|]. left. split; [exact Hk|eauto].
    + split; [exact H1|]. split; [exact H2|]. split; [exact H3|]. split; [auto|]. right. auto.
Qed.
Lemma wp_ret' : wp w_ret. Proof. split; [apply wp_ret|]. intros out. exists []. rewrite app_nil_r. reflexivity. Qed.
Lemma wp_panic' : wp (fun w => (Panic, w)). Proof. split; [apply wp_panic|]. intros out. exists []. rewrite app_nil_r. reflexivity. Qed.
Lemma wp_each {A} (f : A -> writer -> res unit * writer) l : (forall x, wp (f x)) -> wp (w_each f l).
Proof. intros H. induction l as [|x l IH]; cbn [w_each]; [apply wp_ret'|apply wp_seq; auto]. Qed.
Lemma wp_ext f g : (forall w, f w = g w) -> wp f -> wp g.
Proof.
  intros E [W O]. split.
  - intros w. rewrite <- !E. apply W.
  - intros out. rewrite <- !E. apply O.
Qed.
Section Encoders.
Context (R : rist).
Lemma wp_ipp p : wp (ipp_Encode R p).
Proof.
  unfold ipp_Encode. destruct (Nat.leb (length (ip_L R p)) (length (ip_R R p))).
  - apply wp_each, wp_write.
  - apply wp_seq; [apply wp_each, wp_write|apply wp_panic'].
Qed.
Lemma wp_pf p b : wp (pf_Encode R p b).
Proof. unfold pf_Encode. apply wp_seq; [apply wp_each, wp_write|]. destruct (pf_ip R p); [apply wp_ipp|apply wp_panic']. Qed.
Lemma wp_mlsag s b : wp (sig_Encode R s b).
Proof.
  unfold sig_Encode. repeat (apply wp_seq; [apply wp_write|]). destruct (u32 (Z.of_nat (length (sg_r R s))) <=? 0)%Z; [apply wp_ret'|].
  destruct (sg_r R s) as [|r0 rs]; [apply wp_panic'|]. apply wp_seq; [apply wp_write|]. apply wp_seq; [apply wp_each; intros x; apply wp_each, wp_write|].
  destruct b; cbn [negb]; [apply wp_each; intros x; apply wp_each, wp_write|apply wp_ret'].
Qed.
End Encoders.

(** ** Allocation *)
Lemma allocs_rbind {X Y} (p : rprog X) (f : X -> rprog Y) r : allocs (rbind p f) r = allocs p r ++ allocs (f (fst (exec p r))) (snd (exec p r)).
Proof. unfold allocs, exec. rewrite run_rbind. destruct (run p r) as [[x r1] al]. cbn [fst snd]. destruct (run (f x) r1) as [[y r2] al']. reflexivity. Qed.
Lemma allocs_RAlloc {X} n (k : rprog X) r : allocs (RAlloc n k) r = n :: allocs k r.
Proof. unfold allocs. cbn. destruct (run k r) as [[x r'] al]. reflexivity. Qed.
Lemma allocs_RRead {X} n (k : res bytes -> rprog X) r : allocs (RRead n k) r = allocs (k (fst (read_full n r))) (snd (read_full n r)).
Proof. unfold allocs. cbn. destruct (read_full n r). reflexivity. Qed.
(** programs without make *)
Fixpoint thrifty {X} (p : rprog X) : Prop :=
  match p with RRet _ => True | RRead n k => forall b, thrifty (k b) | RAll k => forall b, thrifty (k b) | RAlloc _ _ => False end.
Lemma thrifty_allocs {X} (p : rprog X) : thrifty p -> forall r, allocs p r = [].
Proof.
  induction p as [x|n k IH|k IH|n k IH]; cbn [thrifty]; intros T r; [reflexivity| | |contradiction].
  - rewrite allocs_RRead. apply IH, T.
  - unfold allocs in *. cbn. destruct (read_all r) as [b r']. apply IH, T.
Qed.
Lemma thrifty_rbind {A B} (p : rprog (res A)) (f : A -> rprog (res B)) : thrifty p -> (forall a, thrifty (f a)) -> thrifty (let? x := p in f x).
Proof. induction p as [x|n k IH|k IH|n k IH]; cbn [thrifty rbind]; intros C H; auto. destruct x; cbn [thrifty]; auto. Qed.
Lemma thrifty_r_for {S} (body : nat -> S -> rprog (res S)) n : (forall i s, thrifty (body i s)) -> forall lo st, thrifty (r_for lo n body st).
Proof. intros H. induction n as [|n IH]; intros lo st; cbn [r_for]; [exact I|]. apply (thrifty_rbind (body lo st) (fun st' => r_for (1 + lo) n body st')); auto. Qed.
Lemma r_u32_thrifty : thrifty r_u32. Proof. cbn. intros [b|e|]; exact I. Qed.
Lemma get_u32_range b : (0 <= get_u32 b < 2 ^ 32)%Z.
Proof.
  unfold get_u32. destruct b as [|a [|b [|c [|d r]]]]; try (split; [lia|reflexivity]).
  assert (K : forall x, (0 <= byte_Z x < 256)%Z) by (intros x; destruct x; split; reflexivity || (intros Q; discriminate Q)).
  pose proof (K a). pose proof (K b). pose proof (K c). pose proof (K d). change (2 ^ 24)%Z with 16777216%Z. change (2 ^ 16)%Z with 65536%Z. change (2 ^ 8)%Z with 256%Z. change (2 ^ 32)%Z with 4294967296%Z. lia.
Qed.
Lemma r_u32_range r n : fst (exec r_u32 r) = Ok n -> (0 <= n < 2 ^ 32)%Z.
Proof.
  unfold r_u32. rewrite exec_rbind. destruct (exec (r_bytes 4) r) as [[b|e|] r']; cbn; try discriminate. intros E. injection E as <-. apply get_u32_range.
Qed.
(** a loop whose first step fails *)
Lemma r_for_fails {S} (body : nat -> S -> rprog (res S)) n lo st r e : n <> 0 -> fst (exec (body lo st) r) = Err e -> fst (exec (r_for lo n body st) r) = Err e.
Proof. intros N E. destruct n as [|n]; [contradiction|]. cbn [r_for]. rewrite exec_rbind. destruct (exec (body lo st) r) as [x r']. cbn in E. subst x. reflexivity. Qed.

Section Alloc.
Context (R : rist).
Lemma com_Decode_thrifty c : thrifty (com_Decode R c).
Proof. cbn. intros [b|e|]; cbn; try exact I. destruct (pset R b); exact I. Qed.
Lemma pk_Decode_thrifty p n : thrifty (pk_Decode R p n).
Proof. apply thrifty_r_for. intros _ s. refine (thrifty_rbind (r_bytes 32) (fun x => _) _ _); [cbn; auto|]. intros b. destruct (pset R b); exact I. Qed.
Lemma rsp_Decode_thrifty p n : thrifty (rsp_Decode R p n).
Proof. apply thrifty_r_for. intros _ s. refine (thrifty_rbind (r_bytes 32) (fun x => _) _ _); [cbn; auto|]. intros b. exact I. Qed.
(** the length prefix alone decides what is allocated *)
Lemma coms_allocs r n rest : (0 <= n < 2 ^ 32)%Z -> fault_free r -> rbytes r = put_u32 n ++ rest -> allocs (DecodeCommitments R) r = [n].
Proof.
  intros Hn F E. unfold DecodeCommitments. rewrite allocs_rbind, (thrifty_allocs _ r_u32_thrifty). destruct (reads_u32 n r rest F E) as [r' [X _]]. rewrite X. cbn [fst snd app].
  rewrite allocs_RAlloc, Z.mod_small by exact Hn. f_equal. apply thrifty_allocs, thrifty_r_for. intros _ s. refine (thrifty_rbind (com_Decode R (com_zero R)) (fun c => _) (com_Decode_thrifty _) _). intros c. exact I.
Qed.
Lemma coms_short n : (0 < n < 2 ^ 32)%Z -> exists e, fst (exec (DecodeCommitments R) [RChunk (put_u32 n)]) = Err e.
Proof.
  intros Hn. unfold DecodeCommitments. rewrite exec_rbind. assert (FF : fault_free [RChunk (put_u32 n)]) by (intros e [X|[]]; discriminate).
  destruct (reads_u32 n [RChunk (put_u32 n)] [] FF eq_refl) as [r' [X [B F]]]. rewrite X, Z.mod_small, exec_RAlloc by lia.
  destruct (r_bytes_short 32 r' F) as [e Ee]; [rewrite B; cbn; lia|]. exists e. apply r_for_fails; [lia|]. unfold com_Decode. rewrite !exec_rbind, Ee. reflexivity.
Qed.
Lemma coms_bounded r : Forall (fun n => (0 <= n < 2 ^ 32)%Z) (allocs (DecodeCommitments R) r).
Proof.
  unfold DecodeCommitments. rewrite allocs_rbind, (thrifty_allocs _ r_u32_thrifty). cbn [app]. pose proof (r_u32_range r) as K. destruct (exec r_u32 r) as [[n|e|] r']; cbn [fst snd]; [|constructor|constructor].
  rewrite allocs_RAlloc. constructor; [apply K; reflexivity|]. rewrite thrifty_allocs; [constructor|]. apply thrifty_r_for. intros _ s. refine (thrifty_rbind (com_Decode R (com_zero R)) (fun c => _) (com_Decode_thrifty _) _). intros c. exact I.
Qed.
Lemma pf_allocs p r n rest : (0 <= n < 2 ^ 32)%Z -> fault_free r -> rbytes r = put_u32 n ++ rest -> exists al, allocs (pf_Decode R p true) r = n :: al.
Proof.
  intros Hn F E. unfold pf_Decode. rewrite allocs_rbind, (coms_allocs r n rest Hn F E). eexists. reflexivity.
Qed.
(** MLSAG: the headers decide *)
Lemma mlsag_header s b r c n k rest : length c = 32 -> (0 <= n < 2 ^ 32)%Z -> (0 <= k < 2 ^ 32)%Z -> fault_free r -> rbytes r = c ++ put_u32 n ++ put_u32 k ++ rest ->
  exists r', rbytes r' = rest /\ fault_free r' /\ exists al, allocs (sig_Decode R s b) r = n :: al /\
    ((0 < n)%Z -> (0 < k)%Z -> length rest < 32 -> al = [] /\ exists e, fst (exec (sig_Decode R s b) r) = Err e).
Proof.
  intros Lc Hn Hk F E. destruct (reads_bytes 32 c Lc r _ F E) as [r1 [X1 [B1 F1]]]. destruct (reads_u32 n r1 _ F1 B1) as [r2 [X2 [B2 F2]]]. destruct (reads_u32 k r2 _ F2 B2) as [r3 [X3 [B3 F3]]].
  rewrite Z.mod_small in X2, X3 by lia. exists r3. split; [exact B3|]. split; [exact F3|].
  unfold sig_Decode. rewrite allocs_rbind, (thrifty_allocs (r_bytes 32)) by (cbn; auto). rewrite X1. cbn [fst snd app]. rewrite allocs_rbind, (thrifty_allocs _ r_u32_thrifty), X2. cbn [fst snd app].
  rewrite allocs_rbind, (thrifty_allocs _ r_u32_thrifty), X3. cbn [fst snd app]. rewrite allocs_RAlloc. eexists. split; [reflexivity|].
  intros Pn Pk L. destruct (r_bytes_short 32 r3 F3) as [e Ee]; [rewrite B3; exact L|].
  assert (Z : fst (exec (r_for 0 (Z.to_nat n) (fun _ rows => let? a := rsp_Decode R [] k in rret (rows ++ [a])) ([] : list (list Fld.F))) r3) = Err e).
  { apply r_for_fails; [lia|]. rewrite exec_rbind. assert (Q : fst (exec (rsp_Decode R [] k) r3) = Err e) by (unfold rsp_Decode; apply r_for_fails; [lia|rewrite exec_rbind, Ee; reflexivity]).
    destruct (exec (rsp_Decode R [] k) r3) as [x q]. cbn in Q. subst x. reflexivity. }
  split.
  - rewrite allocs_rbind, Z, thrifty_allocs; [reflexivity|]. apply thrifty_r_for. intros _ rows. refine (thrifty_rbind (rsp_Decode R [] k) (fun a => _) (rsp_Decode_thrifty _ _) _). intros a. exact I.
  - exists e. rewrite exec_rbind, X1, exec_rbind, X2, exec_rbind, X3, exec_RAlloc, exec_rbind. destruct (exec (r_for 0 (Z.to_nat n) _ _) r3) as [x q]. cbn in Z. subst x. reflexivity.
Qed.
(** a header without responses: success with n empty rows *)
Lemma r_for_rows {S} (p : rprog (res S)) x r : exec p r = (Ok x, r) -> forall n lo st, exec (r_for lo n (fun _ rows => let? a := p in rret (rows ++ [a])) st) r = (Ok (st ++ repeat x n), r).
Proof.
  intros E. induction n as [|n IH]; intros lo st; cbn [r_for repeat]; [rewrite app_nil_r; reflexivity|].
  rewrite exec_rbind, exec_rbind, E. unfold rret at 1. rewrite exec_RRet. rewrite IH, <- app_assoc. reflexivity.
Qed.
Lemma mlsag_rows s b r c n rest : length c = 32 -> (0 <= n < 2 ^ 32)%Z -> fault_free r -> rbytes r = c ++ put_u32 n ++ put_u32 0 ++ rest ->
  exists r', exec (sig_Decode R s b) r = (Ok (mkSig R (sset R c) (repeat [] (Z.to_nat n)) (if b then repeat (mkPK R false []) (Z.to_nat n) else sg_pub R s) (sg_msg R s)), r') /\
    allocs (sig_Decode R s b) r = if b then [n; n] else [n].
Proof.
  intros Lc Hn F E. destruct (reads_bytes 32 c Lc r _ F E) as [r1 [X1 [B1 F1]]]. destruct (reads_u32 n r1 _ F1 B1) as [r2 [X2 [B2 F2]]]. destruct (reads_u32 0 r2 _ F2 B2) as [r3 [X3 [B3 F3]]].
  rewrite Z.mod_small in X2 by lia. change (0 mod 2 ^ 32)%Z with 0%Z in X3. exists r3. unfold sig_Decode. split.
  - rewrite exec_rbind, X1, exec_rbind, X2, exec_rbind, X3, exec_RAlloc, exec_rbind, (r_for_rows (rsp_Decode R [] 0) [] r3 eq_refl). destruct b; cbn [negb app].
    + rewrite exec_RAlloc, exec_rbind, (r_for_rows (pk_Decode R (mkPK R false []) 0) (mkPK R false []) r3 eq_refl). reflexivity.
    + reflexivity.
  - rewrite allocs_rbind, (thrifty_allocs (r_bytes 32)) by (cbn; auto). rewrite X1. cbn [fst snd app]. rewrite allocs_rbind, (thrifty_allocs _ r_u32_thrifty), X2. cbn [fst snd app].
    rewrite allocs_rbind, (thrifty_allocs _ r_u32_thrifty), X3. cbn [fst snd app]. rewrite allocs_RAlloc, allocs_rbind, (r_for_rows (rsp_Decode R [] 0) [] r3 eq_refl). cbn [fst snd app].
    rewrite thrifty_allocs; [|apply thrifty_r_for; intros _ rows; refine (thrifty_rbind (rsp_Decode R [] 0) (fun a => _) (rsp_Decode_thrifty _ _) _); intros a; exact I].
    destruct b; cbn [negb app]; [|reflexivity]. rewrite allocs_RAlloc, allocs_rbind, (r_for_rows (pk_Decode R (mkPK R false []) 0) (mkPK R false []) r3 eq_refl). cbn [fst snd].
    rewrite thrifty_allocs; [reflexivity|]. apply thrifty_r_for; intros _ rows; refine (thrifty_rbind (pk_Decode R _ 0) (fun a => _) (pk_Decode_thrifty _ _) _); intros a; exact I.
Qed.
(** inner product proofs: bounded by the input *)
Lemma ipp_allocs p r : fault_free r -> Forall (fun n => (0 <= 64 * n <= Z.of_nat (length (rbytes r)))%Z) (allocs (ipp_Decode R p) r).
Proof.
  intros F. unfold ipp_Decode, r_bytes. cbn [rbind]. rewrite allocs_RRead.
  assert (K : forall r, fault_free r -> length (rbytes (snd (read_full 32 r))) <= length (rbytes r) /\ fault_free (snd (read_full 32 r))).
  { clear. intros r F. unfold read_full. pose proof (read_full_acc_spec r 32 [] F) as H. cbn zeta in H. destruct (32 <=? length (rbytes r)).
    - destruct H as [q [E [A Fq]]]. rewrite E. cbn [snd]. rewrite A, skipn_length. split; [lia|exact Fq].
    - rewrite H. cbn. split; [lia|intros e []]. }
  destruct (K r F) as [L1 F1]. destruct (read_full 32 r) as [[x|e|] r1]; cbn [rbind fst snd] in *; [|constructor|constructor].
  rewrite allocs_RRead. destruct (K r1 F1) as [L2 F2]. destruct (read_full 32 r1) as [[y|e|] r2]; cbn [rbind fst snd] in *; [|constructor|constructor].
  unfold allocs. cbn [run]. rewrite (read_all_ok r2 F2). destruct (negb _); cbn [run snd]; [constructor|]. destruct (lr_decode R _ _). cbn [run snd].
  assert (B : (0 <= 64 * u32 (Z.of_nat (length (rbytes r2) / 64)) <= Z.of_nat (length (rbytes r)))%Z).
  { unfold u32. pose proof (Z.mod_pos_bound (Z.of_nat (length (rbytes r2) / 64)) (2 ^ 32) eq_refl). pose proof (Z.mod_le (Z.of_nat (length (rbytes r2) / 64)) (2 ^ 32) (Nat2Z.is_nonneg _) eq_refl).
    pose proof (Nat.mul_div_le (length (rbytes r2)) 64). lia. }
  repeat (apply Forall_cons; [exact B|]). constructor.
Qed.
End Alloc.
