(** C114: one signature of each member signs every message for every group *)
From Coq Require Import String ZArith List Lia Bool Arith Znumtheory.
From Coq Require Import Init.Byte.
From Verif Require Import GoModel Bn BnInst BlsModel SpecBls BlsFacts BlsOps BlsProps RogueFacts SpecSeen P_Bls.
Import ListNotations.
Local Open Scope Z_scope.
Local Notation pub B x := (mul2 B x (gen2 B)).

Lemma seen_valid B (OK : bn_ok B) m e : seen_ok (B := B) m e -> forall msg, valid (se_P e) msg (moved msg e).
Proof. intros (H1 & H2 & E & D) msg. unfold moved. eapply (forge_valid OK); [|exact D]. exact (proj1 (VerifyUnsafe_ok_iff OK m _ _ _ _ _ H1 H2) E). Qed.
Lemma group_valid B (OK : bn_ok B) m l msg : Forall (seen_ok (B := B) m) l -> valid (apk_of (map se_P l)) msg (group_sig msg l).
Proof.
  induction 1 as [|e l H F IH]; [apply (valid_0 OK)|].
  change (valid (add2 B (mul2 B (ht (se_P e)) (se_P e)) (apk_of (map se_P l))) msg (add1 B (mul1 B (ht (se_P e)) (moved msg e)) (group_sig msg l))).
  apply (valid_add OK); [|exact IH]. apply (valid_mul OK). exact (seen_valid B OK m e H msg).
Qed.

(** ** Groups.  Each member has signed one message, not necessarily the same: for every list of such
    members, with repetitions, and every message a signature that the aggregated key accepts is computed
    from what was seen. *)
Theorem C114_group B (OK : bn_ok B) m l msg : l <> [] -> Forall (seen_ok (B := B) m) l ->
  exists m', (do apk <- AggregateApk B (map se_pk l); do s <- UnmarshalSignature B (marshal1 B (group_sig msg l)); Verify B apk msg s) m = (Ok tt, m') /\ ext m m'.
Proof.
  intros N F. assert (FP : Forall2 (pk_is m) (map se_pk l) (map se_P l)).
  { clear N. induction F as [|e l H F IH]; constructor; [apply H|exact IH]. }
  pose proof (group_valid B OK m l msg F) as V. destruct l as [|e l]; [congruence|]. cbn [map] in *. inversion FP as [|? ? ? ? H1 H2]; subst.
  destruct (AggregateApk_ok OK m _ _ _ _ H1 H2) as [apk [ma [Ea [Xa Ia]]]]. rewrite (mbind_ok _ _ _ _ _ Ea).
  destruct (UnmarshalSignature_ok ma (marshal1 B (group_sig msg (e :: l))) (group_sig msg (e :: l))) as [s [mc [Ec [Xc Sc]]]].
  { rewrite <- (app_nil_r (marshal1 B _)). apply (sig_dec_marshal OK). }
  rewrite (mbind_ok _ _ _ _ _ Ec). exists mc. split; [|eapply ext_trans; eassumption].
  apply (proj2 (Verify_ok_iff OK mc apk _ msg s _ (apk_is_ext _ _ _ _ Xc Ia) Sc)). exact V.
Qed.
Print Assumptions C114_group.
(** the number needed exists unless the order divides the hash of the message *)
Theorem C114_inverse B (OK : bn_ok B) msg : (exists k, (ord B | k * hm (B := B) msg - 1)) <-> ~ (ord B | hm (B := B) msg).
Proof.
  split; [|apply (inverse_exists OK)]. intros [k D] H. assert (X : (ord B | 1)).
  { replace 1 with (k * hm (B := B) msg - (k * hm (B := B) msg - 1)) by ring. apply Z.divide_sub_r; [apply Z.divide_mul_r, H|exact D]. }
  apply Z.divide_1_r_nonneg in X; [|pose proof (prime_ge_2 _ (ord_prime B OK)); lia]. pose proof (prime_ge_2 _ (ord_prime B OK)). lia.
Qed.
Print Assumptions C114_inverse.

(** ** Batches of unsafe signatures on any distinct messages, likewise. *)
Theorem C114_batch B (OK : bn_ok B) m l msgs : msgs <> [] -> length msgs = length l -> Forall (seen_ok (B := B) m) l -> NoDup (map (sha3 B) msgs) ->
  forall u, usig_is m u (batch_sig msgs l) -> VerifyUnsafeBatch B (map se_pk l) msgs u m = (Ok tt, m).
Proof.
  intros N L F D u U. assert (FP : Forall2 (pk_is m) (map se_pk l) (map se_P l)).
  { clear N L U. induction F as [|e l H F IH]; constructor; [apply H|exact IH]. }
  destruct (VerifyUnsafeBatch_spec OK m _ _ msgs u _ FP U) as [r [E [[-> _]|[-> X]]]]; [rewrite map_length; lia|exact N|exact D|exact E|].
  exfalso. apply X. apply batch_valid_sum; [rewrite map_length, combine_length; lia|rewrite map_length; exact L|].
  intros i P msg T E1 E2 E3. rewrite nth_error_map in E1. destruct (nth_error l i) as [e|] eqn:El; [|discriminate]. cbn in E1. injection E1 as <-.
  rewrite nth_error_map in E3. destruct (nth_error (combine msgs l) i) as [[a e']|] eqn:Ec; [|discriminate]. cbn in E3. injection E3 as <-.
  assert (Q : nth_error (combine msgs l) i = Some (msg, e)).
  { clear - E2 El. revert l i E2 El. induction msgs as [|x xs IH]; intros [|y l] [|i] E2 El; try discriminate; cbn in *; [congruence|]. exact (IH _ _ E2 El). }
  rewrite Ec in Q. injection Q as -> ->. apply (seen_valid B OK m e). rewrite Forall_forall in F. apply F. eapply nth_error_In. exact El.
Qed.
Print Assumptions C114_batch.

(** ** Groups that overlap.  From the signatures of a group and of a part of it on one message, one for the
    rest of the group: no number theory is needed. *)
Theorem C114_rest B (OK : bn_ok B) Ps Qs msg m a b s t S T m' c u : 
  apk_is m a (apk_of (Ps ++ Qs)) -> sig_is m s S -> Verify B a msg s m = (Ok tt, m) ->
  apk_is m b (apk_of Ps) -> sig_is m t T -> Verify B b msg t m = (Ok tt, m) ->
  apk_is m' c (apk_of Qs) -> sig_is m' u (add1 B S (mul1 B (ord B - 1) T)) -> Verify B c msg u m' = (Ok tt, m').
Proof.
  intros A1 S1 E1 A2 S2 E2 A3 S3. apply (Verify_ok_iff OK _ _ _ _ _ _ A3 S3). apply (Verify_ok_iff OK _ _ _ _ _ _ A1 S1) in E1. apply (Verify_ok_iff OK _ _ _ _ _ _ A2 S2) in E2.
  rewrite (apk_app OK) in E1. destruct (cyc2 B OK (apk_of Ps)) as [x X], (cyc2 B OK (apk_of Qs)) as [y Y], (cyc1 B OK S) as [v ->], (cyc1 B OK T) as [w ->].
  rewrite X, Y in *. rewrite (add2_gen B OK), (valid_exp OK) in E1. rewrite (valid_exp OK) in E2. rewrite (mul1_gen B OK), (add1_gen B OK), (valid_exp OK).
  set (h := hm (B := B) msg) in *. replace (h * y - (v + (ord B - 1) * w)) with ((h * (x + y) - v) - (h * x - w) - w * ord B) by ring.
  apply Z.divide_sub_r; [apply Z.divide_sub_r; assumption|]. apply Z.divide_factor_r.
Qed.
Print Assumptions C114_rest.

(** the key 2 has signed a (hash 99, inverse 4 modulo 5) and the key 3 has signed ab (hash 197, inverse 3) *)
Definition ex_m2 : mem B5 := snd ((do _ <- UnsafeSign B5 2 [x61]; UnsafeSign B5 3 ex_msg) ex_m).
Definition ex_a : seen B5 := mkSeen [x61] (ex_k 0) (pub B5 2) (Some 0%nat) (usig_of (B := B5) 2 [x61]) 4.
Definition ex_b : seen B5 := mkSeen ex_msg (ex_k 1) (pub B5 3) (Some 1%nat) (usig_of (B := B5) 3 ex_msg) 3.
Lemma ex_seen : Forall (seen_ok ex_m2) [ex_a; ex_b].
Proof.
  assert (K : forall e, pk_is ex_m2 (se_pk e) (se_P e) -> usig_is ex_m2 (se_u e) (se_U e) -> valid (se_P e) (se_msg e) (se_U e) ->
    (ord B5 | se_k e * hm (B := B5) (se_msg e) - 1) -> seen_ok ex_m2 e).
  { intros e H1 H2 V D. split; [exact H1|]. split; [exact H2|]. split; [|exact D]. exact (proj2 (VerifyUnsafe_ok_iff B5_ok _ _ _ _ _ _ H1 H2) V). }
  constructor; [|constructor; [|constructor]]; apply K.
  - exists 0%nat, 0%nat. vm_compute. repeat split.
  - exists 0%nat, 0%nat. vm_compute. repeat split.
  - apply (usig_valid B5_ok).
  - exists 79. vm_compute. reflexivity.
  - exists 1%nat, 1%nat. vm_compute. repeat split.
  - exists 1%nat, 1%nat. vm_compute. repeat split.
  - apply (usig_valid B5_ok).
  - exists 118. vm_compute. reflexivity.
Qed.
(** the group of 2, 3 and 3 again signs x *)
Example C114_ex_group : result (do apk <- AggregateApk B5 [ex_k 0; ex_k 1; ex_k 1]; do s <- UnmarshalSignature B5 (marshal1 B5 (group_sig [x78] [ex_a; ex_b; ex_b])); Verify B5 apk [x78] s) ex_m2 = Ok tt /\
  result (do apk <- AggregateApk B5 [ex_k 0; ex_k 1; ex_k 1]; do s <- UnmarshalSignature B5 (marshal1 B5 (group_sig [x78] [ex_a; ex_b])); Verify B5 apk [x78] s) ex_m2 = Err "bls apk: Invalid Signature.".
Proof. split; vm_compute; reflexivity. Qed.
(** a batch on the messages x and y *)
Definition ex_m3 : mem B5 := snd ((do _ <- newusig B5 None; usig_Unmarshal B5 (Some 2%nat) (marshal1 B5 (batch_sig [[x78]; [x79]] [ex_b; ex_a]))) ex_m2).
Example C114_ex_batch : usig_is ex_m3 (Some 2%nat) (batch_sig [[x78]; [x79]] [ex_b; ex_a]) /\ NoDup (map (sha3 B5) [[x78]; [x79]]) /\
  result (VerifyUnsafeBatch B5 [ex_k 1; ex_k 0] [[x78]; [x79]] (Some 2%nat)) ex_m3 = Ok tt.
Proof.
  split; [exists 2%nat, 2%nat; vm_compute; repeat split|]. split; [|vm_compute; reflexivity].
  constructor; [|constructor; [intros []|constructor]]. intros [E|[]]. vm_compute in E. discriminate.
Qed.
(** the signature of 2 and 3 on ab, less that of 2, is one of 3 *)
Definition ex_m4 : mem B5 := snd ((do _ <- AggregateApk B5 [ex_k 0; ex_k 1]; do _ <- NewApk B5 (ex_k 0); do _ <- NewApk B5 (ex_k 1);
  do s <- Sign B5 2 (ex_k 0) ex_msg; do t <- Sign B5 3 (ex_k 1) ex_msg; do _ <- sig_Aggregate B5 s t; Sign B5 2 (ex_k 0) ex_msg) ex_m).
Example C114_ex_rest : let S := add1 B5 (sig_of (B := B5) 2 (pub B5 2) ex_msg) (sig_of (B := B5) 3 (pub B5 3) ex_msg) in let T := sig_of (B := B5) 2 (pub B5 2) ex_msg in
  (apk_is ex_m4 (Some 0%nat) (apk_of ([pub B5 2] ++ [pub B5 3])) /\ sig_is ex_m4 (Some 0%nat) S /\ result (Verify B5 (Some 0%nat) ex_msg (Some 0%nat)) ex_m4 = Ok tt) /\
  (apk_is ex_m4 (Some 1%nat) (apk_of [pub B5 2]) /\ sig_is ex_m4 (Some 2%nat) T /\ result (Verify B5 (Some 1%nat) ex_msg (Some 2%nat)) ex_m4 = Ok tt) /\
  apk_is ex_m4 (Some 2%nat) (apk_of [pub B5 3]) /\
  result (do s <- UnmarshalSignature B5 (marshal1 B5 (add1 B5 S (mul1 B5 (ord B5 - 1) T))); Verify B5 (Some 2%nat) ex_msg s) ex_m4 = Ok tt.
Proof.
  cbv zeta. split; [|split; [|split]].
  - split; [|split; [|vm_compute; reflexivity]].
    + exists 0%nat, (Some 3%nat). split; [reflexivity|]. split; [vm_compute; reflexivity|]. exists 3%nat, 3%nat. split; [reflexivity|]. split; vm_compute; reflexivity.
    + exists 0%nat, 1%nat. split; [reflexivity|]. split; vm_compute; reflexivity.
  - split; [|split; [|vm_compute; reflexivity]].
    + exists 1%nat, (Some 4%nat). split; [reflexivity|]. split; [vm_compute; reflexivity|]. exists 4%nat, 5%nat. split; [reflexivity|]. split; vm_compute; reflexivity.
    + exists 2%nat, 5%nat. split; [reflexivity|]. split; vm_compute; reflexivity.
  - exists 2%nat, (Some 5%nat). split; [reflexivity|]. split; [vm_compute; reflexivity|]. exists 5%nat, 6%nat. split; [reflexivity|]. split; vm_compute; reflexivity.
  - vm_compute. reflexivity.
Qed.
