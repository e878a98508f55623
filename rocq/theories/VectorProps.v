(** The lemmas behind P_Vector.v *)
From Coq Require Import String ZArith List Lia Bool Arith Field.
From Verif Require Import GoModel GoFacts Fld Rist RistFacts SpecVector VectorModel VectorFacts.
Import ListNotations.
Local Open Scope nat_scope.

Lemma zip_op_spec (f : list F -> list F -> res (list F)) (op : F -> F -> F) a b :
  (length a = length b -> f a b = Ok (zipw op a b)) -> (length a <> length b -> exists e, f a b = Err e) ->
  (length a = length b -> exists c, f a b = Ok c /\ length c = length a /\
     forall i x y, nth_error a i = Some x -> nth_error b i = Some y -> nth_error c i = Some (op x y)) /\
  (length a <> length b <-> exists e, f a b = Err e).
Proof.
  intros H1 H2. split.
  - intros L. exists (zipw op a b). split; [auto|]. split; [apply zipw_length; exact L|].
    intros i x y. apply zipw_nth.
  - split; [exact H2|]. intros [e E] L. rewrite H1 in E by exact L. discriminate.
Qed.
Lemma add_spec a b :
  (length a = length b -> exists c, Add a b = Ok c /\ length c = length a /\
     forall i x y, nth_error a i = Some x -> nth_error b i = Some y -> nth_error c i = Some (fadd x y)) /\
  (length a <> length b <-> exists e, Add a b = Err e).
Proof. apply zip_op_spec; [apply Add_ok|apply Add_err]. Qed.
Lemma sub_spec a b :
  (length a = length b -> exists c, Sub a b = Ok c /\ length c = length a /\
     forall i x y, nth_error a i = Some x -> nth_error b i = Some y -> nth_error c i = Some (fsub x y)) /\
  (length a <> length b <-> exists e, Sub a b = Err e).
Proof. apply zip_op_spec; [apply Sub_ok|apply Sub_err]. Qed.
Lemma hadamard_spec a b :
  (length a = length b -> exists c, Hadamard a b = Ok c /\ length c = length a /\
     forall i x y, nth_error a i = Some x -> nth_error b i = Some y -> nth_error c i = Some (fmul x y)) /\
  (length a <> length b <-> exists e, Hadamard a b = Err e).
Proof. apply zip_op_spec; [apply Hadamard_ok|apply Hadamard_err]. Qed.
Lemma scalar_ops_spec a b :
  AddScalar a b = Ok (map (fun x => fadd x b) a) /\
  SubScalar a b = Ok (map (fun x => fsub x b) a) /\
  MulScalar a b = Ok (map (fun x => fmul x b) a) /\
  Neg a = Ok (map fneg a) /\
  (forall n, FromScalar b n = Ok (repeat b n)).
Proof.
  repeat split; [apply AddScalar_ok|apply SubScalar_ok|apply MulScalar_ok|apply Neg_ok|apply FromScalar_ok].
Qed.
Lemma inner_product_spec a b :
  (length a = length b -> InnerProduct a b = Ok (dot a b)) /\
  (length a <> length b <-> exists e, InnerProduct a b = Err e).
Proof.
  split; [apply InnerProduct_ok|]. split; [apply InnerProduct_err|].
  intros [e E] L. rewrite InnerProduct_ok in E by exact L. discriminate.
Qed.

Section Exp.
Context (R : rist) (OK : rist_ok R).
Lemma exp_spec a b N M :
  (- 2 ^ 63 <= N * M < 2 ^ 63)%Z ->
  (length a = length b /\ (N * M <= Z.of_nat (length a))%Z -> Exp R a b N M = Ok (msm R a b)) /\
  (length a <> length b \/ (Z.of_nat (length a) < N * M)%Z <-> exists e, Exp R a b N M = Err e).
Proof.
  intros H. split; [|split].
  - intros [L S]. apply (Exp_ok OK); [exact L|]. rewrite i64_small by exact H. exact S.
  - intros C. apply Exp_err. rewrite i64_small by exact H. exact C.
  - intros [e E]. destruct (Nat.eq_dec (length a) (length b)) as [L|L]; [right|left; exact L].
    destruct (Z.le_gt_cases (N * M) (Z.of_nat (length a))) as [S|S]; [|lia].
    rewrite (Exp_ok OK) in E; [discriminate|exact L|]. rewrite i64_small by exact H. exact S.
Qed.
Lemma exp_inv a b N M p : Exp R a b N M = Ok p ->
  length a = length b /\ (i64 (N * M) <= Z.of_nat (length a))%Z /\ p = msm R a b.
Proof.
  intros H. destruct (Nat.eq_dec (length a) (length b)) as [L|L].
  - destruct (Z.le_gt_cases (i64 (N * M)) (Z.of_nat (length a))) as [S|S].
    + rewrite (Exp_ok OK) in H by assumption. injection H as <-. auto.
    + destruct (Exp_err (R := R) a b N M) as [e E]; [right; lia|]. congruence.
  - destruct (Exp_err (R := R) a b N M) as [e E]; [left; exact L|]. congruence.
Qed.
Lemma exp_linear a a' b N M p p' c :
  Exp R a b N M = Ok p -> Exp R a' b N M = Ok p' ->
  Exp R (vadd (vscale c a) a') b N M = Ok (padd R (smul R c p) p').
Proof.
  intros H1 H2. apply exp_inv in H1. apply exp_inv in H2.
  destruct H1 as [L1 [S1 ->]]. destruct H2 as [L2 [S2 ->]].
  assert (L : length (vscale c a) = length a') by (rewrite vscale_length; lia).
  rewrite (Exp_ok OK); rewrite ?vadd_length, ?vscale_length by exact L; try lia.
  rewrite (msm_vadd OK) by exact L. rewrite (msm_vscale OK). reflexivity.
Qed.
Lemma exp_linear_points a b b' N M p p' c :
  Exp R a b N M = Ok p -> Exp R a b' N M = Ok p' ->
  Exp R a (pvadd R (pscale R c b) b') N M = Ok (padd R (smul R c p) p').
Proof.
  intros H1 H2. apply exp_inv in H1. apply exp_inv in H2.
  destruct H1 as [L1 [S1 ->]]. destruct H2 as [L2 [S2 ->]].
  assert (L : length (pscale R c b) = length b') by (unfold pscale; rewrite map_length; lia).
  rewrite (Exp_ok OK); unfold pvadd; rewrite ?zipw_length by exact L; unfold pscale; rewrite ?map_length; try lia.
  change (zipw (padd R) (map (smul R c) b) b') with (pvadd R (pscale R c b) b').
  rewrite (msm_pvadd OK) by exact L. rewrite (msm_pscale OK). reflexivity.
Qed.
End Exp.

Lemma powers_refuted : ~ (forall a n, ScalarPowers a n = Ok (powers a n)).
Proof.
  intros H. specialize (H f0 1). rewrite ScalarPowers_0 in H. unfold powers in H. cbn in H.
  apply (f_equal (fun r => match r with Ok (x :: _) => x | _ => f0 end)) in H.
  apply f1_neq_f0. symmetry. exact H.
Qed.
Lemma powers_disagree a n l s : ScalarPowers a n = Ok l -> ScalarPowersSum a n = Ok s ->
  (fsum l <> s <-> a = f0 /\ 0 < n).
Proof.
  rewrite ScalarPowersSum_ok. intros H1 H2. injection H2 as <-.
  destruct (F_eq_dec a f0) as [->|Ha].
  - rewrite ScalarPowers_0 in H1. injection H1 as <-. rewrite fsum_zero. destruct n as [|n].
    + split; [intros H; exfalso; apply H; reflexivity|intros [_ H]; lia].
    + rewrite powers_sum_0. split; [split; [reflexivity|lia]|].
      intros _ H. apply f1_neq_f0. symmetry. exact H.
  - rewrite ScalarPowers_ok in H1 by exact Ha. injection H1 as <-. split; [|intros [H _]; contradiction].
    intros H. exfalso. apply H. reflexivity.
Qed.
Lemma powers_sum_geometric a n s : ScalarPowersSum a n = Ok s -> fmul (fsub a f1) s = fsub (fpow a n) f1.
Proof.
  rewrite ScalarPowersSum_ok. intros H. injection H as <-. induction n as [|n IH].
  - cbn. ring.
  - rewrite powers_snoc, fsum_app. cbn [fsum fold_right fpow].
    replace (fmul (fsub a f1) (fadd (fsum (powers a n)) (fadd (fpow a n) f0)))
      with (fadd (fmul (fsub a f1) (fsum (powers a n))) (fmul (fsub a f1) (fpow a n))) by ring.
    rewrite IH. ring.
Qed.

Lemma split_spec {A} (x : list A) n : (Z.of_nat (length x) < 2 ^ 32)%Z -> (0 <= n < 2 ^ 32)%Z ->
  ((x <> [] /\ (n < Z.of_nat (length x))%Z) ->
    exists a b, Split x n = Ok (a, b) /\ a ++ b = x /\ Z.of_nat (length a) = n) /\
  (x = [] \/ (Z.of_nat (length x) <= n)%Z <-> exists e, Split x n = Err e).
Proof.
  intros Hx Hn. assert (U : u32 (Z.of_nat (length x)) = Z.of_nat (length x)).
  { unfold u32. apply Z.mod_small. lia. }
  split; [|split].
  - intros [H1 H2]. apply Split_ok. rewrite U. lia.
  - intros H. apply Split_err. rewrite U. exact H.
  - intros [e E]. destruct x as [|x0 x]; [left; reflexivity|right].
    destruct (Z.le_gt_cases (Z.of_nat (length (x0 :: x))) n) as [C|C]; [exact C|].
    destruct (Split_ok (x0 :: x) n) as [a [b [S _]]]; [rewrite U; lia|]. congruence.
Qed.
Lemma split_refuted :
  ~ (forall (x : list unit) n, (0 <= n < Z.of_nat (length x))%Z -> exists p, Split x n = Ok p).
Proof.
  intros H. destruct (H (repeat tt (Z.to_nat (2 ^ 32))) 1%Z) as [p E].
  - rewrite repeat_length. rewrite Z2Nat.id; lia.
  - destruct (Split_err (repeat tt (Z.to_nat (2 ^ 32))) 1%Z) as [e E'].
    + right. rewrite repeat_length, Z2Nat.id by lia. vm_compute. discriminate.
    + congruence.
Qed.
