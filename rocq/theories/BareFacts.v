(** The loop of computeS that ends early: lemmas *)
From Coq Require Import String ZArith List Lia Bool Arith.
From Coq Require Import Init.Byte.
From Verif Require Import GoModel GoFacts Fld Rist RistFacts SpecVector SpecIPP SpecRange VectorModel VectorFacts PedersenModel PedersenFacts SpecPedersen
  InnerProductModel InnerProductFacts IPPVerifyFacts GlobModel GlobFacts RangeProofModel SpecHonest RangeFacts RangeRun RangeProps RangeProveFacts LostFacts SpecBare.
Import ListNotations.
Local Open Scope nat_scope.

Lemma bare_low n m rs i : i < m + 1 + 2 * (64 * n) -> bare n m rs i = rs i.
Proof. intros L. unfold bare. destruct (Nat.leb_spec (m + 1 + 2 * (64 * n)) i); [lia|reflexivity]. Qed.
Lemma bare_high n m rs i : m + 1 + 2 * (64 * m) <= i -> bare n m rs i = rs i.
Proof. intros L. unfold bare. destruct (Nat.ltb_spec i (m + 1 + 2 * (64 * m))); [lia|]. rewrite andb_false_r. reflexivity. Qed.
Lemma bare_zero n m rs i : m + 1 + 2 * (64 * n) <= i < m + 1 + 2 * (64 * m) -> bare n m rs i = f0.
Proof. intros L. unfold bare. destruct (Nat.leb_spec (m + 1 + 2 * (64 * n)) i); [|lia]. destruct (Nat.ltb_spec i (m + 1 + 2 * (64 * m))); [reflexivity|lia]. Qed.

Lemma fill_part (f g f' g' : nat -> F) n m : n <= m -> (forall i, i < n -> f' i = f i /\ g' i = g i) -> (forall i, n <= i < m -> f' i = f0 /\ g' i = f0) ->
  for_loop 0 n (fun i '(sL, sR) => let! sL := set_idx sL i (f i) in let! sR := set_idx sR i (g i) in Ok (sL, sR)) (make_scalars m, make_scalars m)
  = Ok (map f' (seq 0 m), map g' (seq 0 m)).
Proof.
  intros L H1 H0.
  edestruct (for_loop_inv (fun k '(a, b) => length a = m /\ length b = m /\ (forall j, j < k -> nth_error a j = Some (f j) /\ nth_error b j = Some (g j)) /\
    (forall j, k <= j < m -> nth_error a j = Some f0 /\ nth_error b j = Some f0))) as [[a b] [E P]]; cycle 2.
  - rewrite E. destruct P as [L1 [L2 [P P0]]]. cbn [Nat.add] in P, P0. f_equal. f_equal; apply nth_error_ext; intros i;
      (destruct (Nat.lt_ge_cases i m) as [C|C];
       [rewrite nth_error_map_seq by exact C; destruct (Nat.lt_ge_cases i n) as [D|D];
        [destruct (H1 i D) as [Q1 Q2]; rewrite ?Q1, ?Q2; apply P; exact D|destruct (H0 i (conj D C)) as [Q1 Q2]; rewrite ?Q1, ?Q2; apply P0; lia]
       |rewrite (proj2 (nth_error_None _ _)) by lia; symmetry; apply nth_error_None; rewrite map_length, seq_length; exact C]).
  - split; [apply repeat_length|]. split; [apply repeat_length|]. split; [intros j Hj; lia|]. intros j Hj. split; apply nth_error_repeat; lia.
  - intros i [x y] Hi [L1 [L2 [P P0]]]. rewrite set_idx_ok by lia. cbn [bind]. rewrite set_idx_ok by lia. cbn [bind].
    eexists. split; [reflexivity|]. cbv beta iota. rewrite !upd_length. split; [exact L1|]. split; [exact L2|]. split.
    + intros j Hj. destruct (Nat.eq_dec j i) as [->|D]; [rewrite !upd_same by lia; auto|rewrite !upd_other by congruence; apply P; lia].
    + intros j Hj. rewrite !upd_other by lia. apply P0. lia.
Qed.

Lemma drawS_dip rs rs' n m : n < m -> (64 * Z.of_nat m < 2 ^ 32)%Z ->
  (forall i, i < 2 * (64 * n) -> rs' i = rs i) -> (forall i, 2 * (64 * n) <= i < 2 * (64 * m) -> rs' i = f0) ->
  dip (Z.of_nat n) (Z.of_nat m) (drawS rs) (Z.of_nat m)
    (Ok (map (fun i => rs' (2 * i)) (seq 0 (64 * m)), map (fun i => rs' (2 * i + 1)) (seq 0 (64 * m)))).
Proof.
  intros LN HM H1 H0. unfold drawS. ds. rewrite make_n_ok. cbv beta iota. ds. rewrite make_n_ok. cbv beta iota.
  apply (for_dip _ _ _ _ (fun i '(sL, sR) => let! sL := set_idx sL i (rs (2 * i)) in let! sR := set_idx sR i (rs (2 * i + 1)) in Ok (sL, sR))) with (cnt := 64 * n);
    [intros i [sL sR]; reflexivity|lia|intros j Hj; apply Z.ltb_lt; unfold rN; lia|apply Z.ltb_ge; unfold rN; lia|].
  apply (fill_part (fun i => rs (2 * i)) (fun i => rs (2 * i + 1))); [lia| |]; intros i Hi; split; (apply H1 || apply H0); lia.
Qed.

Section Bare.
Context {R : rist} (OK : rist_ok R).
Lemma prove_padded_bare v debug rs n : n < length v -> (64 * Z.of_nat (length v) < 2 ^ 32)%Z ->
  let m := Z.of_nat (length v) in
  dip (Z.of_nat n) m (prove_padded R v debug rs) m (fst (grun (prove_padded R v debug (bare n (length v) rs)) m)).
Proof.
  intros LN HM. cbv zeta. set (m := length v) in *. set (rs' := bare n m rs).
  pose proof (readonly_run (prove_padded R v debug rs') (Z.of_nat m) (prove_padded_readonly v debug rs')) as RO.
  destruct (grun (prove_padded R v debug rs') (Z.of_nat m)) as [X mm] eqn:E. cbn [fst snd] in *. subst mm.
  unfold prove_padded. ds. rewrite NM_eq by exact HM. rewrite ped_computed_the. cbv beta iota. ds.
  rewrite commit_loop_V. cbv beta iota. ds. rewrite bits_loop. cbv beta iota. ds.
  rewrite (CommitToVectors_the OK); [|rewrite allbits_length; fold m; lia|rewrite map_length, allbits_length; fold m; lia|lia].
  cbv beta iota. fold m.
  eapply dip_left; [|apply (drawS_dip (fun i => rs (m + 1 + i)) (fun i => rs' (m + 1 + i)) n m LN HM);
    [intros i Hi; apply bare_low; lia|intros i Hi; apply bare_zero; lia]].
  rewrite <- E. symmetry. unfold prove_padded. gs. rewrite NM_eq by exact HM. rewrite ped_computed_the. cbv beta iota. gs.
  rewrite commit_loop_V. cbv beta iota. gs. rewrite bits_loop. cbv beta iota. gs.
  rewrite (CommitToVectors_the OK); [|rewrite allbits_length; fold m; lia|rewrite map_length, allbits_length; fold m; lia|lia].
  cbv beta iota. fold m.
  replace (map rs' (seq 0 m)) with (map rs (seq 0 m)) by (apply map_ext_in; intros i Hi; apply in_seq in Hi; symmetry; apply bare_low; lia).
  replace (rs' m) with (rs m) by (symmetry; apply bare_low; lia).
  rewrite (run_bind (drawS_run (fun i => rs' (m + 1 + i)) m HM)). cbv beta iota.
  rewrite !map_length, !seq_length.
  replace (rs' (m + 1 + (64 * m + 64 * m))) with (rs (m + 1 + (64 * m + 64 * m))) by (symmetry; apply bare_high; lia).
  replace (rs' (m + 1 + (64 * m + 64 * m) + 1)) with (rs (m + 1 + (64 * m + 64 * m) + 1)) by (symmetry; apply bare_high; lia).
  replace (rs' (m + 1 + (64 * m + 64 * m) + 2)) with (rs (m + 1 + (64 * m + 64 * m) + 2)) by (symmetry; apply bare_high; lia).
  reflexivity.
Qed.
End Bare.
