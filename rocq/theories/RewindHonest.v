(** A prover who answers all challenges *)
From Coq Require Import String ZArith List Lia Bool Arith Field.
From Verif Require Import GoModel Fld Rist RistFacts SpecVector VectorFacts SpecPedersen PedersenFacts InnerProductFacts IPPVerifyFacts SpecIPP SpecRange RangeFacts RangeRun
  SpecSound Poly IPSound RangeSound SoundPoints SpecOrder SoundOrder SpecRewind RewindIP RewindRange.
Import ListNotations.
Local Open Scope nat_scope.

Definition smap {X Y} (f : X -> Y) (e : script X) : script Y :=
  mkScript (fun j => f (s_V e j)) (f (s_A e)) (f (s_S e)) (fun y z => f (s_T1 e y z)) (fun y z => f (s_T2 e y z))
    (fun y z x w us => f (s_L e y z x w us)) (fun y z x w us => f (s_R e y z x w us)).

(** coefficients that satisfy the equations give points that do *)
Theorem gaps_accept R (OK : rist_ok R) m e an y z x w us : 2 ^ length us = 64 * m ->
  vanishes (64 * m) (ip_gap m e an y z x w us) -> vanishes (64 * m) (poly_gap m e an y z x) ->
  accepts R m (smap (reval R (64 * m)) e) an y z x w us.
Proof.
  intros HK H1 H2. apply (reval_vanishes OK) in H1, H2. split.
  - unfold ip_holds. cbv zeta. rewrite (leaf_points OK) by exact HK. rewrite (P_points OK). cbn [smap s_A s_S s_L s_R].
    unfold ip_gap, ip_rep in H1. fold (leaf_rep m us (an_a an y z x w us) (an_b an y z x w us) y w) in H1.
    rewrite (reval_add OK), (reval_scale OK), (reval_add OK), (P_rep_split OK m (s_A e)), <- (reval_lr OK), !rounds_map in H1.
    set (a := reval R (64 * m) (leaf_rep m us _ _ y w)) in *. set (b := lr_sum R us _ _) in *.
    set (c := reval R (64 * m) (P_rep m rzero rzero x y z w _ _)) in *. set (d := reval R (64 * m) (s_A e)) in *. set (f := reval R (64 * m) (s_S e)) in *.
    apply (padd_cancel_l OK) with (p := smul R (fneg f1) (padd R (padd R (padd R d (smul R x f)) c) b)).
    transitivity (pt0 R); [rewrite <- H1; lin OK|lin OK].
  - unfold poly_holds. cbn [smap s_V s_T1 s_T2]. unfold poly_gap in H2.
    rewrite <- (E2_rep OK (64 * m) m (map (fun j => reval R (64 * m) (s_V e j)) (seq 0 m)) (s_V e)) in H2
      by (apply firstn_all2; rewrite map_length, seq_length; lia).
    set (a := rp_poly_lhs R _ _) in *. set (b := rp_poly_rhs R _ _ _ _ _ _ _) in *.
    apply (padd_cancel_l OK) with (p := smul R (fneg f1) b). transitivity (pt0 R); [rewrite <- H2; lin OK|lin OK].
Qed.

(** ** The rounds *)
Section Rounds.
Context (w y : F) (Ny : y <> f0).
Definition nL (pre : list F) (d : nat) (v : rep) : rep := round_L pre (2 ^ (d - 1)) w y (lof pre v) (rof pre y v).
Definition nR (pre : list F) (d : nat) (v : rep) : rep := round_R pre (2 ^ (d - 1)) w y (lof pre v) (rof pre y v).
Fixpoint node (v : rep) (d : nat) (pre us : list F) : rep :=
  match us with [] => v | u :: us' => node (lr_step v (nL pre d v) (nR pre d v) u) (d - 1) (pre ++ [u]) us' end.
Lemma node_ok us : forall v d pre, length us <= d -> Forall (fun u => u <> f0) pre -> Forall (fun u => u <> f0) us ->
  good pre (2 ^ d) w y v -> good (pre ++ us) (2 ^ (d - length us)) w y (node v d pre us).
Proof.
  induction us as [|u us IH]; intros v d pre HL NP NU G; cbn [node length] in *.
  - rewrite app_nil_r, Nat.sub_0_r. exact G.
  - inversion NU as [|? ? Nu NU']; subst. replace (pre ++ u :: us) with ((pre ++ [u]) ++ us) by (rewrite <- app_assoc; reflexivity).
    replace (d - S (length us)) with (d - 1 - length us) by lia. apply IH; [lia|apply Forall_app; split; [exact NP|constructor; [exact Nu|constructor]]|exact NU'|].
    apply honest_round_at; [exact Ny| |exact Nu]. apply good_canon; [exact NP|]. replace (2 * 2 ^ (d - 1)) with (2 ^ d); [exact G|].
    destruct d as [|d]; [lia|]. rewrite Nat.pow_succ_r'. replace (S d - 1) with d by lia. reflexivity.
Qed.
Lemma node_snoc us u : forall v d pre, node v d pre (us ++ [u]) =
  lr_step (node v d pre us) (nL (pre ++ us) (d - length us) (node v d pre us)) (nR (pre ++ us) (d - length us) (node v d pre us)) u.
Proof.
  induction us as [|x us IH]; intros v d pre; cbn [app node length].
  - rewrite app_nil_r, Nat.sub_0_r. reflexivity.
  - rewrite IH. rewrite <- app_assoc. cbn [app]. replace (d - 1 - length us) with (d - S (length us)) by lia. reflexivity.
Qed.
Definition hL (P : rep) (k : nat) (us : list F) : rep := nL us (k - length us) (node P k [] us).
Definition hR (P : rep) (k : nat) (us : list F) : rep := nR us (k - length us) (node P k [] us).
Lemma req_trans a b c : req a b -> req b c -> req a c.
Proof. intros (H1 & H2 & H3 & H4) (G1 & G2 & G3 & G4). split; [|split; [|split]]; intros; etransitivity; eauto. Qed.
Lemma req_step a b L Rr u : req a b -> req (lr_step a L Rr u) (lr_step b L Rr u).
Proof. intros (H1 & H2 & H3 & H4). split; [|split; [|split]]; intros; cbn [lr_step radd rscale rg rh rb rl]; [rewrite H1|rewrite H2|rewrite H3|rewrite H4]; reflexivity. Qed.
Lemma node_lr P k us : req (node P k [] us) (radd P (lr_rep us (rounds (hL P k) [] us) (rounds (hR P k) [] us))).
Proof.
  induction us as [|u us IH] using rev_ind.
  - cbn [node rounds lr_rep]. split; [|split; [|split]]; intros; cbn [radd rzero rg rh rb rl]; ring.
  - rewrite node_snoc, !rounds_snoc. cbn [app]. eapply req_trans; [apply req_step; exact IH|]. apply lr_rep_app; apply rounds_length.
Qed.
End Rounds.

(** ** The prover *)
Section Prover.
Context (m k : nat) (V : nat -> rep) (A S : rep).
Definition hon_t (y z x : F) : F := Sum (64 * m) (fun i => fmul (lvec A S x z i) (rvec m A S x y z i)).
Definition hon_mu (y z x : F) : F := fadd (rl A) (fmul x (rl S)).
Definition hon_P (y z x w : F) : rep := P_rep m A S x y z w (hon_mu y z x) (hon_t y z x).
Definition honest_script : script rep := mkScript V A S
  (fun y z => mkRep (fun _ => f0) (fun _ => f0)
     (Sum (64 * m) (fun i => fadd (fmul (rg S i) (rvec m A rzero f0 y z i)) (fmul (lvec A rzero f0 z i) (fmul (fpow y i) (rh S i))))) f0)
  (fun y z => mkRep (fun _ => f0) (fun _ => f0) (Sum (64 * m) (fun i => fmul (rg S i) (fmul (fpow y i) (rh S i)))) f0)
  (fun y z x w => hL w y (hon_P y z x w) k) (fun y z x w => hR w y (hon_P y z x w) k).
Definition honest_answers : answers := mkAnswers hon_t (fun y z x => zV m V z rl) hon_mu
  (fun y z x w us => lof us (node w y (hon_P y z x w) k [] us) 0) (fun y z x w us => rof us y (node w y (hon_P y z x w) k [] us) 0).
Theorem honest_gaps y z x w us : 2 ^ k = 64 * m -> length us = k -> y <> f0 -> Forall (fun u => u <> f0) us -> rb A = f0 -> rb S = f0 -> ok_A m V A ->
  vanishes (64 * m) (ip_gap m honest_script honest_answers y z x w us) /\ vanishes (64 * m) (poly_gap m honest_script honest_answers y z x).
Proof.
  intros HK LU Y NZ EA ES O.
  assert (Vg : forall i, i < 64 * m -> zV m V z (fun v => rg v i) = f0).
  { intros i Hi. apply Sum_zero. intros j Hj. destruct O as (O1 & _). destruct (O1 j Hj) as (E & _). rewrite E by exact Hi. ring. }
  assert (Vh : forall i, i < 64 * m -> zV m V z (fun v => rh v i) = f0).
  { intros i Hi. apply Sum_zero. intros j Hj. destruct O as (O1 & _). destruct (O1 j Hj) as (_ & E & _). rewrite E by exact Hi. ring. }
  assert (Hz : Sum (64 * m) (fun i => fmul (lvec A rzero f0 z i) (rvec m A rzero f0 y z i)) = fadd (delta y z m) (zV m V z rb)).
  { destruct O as (O1 & O2 & O3). rewrite (key_z m V A y z).
    assert (X : peval (zc0 m A y :: zc1 m A y :: map (zcj V A) (seq 0 m)) z = f0).
    { change (fadd (zc0 m A y) (fmul z (fadd (zc1 m A y) (fmul z (peval (map (zcj V A) (seq 0 m)) z)))) = f0). rewrite peval_Sum.
      unfold zc0, zc1. rewrite (Sum_zero (64 * m)) by (intros i Hi; rewrite O2 by exact Hi; ring).
      rewrite (Sum_zero (64 * m)) by (intros i Hi; rewrite O3 by exact Hi; ring).
      rewrite Sum_zero by (intros j Hj; unfold zcj; destruct (O1 j Hj) as (_ & _ & ->); ring). ring. }
    rewrite X. ring. }
  split.
  - set (P := hon_P y z x w). assert (G : good [] (2 ^ k) w y P).
    { rewrite HK. exists (lvec A S x z), (rvec m A S x y z). cbn [length map spread]. rewrite Nat.pow_0_r, Nat.mul_1_r. split; [reflexivity|].
      split; [intros i Hi; apply P_rh; assumption|]. unfold P, hon_P. split; [cbn [rb P_rep]; rewrite EA, ES; unfold hon_t; ring|cbn [rl P_rep]; unfold hon_mu; ring]. }
    pose proof (node_ok w y Y us P k [] ltac:(lia) (Forall_nil _) NZ G) as H. cbn [app] in H. rewrite LU, Nat.sub_diag in H.
    apply good_canon in H; [|exact NZ]. destruct (node_lr w y P k us) as (N1 & N2 & N3 & N4).
    unfold ip_gap, ip_rep. cbn [honest_script honest_answers s_L s_R s_A s_S an_a an_b an_mu an_t]. fold (hon_P y z x w). fold P.
    set (nd := node w y P k [] us) in *. set (a := lof us nd 0). set (b := rof us y nd 0).
    set (v := radd P (lr_rep us (rounds (hL w y P k) [] us) (rounds (hR w y P k) [] us))) in *.
    destruct H as (H1 & H2 & H3 & H4). change (2 ^ 0) with 1 in *. rewrite Nat.mul_1_l, LU, HK in H1, H2.
    assert (Z : forall us' (l' : nat -> F) i, i < 2 ^ length us' -> spread us' 1 l' i = fmul (l' 0) (nth i (svec us') f0)).
    { intros us' l' i C. rewrite <- svec_spread by exact C. apply spread_ext; [intros j Hj; f_equal; lia|lia]. }
    split; [|split; [|split]]; cbn [radd rscale rg rh rb rl].
    + intros i Hi. rewrite <- (N1 i), (H1 i Hi), Z by (rewrite LU; lia). fold a. ring.
    + intros i Hi. specialize (H2 i Hi). rewrite Z in H2 by (rewrite map_length, LU; lia). fold b in H2. rewrite cpowers_nth by assumption. pose proof (fpow_nz y i Y) as Nyi.
      rewrite <- (N2 i). transitivity (fmul (finv (fpow y i)) (fsub (fmul b (nth i (svec (map finv us)) f0)) (fmul (fpow y i) (rh nd i)))); [field; exact Nyi|].
      rewrite H2. ring.
    + rewrite <- N3, H3. unfold Sum. cbn [seq map fsum fold_right]. fold a b. ring.
    + rewrite <- N4, H4. ring.
  - unfold poly_gap, poly_rep. cbn [honest_script honest_answers s_V s_T1 s_T2 an_t an_taux]. split; [|split; [|split]]; cbn [rg rh rb rl].
    + intros i Hi. rewrite Vg by exact Hi. ring.
    + intros i Hi. rewrite Vh by exact Hi. ring.
    + unfold hon_t. rewrite key_x. rewrite Hz. ring.
    + ring.
Qed.
End Prover.
