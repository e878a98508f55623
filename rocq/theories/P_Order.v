(** Property C86: soundness of range proofs when the prover computes round challenges of the inner-product
    argument early.  C78 takes the challenges in the order of the protocol.  The hash that gives the round
    challenges covers the points L and R alone (C77), so a prover can compute the first rounds before z,
    x or w, and choose the commitments, A, S, T1, T2, t, taux, mu afterwards.  Below, jz rounds precede z,
    jx precede x and jw precede w; each bad set is determined by what has been drawn before it. *)
From Coq Require Import String ZArith List Lia Bool Arith Field.
From Verif Require Import GoModel GoFacts Fld Rist RistFacts RistInst SpecVector SpecIPP SpecRange SpecSound SpecOrder VectorModel VectorFacts PedersenModel PedersenFacts SpecPedersen
  InnerProductModel InnerProductFacts GlobModel GlobFacts RangeProofModel SpecHonest RangeFacts RangeRun RangeProps P_RangeProof Poly IPSound RangeSound SoundPoints SoundOrder P_Sound.
Import ListNotations.
Local Open Scope nat_scope.

Theorem C86_any_order R (OK : rist_ok R) c p ip m V A S T1 T2 Ls Rs jz jx jw :
  pf_ip R p = Some ip -> 0 < m -> (64 * Z.of_nat m < 2 ^ 32)%Z -> ip_size m R ip -> m <= length (pf_V R p) ->
  known R (64 * m) m p ip V A S T1 T2 Ls Rs ->
  fst (grun (Verify R c p) (Z.of_nat m)) = Ok true ->
  jz <= jx -> jx <= jw -> jw <= length (ip_L R ip) ->
  let Vp := vals (pf_V R p) in
  let y := rp_y R Vp (pf_A R p) (pf_S R p) in
  let z := rp_z R y in
  let x := rp_x R Vp (pf_A R p) (pf_S R p) z (pf_T1 R p) (pf_T2 R p) in
  let w := rp_w R Vp (pf_A R p) (pf_S R p) z (pf_T1 R p) (pf_T2 R p) x (pf_taux R p) (pf_mu R p) (pf_t R p) in
  let us := challenges R [] (ip_L R ip) (ip_R R ip) in
  let rest j := 2 ^ (length us - j) in
  let D1 := ip_rep m us Ls Rs (ip_A R ip) (ip_B R ip) A S x y z w (pf_mu R p) (pf_t R p) in
  let D2 := poly_rep m V y z T1 T2 x (pf_t R p) (pf_taux R p) in
  let D := radd (rscale c D1) D2 in
  reval R (64 * m) D = pt0 R /\
  (vanishes (64 * m) D ->
     (** in range *)
     (forall j, j < m -> exists k : Z, (0 <= k < 2 ^ 64)%Z /\
        nth_error Vp j = Some (padd R (smul R (of_Z k) (rp_Base R)) (smul R (rl (V j)) (rp_Blind R)))) \/
     (** y, z before all rounds *)
     jz = 0 /\ (bad_y m V A y \/ bad_z m V A y z) \/
     (** jz rounds, then z *)
     0 < jz /\ (y = f0 \/ (exists j, j < jz /\ bad_early (nth j us f0)) \/
                bad_late_z m (firstn jz us) (rest jz) (firstn jz Ls) (firstn jz Rs) V A S y z) \/
     (** the rounds between z and x *)
     (exists j, jz <= j /\ j < jx /\ bad_step us Ls Rs y (P_rep m A rzero f0 y z f0 f0 f0) (t_z m V y z) j) \/
     bad_late_x m (firstn jx us) (rest jx) (firstn jx Ls) (firstn jx Rs) V A S y z T1 T2 x \/
     (** the rounds between x and w *)
     (exists j, jx <= j /\ j < jw /\ bad_step us Ls Rs y (P_rep m A S x y z f0 f0 f0) (t_x m V y z T1 T2 x) j) \/
     bad_late_w m (firstn jw us) (rest jw) (firstn jw Ls) (firstn jw Rs) V A S y z T1 T2 x (pf_t R p) (pf_taux R p) (pf_mu R p) w \/
     (** the rounds after w *)
     (exists j, jw <= j /\ j < length us /\ bad_round m us Ls Rs A S x y z w (pf_mu R p) (pf_t R p) j) \/
     bad_c (64 * m) D1 D2 c).
Proof.
  intros Hip Hm HB HS HV KN ACC Jz Jx Jw Vp y z x w us rest D1 D2 D. split.
  - exact (proj1 (C78_accepted R OK c p ip m V A S T1 T2 Ls Rs Hip Hm HB HS HV KN ACC)).
  - destruct HS as (S1 & S2 & S3).
    assert (LU : length us = length (ip_L R ip)) by (unfold us; apply challenges_length; exact S1).
    intros VD. destruct (dec_and _ _ (vanishes_dec (64 * m) D1) (vanishes_dec (64 * m) D2)) as [[V1 V2]|N]; [|do 8 right; split; assumption].
    assert (LL : length Ls = length us) by (rewrite LU, (kn_L _ _ _ _ _ _ _ _ _ _ _ _ KN), map_length; reflexivity).
    assert (LR : length Rs = length us) by (rewrite LU, S1, (kn_R _ _ _ _ _ _ _ _ _ _ _ _ KN), map_length; reflexivity).
    destruct (chain_any_order m V A S y z T1 T2 x (pf_t R p) (pf_taux R p) (pf_mu R p) w us Ls Rs) with (jz := jz) (jx := jx) (jw := jw) (a := ip_A R ip) (b := ip_B R ip)
      as [(E & [O|B])|[B|[B|[B|[B|[B|B]]]]]];
      [rewrite LU; exact S3|exact LL|exact LR|exact Jz|exact Jx|rewrite LU; exact Jw|exact V2|exact V1| | | | | | | |].
    + left. intros j Hj. destruct (ok_A_range m V A j O Hj) as (G & H & k & K & Ek). exists k. split; [exact K|].
      unfold Vp. rewrite (kn_V _ _ _ _ _ _ _ _ _ _ _ _ KN j Hj). f_equal. unfold reval. rewrite Ek.
      rewrite (msm_fun_ext _ (rg (V j)) (fun _ => f0)) by exact G. rewrite (msm_fun_ext _ (rh (V j)) (fun _ => f0)) by exact H.
      rewrite !(msm_fun_const OK) by apply chain_length. lin OK.
    + right; left; split; [exact E|exact B].
    + do 2 right; left; exact B.
    + do 3 right; left; exact B.
    + do 4 right; left; exact B.
    + do 5 right; left; exact B.
    + do 6 right; left; exact B.
    + do 7 right; left; exact B.
Qed.
Print Assumptions C86_any_order.
(** How many challenges are bad: the first round, drawn before z; then z; *)
Theorem C86_few_early xs : NoDup xs -> Forall bad_early xs -> length xs <= 3.
Proof. exact (bad_early_few xs). Qed.
Print Assumptions C86_few_early.
Theorem C86_few_z m u us b Ls Rs V A S y zs : 0 < b -> ~ bad_early u -> NoDup zs ->
  Forall (bad_late_z m (u :: us) b Ls Rs V A S y) zs -> length zs <= 1.
Proof. exact (bad_late_z_few m u us b Ls Rs V A S y zs). Qed.
Print Assumptions C86_few_z.
(** rounds between z and w; *)
Theorem C86_few_round us b y v L R c xs : Forall (fun u => u <> f0) us -> NoDup xs -> Forall (bad_v us b y v L R c) xs -> length xs <= 7.
Proof. exact (bad_v_few us b y v L R c xs). Qed.
Print Assumptions C86_few_round.
(** x and w after rounds. *)
Theorem C86_few_x m us b Ls Rs V A S y z T1 T2 xs : Forall (fun u => u <> f0) us -> NoDup xs ->
  Forall (bad_late_x m us b Ls Rs V A S y z T1 T2) xs -> length xs <= 2.
Proof. exact (bad_late_x_few m us b Ls Rs V A S y z T1 T2 xs). Qed.
Print Assumptions C86_few_x.
Theorem C86_few_w m us b Ls Rs V A S y z T1 T2 x t taux mu ws : Forall (fun u => u <> f0) us -> NoDup ws ->
  Forall (bad_late_w m us b Ls Rs V A S y z T1 T2 x t taux mu) ws -> length ws <= 1.
Proof. exact (bad_late_w_few m us b Ls Rs V A S y z T1 T2 x t taux mu ws). Qed.
Print Assumptions C86_few_w.

(** The hypotheses of C86_any_order are those of C78_accepted (C30_ex, C78_ex); the orders run from
    jz = jx = jw = 0 to all rounds first.  A z can be bad after a round: for every u and z <> 0 some
    commitment and A chosen for this z do it. *)
Example C86_ex_z u y z : z <> f0 -> exists V A, bad_late_z 1 [u] 32 [rzero] [rzero] V A rzero y z.
Proof.
  intros Z. set (Q := P_rep 1 rzero rzero f0 y z f0 f0 f0).
  exists (fun _ => mkRep (fun _ => f0) (fun _ => f0) (fneg (fmul (delta y z 1) (finv (fmul z z)))) f0),
    (mkRep (fun i => fneg (rg Q i)) (fun i => fneg (rh Q i)) f0 f0).
  assert (S0 : forall v i, spread [v] 32 (fun _ => f0) i = f0).
  { intros v i. cbn [spread]. destruct (_ <? _); ring. }
  assert (Z1 : forall c, zV 1 (fun _ => mkRep (fun _ => f0) (fun _ => f0) c f0) z rb = fmul (fmul z z) c).
  { intros c. unfold zV, Sum. cbn [seq map fsum fold_right rb Nat.add fpow]. ring. }
  assert (EG : forall i, rg (so_far 1 [u] [rzero] [rzero] (mkRep (fun i => fneg (rg Q i)) (fun i => fneg (rh Q i)) f0 f0) rzero f0 y z) i = f0).
  { intros i. unfold Q, so_far, lvec. cbn [lr_rep lr_step radd rscale P_rep rg rzero]. unfold lvec. cbn [rg rzero]. ring. }
  assert (EH : forall i, rh (so_far 1 [u] [rzero] [rzero] (mkRep (fun i => fneg (rg Q i)) (fun i => fneg (rh Q i)) f0 f0) rzero f0 y z) i = f0).
  { intros i. unfold Q, so_far. cbn [lr_rep lr_step radd rscale P_rep rh rzero]. generalize (nth i (cpowers (finv y) (64 * 1)) f0). intros q. ring. }
  split; [|split; [|split; [split|split]]].
  - intros i _. unfold zV, Sum. cbn [seq map fsum fold_right rg]. ring.
  - intros i _. unfold zV, Sum. cbn [seq map fsum fold_right rh]. ring.
  - unfold so_far. cbn [lr_rep lr_step radd rscale P_rep rb rzero]. ring.
  - exists (fun _ => f0), (fun _ => f0). cbn [map]. split; [|split; [|split]].
    + intros i _. cbn [only rg]. rewrite EG, S0. reflexivity.
    + intros i _. cbn [only rh]. rewrite EH, S0. ring.
    + cbn [only rb]. unfold t_z. rewrite Z1, Sum_zero by (intros; ring). transitivity f0; [field; exact Z|ring].
    + reflexivity.
  - reflexivity.
  - exists (fun _ => f0), (fun _ => f0). split; intros i _; cbn [map rzero rg rh]; rewrite S0; ring.
Qed.
