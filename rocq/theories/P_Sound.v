(** Properties C78, C79: soundness of range proofs for provers who know representations of the points
    they send.  Every point of the proof is given by coefficients over the generators of the package;
    then an accepted proof yields an explicit linear relation among the generators.  If that relation is
    trivial, the commitments are to 64-bit numbers, or one of the challenges lies in a small set. *)
From Coq Require Import String ZArith List Lia Bool Arith Field.
From Verif Require Import GoModel GoFacts Fld Rist RistFacts RistInst SpecVector SpecIPP SpecRange SpecSound VectorModel VectorFacts PedersenModel PedersenFacts SpecPedersen
  InnerProductModel InnerProductFacts GlobModel GlobFacts RangeProofModel SpecHonest RangeFacts RangeRun RangeProps P_RangeProof Poly IPSound RangeSound SoundPoints.
Import ListNotations.
Local Open Scope nat_scope.

(** the representations of the points of a proof over the first n generators *)
Record known (R : rist) (n m : nat) (p : proof R) (ip : ipproof R) (V : nat -> rep) (A S T1 T2 : rep) (Ls Rs : list rep) : Prop := mkKnown {
  kn_V : forall j, j < m -> nth_error (vals (pf_V R p)) j = Some (reval R n (V j));
  kn_A : pf_A R p = reval R n A;
  kn_S : pf_S R p = reval R n S;
  kn_T1 : pf_T1 R p = reval R n T1;
  kn_T2 : pf_T2 R p = reval R n T2;
  kn_L : ip_L R ip = map (reval R n) Ls;
  kn_R : ip_R R ip = map (reval R n) Rs }.

(** C78.  Accepted proofs. *)
Theorem C78_accepted R (OK : rist_ok R) c p ip m V A S T1 T2 Ls Rs :
  pf_ip R p = Some ip -> 0 < m -> (64 * Z.of_nat m < 2 ^ 32)%Z -> ip_size m R ip -> m <= length (pf_V R p) ->
  known R (64 * m) m p ip V A S T1 T2 Ls Rs ->
  fst (grun (Verify R c p) (Z.of_nat m)) = Ok true ->
  let Vp := vals (pf_V R p) in
  let y := rp_y R Vp (pf_A R p) (pf_S R p) in
  let z := rp_z R y in
  let x := rp_x R Vp (pf_A R p) (pf_S R p) z (pf_T1 R p) (pf_T2 R p) in
  let w := rp_w R Vp (pf_A R p) (pf_S R p) z (pf_T1 R p) (pf_T2 R p) x (pf_taux R p) (pf_mu R p) (pf_t R p) in
  let us := challenges R [] (ip_L R ip) (ip_R R ip) in
  let D1 := ip_rep m us Ls Rs (ip_A R ip) (ip_B R ip) A S x y z w (pf_mu R p) (pf_t R p) in
  let D2 := poly_rep m V y z T1 T2 x (pf_t R p) (pf_taux R p) in
  let D := radd (rscale c D1) D2 in
  reval R (64 * m) D = pt0 R /\
  (vanishes (64 * m) D ->
     (forall j, j < m -> exists k : Z, (0 <= k < 2 ^ 64)%Z /\
        nth_error Vp j = Some (padd R (smul R (of_Z k) (rp_Base R)) (smul R (rl (V j)) (rp_Blind R)))) \/
     bad_y m V A y \/ bad_z m V A y z \/ bad_x m V A S y z T1 T2 x \/
     bad_w m V A S y z T1 T2 x (pf_t R p) (pf_taux R p) (pf_mu R p) w \/
     (exists j, j < length us /\ bad_round m us Ls Rs A S x y z w (pf_mu R p) (pf_t R p) j) \/
     bad_c (64 * m) D1 D2 c).
Proof.
  intros Hip Hm HB HS HV KN ACC Vp y z x w us D1 D2 D. destruct HS as (S1 & S2 & S3).
  assert (LU : length us = length (ip_L R ip)) by (unfold us; apply challenges_length; exact S1).
  assert (E1 : rp_E1 R m p ip = reval R (64 * m) D1).
  { unfold rp_E1. fold Vp. cbv zeta. fold y. fold z. fold x. fold w. rewrite (kn_A _ _ _ _ _ _ _ _ _ _ _ _ KN), (kn_S _ _ _ _ _ _ _ _ _ _ _ _ KN).
    apply (E1_rep OK); [rewrite LU; exact S3|exact (kn_L _ _ _ _ _ _ _ _ _ _ _ _ KN)|exact (kn_R _ _ _ _ _ _ _ _ _ _ _ _ KN)|reflexivity]. }
  assert (E2 : rp_E2 R m p = reval R (64 * m) D2).
  { unfold rp_E2. fold Vp. cbv zeta. fold y. fold z. fold x. rewrite (kn_T1 _ _ _ _ _ _ _ _ _ _ _ _ KN), (kn_T2 _ _ _ _ _ _ _ _ _ _ _ _ KN).
    apply (E2_rep OK). pose proof (kn_V _ _ _ _ _ _ _ _ _ _ _ _ KN) as KV. fold Vp in KV. assert (LV : m <= length Vp) by (unfold Vp, vals; rewrite map_length; exact HV).
    clearbody Vp. clear - KV LV. apply nth_error_ext. intros j. destruct (Nat.lt_ge_cases j m) as [C|C].
    - rewrite nth_error_firstn by exact C. rewrite KV by exact C. rewrite nth_error_map.
      rewrite (nth_error_nth' _ 0) by (rewrite seq_length; exact C). rewrite seq_nth by exact C. reflexivity.
    - transitivity (@None (pt R)); [apply nth_error_None; rewrite firstn_length; lia|symmetry; apply nth_error_None; rewrite map_length, seq_length; lia]. }
  split.
  - unfold D. rewrite (reval_add OK), (reval_scale OK), <- E1, <- E2.
    apply (proj1 (proj1 (C33_verify_iff R OK c p ip m Hip Hm HB (conj S1 (conj S2 S3)) HV))). exact ACC.
  - intros VD. destruct (dec_and _ _ (vanishes_dec (64 * m) D1) (vanishes_dec (64 * m) D2)) as [[V1 V2]|N]; [|do 6 right; split; assumption].
    assert (LL : length Ls = length us) by (rewrite LU, (kn_L _ _ _ _ _ _ _ _ _ _ _ _ KN), map_length; reflexivity).
    assert (LR : length Rs = length us) by (rewrite LU, S1, (kn_R _ _ _ _ _ _ _ _ _ _ _ _ KN), map_length; reflexivity).
    destruct (sound_chain m V A S y z T1 T2 x (pf_t R p) (pf_taux R p) (pf_mu R p) w us Ls Rs (ip_A R ip) (ip_B R ip)) as [O|[B|[B|[B|[B|B]]]]];
      [rewrite LU; exact S3|exact LL|exact LR|exact V2|exact V1| | | | | |].
    + left. intros j Hj. destruct (ok_A_range m V A j O Hj) as (G & H & k & K & E). exists k. split; [exact K|].
      unfold Vp. rewrite (kn_V _ _ _ _ _ _ _ _ _ _ _ _ KN j Hj). f_equal. unfold reval. rewrite E.
      rewrite (msm_fun_ext _ (rg (V j)) (fun _ => f0)) by exact G. rewrite (msm_fun_ext _ (rh (V j)) (fun _ => f0)) by exact H.
      rewrite !(msm_fun_const OK) by apply chain_length. lin OK.
    + right; left; exact B.
    + do 2 right; left; exact B.
    + do 3 right; left; exact B.
    + do 4 right; left; exact B.
    + do 5 right; left; exact B.
Qed.
Print Assumptions C78_accepted.
(** How many challenges are bad, for each step, given what precedes it. *)
Theorem C78_few_y m V A ys : 0 < m -> NoDup ys -> Forall (bad_y m V A) ys -> length ys <= 64 * m.
Proof. exact (bad_y_few m V A ys). Qed.
Print Assumptions C78_few_y.
Theorem C78_few_z m V A y zs : NoDup zs -> Forall (bad_z m V A y) zs -> length zs <= m + 1.
Proof. exact (bad_z_few m V A y zs). Qed.
Print Assumptions C78_few_z.
Theorem C78_few_x m V A S y z T1 T2 xs : NoDup xs -> Forall (bad_x m V A S y z T1 T2) xs -> length xs <= 2.
Proof. exact (bad_x_few m V A S y z T1 T2 xs). Qed.
Print Assumptions C78_few_x.
Theorem C78_few_w m V A S y z T1 T2 x t taux mu ws : y <> f0 -> NoDup ws ->
  Forall (bad_w m V A S y z T1 T2 x t taux mu) ws -> length ws <= 1.
Proof. exact (bad_w_few m V A S y z T1 T2 x t taux mu ws). Qed.
Print Assumptions C78_few_w.
(** ... in round j, the earlier challenges being nonzero *)
Theorem C78_few_u us m w y v L R xs : Forall (fun u => u <> f0) us -> NoDup xs -> Forall (bad_u us m w y v L R) xs -> length xs <= 7.
Proof. exact (bad_u_few us m w y v L R xs). Qed.
Print Assumptions C78_few_u.
Theorem C78_few_c n D1 D2 cs : NoDup cs -> Forall (bad_c n D1 D2) cs -> length cs <= 1.
Proof. exact (bad_c_few n D1 D2 cs). Qed.
Print Assumptions C78_few_c.

(** C79.  The statements tracked in C78 are the right ones: from a commitment to bits there is a
    continuation of the proof for all later challenges (y and the rounds' challenges nonzero) for which
    both checks hold coefficient by coefficient; and each round can be continued independently of its
    challenge. *)
Theorem C79_honest m V A S y z us w : 2 ^ length us = 64 * m -> y <> f0 -> Forall (fun u => u <> f0) us -> rb A = f0 -> rb S = f0 ->
  ok_A m V A ->
  exists T1 T2, forall x, exists t taux mu Ls Rs a b,
    length Ls = length us /\ length Rs = length us /\
    vanishes (64 * m) (poly_rep m V y z T1 T2 x t taux) /\ vanishes (64 * m) (ip_rep m us Ls Rs a b A S x y z w mu t).
Proof. exact (honest_all m V A S y z us w). Qed.
Print Assumptions C79_honest.
Theorem C79_honest_round us m w y v : y <> f0 -> good us (2 * m) w y v ->
  exists L R, forall u, u <> f0 -> good (us ++ [u]) m w y (lr_step v L R u).
Proof. exact (honest_round us m w y v). Qed.
Print Assumptions C79_honest_round.
(** Every 64-bit number has such a commitment. *)
Theorem C79_bits (k : Z) (blind : F) : (0 <= k < 2 ^ 64)%Z ->
  ok_A 1 (fun _ => mkRep (fun _ => f0) (fun _ => f0) (of_Z k) blind)
    (mkRep (fun i => nth i (bits64 k) f0) (fun i => fsub (nth i (bits64 k) f0) f1) f0 f0).
Proof.
  intros K.
  assert (B : forall i, nth i (bits64 k) f0 = f0 \/ nth i (bits64 k) f0 = f1).
  { intros i. destruct (nth_in_or_default i (bits64 k) f0) as [I|E]; [|left; exact E]. apply in_map_iff in I.
    destruct I as (j & E & _). rewrite <- E. destruct (Z.testbit k (Z.of_nat j)); auto. }
  split; [|split]; cbn [rg rh rb].
  - intros j Hj. replace j with 0 by lia. split; [reflexivity|]. split; [reflexivity|].
    pose proof (bits_dot k ltac:(lia)) as E. unfold low64 in E. rewrite Z.mod_small in E by exact K. rewrite <- E.
    assert (L : length (bits64 k) = 64) by (unfold bits64; rewrite map_length, seq_length; reflexivity).
    transitivity (dot (map (fun i => nth i (bits64 k) f0) (seq 0 64)) (powers two 64)).
    + rewrite <- L at 1. rewrite map_nth_seq. reflexivity.
    + unfold powers. rewrite dot_Sum. apply Sum_ext. intros i _. rewrite Nat.mul_0_r. cbn [Nat.add]. ring.
  - intros i _. destruct (B i) as [-> | ->]; ring.
  - intros i _. ring.
Qed.
Print Assumptions C79_bits.
(** Both together: the hypothesis on representations in C78 can be met with D1 and D2 vanishing. *)
Example C79_ex (us : list F) (y z x w : F) : length us = 6 -> y <> f0 -> Forall (fun u => u <> f0) us ->
  let V := fun _ : nat => mkRep (fun _ => f0) (fun _ => f0) (of_Z 5) (of_Z 7) in
  let A := mkRep (fun i => nth i (bits64 5) f0) (fun i => fsub (nth i (bits64 5) f0) f1) f0 f0 in
  exists T1 T2 t taux mu Ls Rs a b,
    vanishes 64 (poly_rep 1 V y z T1 T2 x t taux) /\ vanishes 64 (ip_rep 1 us Ls Rs a b A rzero x y z w mu t).
Proof.
  intros L Y NZ V A. destruct (C79_honest 1 V A rzero y z us w) as (T1 & T2 & H); try assumption; try reflexivity.
  - rewrite L. reflexivity.
  - apply C79_bits. lia.
  - destruct (H x) as (t & taux & mu & Ls & Rs & a & b & _ & _ & H1 & H2). exists T1, T2, t, taux, mu, Ls, Rs, a, b. split; assumption.
Qed.
(** In the instance used for C30_ex (an accepted proof) every proof has representations. *)
Example C78_ex n m p ip : m <= length (pf_V tiny p) ->
  exists V A S T1 T2 Ls Rs, known tiny n m p ip V A S T1 T2 Ls Rs.
Proof.
  intros L. set (k := fun P : F => mkRep (fun _ => f0) (fun _ => f0) f0 P).
  assert (K : forall P, reval tiny n (k P) = P).
  { intros P. unfold reval, k. cbn [rg rh rb rl]. rewrite !(@msm_fun_const tiny (fin_rist_ok _)) by apply chain_length.
    cbn [tiny fin_rist padd smul pt]. unfold rp_Blind. cbn [tiny fin_rist pbase]. ring. }
  assert (ML : forall l : list F, map (reval tiny n) (map k l) = l).
  { intros l. rewrite map_map. rewrite (map_ext _ (fun x => x) K). apply map_id. }
  exists (fun j => k (nth j (vals (pf_V tiny p)) f0)), (k (pf_A tiny p)), (k (pf_S tiny p)), (k (pf_T1 tiny p)), (k (pf_T2 tiny p)),
    (map k (ip_L tiny ip)), (map k (ip_R tiny ip)).
  constructor; try (rewrite K; reflexivity); try (symmetry; apply ML).
  intros j Hj. rewrite K. apply nth_error_nth'. unfold vals. rewrite map_length. lia.
Qed.
(** A commitment to 2 whose lowest "bit" is 2 is not right. *)
Example C78_ex2 :
  let V := fun _ : nat => mkRep (fun _ => f0) (fun _ => f0) (of_Z 2) f0 in
  let A := mkRep (fun i => if i =? 0 then of_Z 2 else f0) (fun i => if i =? 0 then f1 else fneg f1) f0 f0 in
  ~ ok_A 1 V A.
Proof.
  intros V A (_ & H & _). specialize (H 0 ltac:(lia)). apply (f_equal to_Z) in H. vm_compute in H. discriminate H.
Qed.
