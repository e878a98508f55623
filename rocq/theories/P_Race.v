(** Properties C99, C100, C101: concurrent calls that panic, concurrent calls that make Verify give the
    wrong answer, and the non-interactive run of a prover. *)
From Coq Require Import String ZArith List Lia Bool Arith.
From Coq Require Import Init.Byte.
From Verif Require Import GoModel GoFacts Fld Rist RistFacts RistInst SpecVector SpecIPP SpecRange SpecSound VectorModel VectorFacts PedersenModel PedersenFacts SpecPedersen
  InnerProductModel InnerProductFacts IPPVerifyFacts GlobModel GlobFacts RangeProofModel SpecHonest RangeFacts RangeRun RangeProps RangeMore P_RangeProof Poly IPSound RangeSound SoundPoints
  SpecRewind RewindIP RewindHonest P_Rewind P_Fork SpecFS RaceFacts.
Import ListNotations.
Local Open Scope nat_scope.

(** call i of a list of concurrent calls can end in r *)
Definition can_end R (calls : list (rcall R)) (m : Z) (i : nat) (r : res (proof R) + res bool) : Prop :=
  exists schedule, nth_error (fst (sched_run (map (call_prog R) calls) m schedule)) i = Some (GRet r).

Lemma race_prove R v dv rv w dw rw m r : 1 <= length w -> late (Z.of_nat (length w)) (Prove R v dv rv) m r ->
  can_end R [CProve v dv rv; CProve w dw rw] m 0 (inl r).
Proof.
  intros LW H. unfold can_end. apply (late_sched (Z.of_nat (length w)) (gbind
    (GGet (fun m => if Z.ltb maxM m then GRet (Err "maximum amount of values must be less than 16"%string) else
      GGet (fun m1 => GGet (fun m2 => GSet (m2 + DiffNextPow2 (u32 m1))%Z
        (prove_padded R (w ++ repeat f0 (Z.to_nat (DiffNextPow2 (u32 m1)))) dw rw))))) (fun r => GRet (inl r))) (inl r) 0 1)
    with (p := gbind (Prove R v dv rv) (fun r => GRet (inl r))); [lia|reflexivity| |].
  - cbn [map nth_error call_prog]. rewrite Prove_tree by exact LW. reflexivity.
  - apply (late_left _ _ _ r); [reflexivity|exact H].
Qed.
Lemma race_verify R c p w dw rw m r : 1 <= length w -> late (Z.of_nat (length w)) (Verify R c p) m r ->
  can_end R [CVerify c p; CProve w dw rw] m 0 (inr r).
Proof.
  intros LW H. unfold can_end. apply (late_sched (Z.of_nat (length w)) (gbind
    (GGet (fun m => if Z.ltb maxM m then GRet (Err "maximum amount of values must be less than 16"%string) else
      GGet (fun m1 => GGet (fun m2 => GSet (m2 + DiffNextPow2 (u32 m1))%Z
        (prove_padded R (w ++ repeat f0 (Z.to_nat (DiffNextPow2 (u32 m1)))) dw rw))))) (fun r => GRet (inl r))) (inr r) 0 1)
    with (p := gbind (Verify R c p) (fun r => GRet (inr r))); [lia|reflexivity| |].
  - cbn [map nth_error call_prog]. rewrite Prove_tree by exact LW. reflexivity.
  - apply (late_left _ _ _ r); [reflexivity|exact H].
Qed.

(** C99.  Prove never panics when it runs alone, but can with another call of Prove for more values (also one
    for more than 16 values, which is rejected). *)
Theorem C99_prove R (OK : rist_ok R) v w dv dw rv rw m : 1 <= length v <= 16 ->
  pad_size (length v) < length w -> (64 * Z.of_nat (length w) < 2 ^ 63)%Z ->
  fst (grun (Prove R v dv rv) m) <> Panic /\ can_end R [CProve v dv rv; CProve w dw rw] m 0 (inl Panic).
Proof.
  intros H L B. split; [apply (prove_no_panic OK)|]. apply race_prove; [lia|]. apply (Prove_late OK); assumption.
Qed.
Print Assumptions C99_prove.
(** Verify of a proof of the size that M says, with a call of Prove for more values than the proof has. *)
Theorem C99_verify R (OK : rist_ok R) c p ip m w dw rw : pf_ip R p = Some ip -> 0 < m -> (64 * Z.of_nat m < 2 ^ 32)%Z ->
  ip_size m R ip -> m <= length (pf_V R p) -> length (pf_V R p) < length w -> (Z.of_nat (length w) < 2 ^ 32)%Z ->
  fst (grun (Verify R c p) (Z.of_nat m)) <> Panic /\ can_end R [CVerify c p; CProve w dw rw] (Z.of_nat m) 0 (inr Panic).
Proof.
  intros EI H0 HM HS HV L B. split.
  - destruct (C33_verify_iff R OK c p ip m EI H0 HM HS HV) as [_ [E|E]]; rewrite E; discriminate.
  - apply race_verify; [lia|]. apply (verify_late_panic OK c p ip m); assumption.
Qed.
Print Assumptions C99_verify.
Example C99_ex : 1 <= length [f1] <= 16 /\ pad_size (length [f1]) < length [f1; f1] /\ (64 * Z.of_nat (length [f1; f1]) < 2 ^ 63)%Z.
Proof. cbn. lia. Qed.

(** C100.  Verify with a concurrent call of Prove for n values, n at most the number m that M was set to: Verify
    can end in the answer it would give if the commitments from the n-th on were taken out of its sum. *)
Theorem C100_answer R (OK : rist_ok R) c p ip m n w dw rw : pf_ip R p = Some ip -> 0 < m -> (64 * Z.of_nat m < 2 ^ 32)%Z ->
  ip_size m R ip -> m <= length (pf_V R p) -> length w = n -> 1 <= n <= m ->
  let z := rp_z R (rp_y R (vals (pf_V R p)) (pf_A R p) (pf_S R p)) in
  let d := padd R (padd R (smul R c (rp_E1 R m p ip)) (rp_E2 R m p)) (z_rest R z n m (vals (pf_V R p))) in
  (d = pt0 R -> can_end R [CVerify c p; CProve w dw rw] (Z.of_nat m) 0 (inr (Ok true))) /\
  (d <> pt0 R -> can_end R [CVerify c p; CProve w dw rw] (Z.of_nat m) 0 (inr (Err "megacheck failed"%string))).
Proof.
  intros EI H0 HM HS HV LW HN z d. pose proof (verify_late_check OK c p ip m n z eq_refl EI H0 HM HS ltac:(lia) HV) as H.
  change (rp_check m c p ip) with (padd R (smul R c (rp_E1 R m p ip)) (rp_E2 R m p)) in H. fold d in H. rewrite <- LW in H.
  split; intros D.
  - apply race_verify; [lia|]. rewrite D, (peqb_refl OK) in H. exact H.
  - apply race_verify; [lia|]. destruct (peqb R (pt0 R) d) eqn:E; [|exact H]. apply (peqb_ok R OK) in E. congruence.
Qed.
Print Assumptions C100_answer.
(** A valid proof is refused, unless that part of the sum is zero. *)
Theorem C100_refused R (OK : rist_ok R) c p ip m n w dw rw : pf_ip R p = Some ip -> 0 < m -> (64 * Z.of_nat m < 2 ^ 32)%Z ->
  ip_size m R ip -> m <= length (pf_V R p) -> length w = n -> 1 <= n <= m ->
  fst (grun (Verify R c p) (Z.of_nat m)) = Ok true ->
  z_rest R (rp_z R (rp_y R (vals (pf_V R p)) (pf_A R p) (pf_S R p))) n m (vals (pf_V R p)) <> pt0 R ->
  can_end R [CVerify c p; CProve w dw rw] (Z.of_nat m) 0 (inr (Err "megacheck failed"%string)).
Proof.
  intros EI H0 HM HS HV LW HN E NZ. apply (C100_answer R OK c p ip m n w dw rw EI H0 HM HS HV LW HN).
  apply (C33_verify_iff R OK c p ip m EI H0 HM HS HV) in E. rewrite E. intros C. apply NZ. rewrite <- C. symmetry. apply (padd_0_l R OK).
Qed.
Print Assumptions C100_refused.
(** An attacker's proof for m commitments V, of which only the first n are to numbers below 2^64 (ks, with
    blinding factors bl); the others are any points.  Verify can accept it, for every c. *)
Theorem C100_accepted R (OK : rist_ok R) m k n V ks bl alpha S c w dw rw : 1 <= n <= m -> (64 * Z.of_nat m < 2 ^ 32)%Z -> 2 ^ k = 64 * m ->
  m <= length V -> (forall j, j < n -> (0 <= ks j < 2 ^ 64)%Z) ->
  firstn n (vals V) = map (fun j => padd R (smul R (of_Z (ks j)) (rp_Base R)) (smul R (bl j) (rp_Blind R))) (seq 0 n) ->
  rb S = f0 -> length w = n ->
  let p := part_proof m k n ks bl alpha S R V in
  let s := smap (reval R (64 * m)) (part_script m k n ks bl alpha S) in
  fs_y R V s <> f0 -> Forall (fun u => u <> f0) (fs_rounds R k V s (part_answers m k n ks bl alpha S)) ->
  pf_V R p = V /\ can_end R [CVerify c p; CProve w dw rw] (Z.of_nat m) 0 (inr (Ok true)).
Proof.
  intros HN HB HK HV K EV ES LW p s Y NZ. split; [reflexivity|].
  pose proof (fs_size k V s (part_answers m k n ks bl alpha S) m HK HB) as HS.
  apply (C100_answer R OK c p (fs_ip k V s (part_answers m k n ks bl alpha S)) m n w dw rw eq_refl ltac:(lia) HB HS HV LW HN).
  apply (fs_check OK k V s (part_answers m k n ks bl alpha S) m n c); try assumption; try lia.
  - rewrite EV. apply map_ext_in. intros j Hj. apply in_seq in Hj. cbn [s smap s_V part_script honest_script]. unfold part_V.
    destruct (Nat.ltb_spec j n); [|lia]. symmetry. apply (reval_com OK).
  - intros j Hj. cbn [s smap s_V part_script honest_script]. unfold part_V. destruct (Nat.ltb_spec j n); [lia|]. apply (reval_zero OK).
  - apply (part_accepts m k n ks bl alpha S R OK); try assumption. apply fs_us_length.
Qed.
Print Assumptions C100_accepted.
(** Without a concurrent call it is accepted, for whatever c, exactly if the rest of the sum is zero; when M has
    any other value it is an error. *)
Theorem C100_alone R (OK : rist_ok R) m k n V ks bl alpha S c : 1 <= n <= m -> (64 * Z.of_nat m < 2 ^ 32)%Z -> 2 ^ k = 64 * m ->
  m <= length V -> (forall j, j < n -> (0 <= ks j < 2 ^ 64)%Z) ->
  firstn n (vals V) = map (fun j => padd R (smul R (of_Z (ks j)) (rp_Base R)) (smul R (bl j) (rp_Blind R))) (seq 0 n) ->
  rb S = f0 ->
  let p := part_proof m k n ks bl alpha S R V in
  let s := smap (reval R (64 * m)) (part_script m k n ks bl alpha S) in
  fs_y R V s <> f0 -> Forall (fun u => u <> f0) (fs_rounds R k V s (part_answers m k n ks bl alpha S)) ->
  (fst (grun (Verify R c p) (Z.of_nat m)) = Ok true <-> z_rest R (fs_z R V s) n m (vals V) = pt0 R) /\
  (forall m', 0 < m' -> (64 * Z.of_nat m' < 2 ^ 32)%Z -> m' <> m -> fst (grun (Verify R c p) (Z.of_nat m')) = Err wrong_lengths).
Proof.
  intros HN HB HK HV K EV ES p s Y NZ. set (an := part_answers m k n ks bl alpha S) in *.
  pose proof (fs_size k V s an m HK HB) as HS. split.
  - rewrite (proj1 (C33_verify_iff R OK c p (fs_ip k V s an) m eq_refl ltac:(lia) HB HS HV)).
    pose proof (fs_check OK k V s an m n c ltac:(lia) HV) as H.
    assert (H' : padd R (rp_check m c p (fs_ip k V s an)) (z_rest R (fs_z R V s) n m (vals V)) = pt0 R).
    { apply H; [| |apply (part_accepts m k n ks bl alpha S R OK); try assumption; apply fs_us_length].
      - rewrite EV. apply map_ext_in. intros j Hj. apply in_seq in Hj. cbn [s smap s_V part_script honest_script]. unfold part_V.
        destruct (Nat.ltb_spec j n); [|lia]. symmetry. apply (reval_com OK).
      - intros j Hj. cbn [s smap s_V part_script honest_script]. unfold part_V. destruct (Nat.ltb_spec j n); [lia|]. apply (reval_zero OK). }
    change (rp_check m c p (fs_ip k V s an)) with (padd R (smul R c (rp_E1 R m p (fs_ip k V s an))) (rp_E2 R m p)) in H'.
    split; intros E; rewrite E in H'.
    + rewrite <- H'. symmetry. apply (padd_0_l R OK).
    + rewrite <- H'. symmetry. apply (padd_0_r OK).
  - intros m' H0 HB' N. rewrite (C33_wrong_size R OK c p (fs_ip k V s an) m' eq_refl H0 HB'); [reflexivity|].
    intros (_ & _ & C). destruct HS as (_ & _ & C'). lia.
Qed.
Print Assumptions C100_alone.
(** For two commitments, the first to a number below 2^64 and the second any point but zero: whatever M is (with z
    nonzero) and whatever c, Verify alone does not accept the proof; with a concurrent call of Prove for one value
    it can. *)
Theorem C100_two R (OK : rist_ok R) (C1 C2 : commitment R) (a : Z) bl alpha S c u dw rw : (0 <= a < 2 ^ 64)%Z ->
  c_val R C1 = padd R (smul R (of_Z a) (rp_Base R)) (smul R bl (rp_Blind R)) -> c_val R C2 <> pt0 R -> rb S = f0 ->
  let p := part_proof 2 7 1 (fun _ => a) (fun _ => bl) alpha S R [C1; C2] in
  let s := smap (reval R (64 * 2)) (part_script 2 7 1 (fun _ => a) (fun _ => bl) alpha S) in
  fs_y R [C1; C2] s <> f0 -> fs_z R [C1; C2] s <> f0 ->
  Forall (fun u => u <> f0) (fs_rounds R 7 [C1; C2] s (part_answers 2 7 1 (fun _ => a) (fun _ => bl) alpha S)) ->
  (forall m, 0 < m -> (64 * Z.of_nat m < 2 ^ 32)%Z -> fst (grun (Verify R c p) (Z.of_nat m)) <> Ok true) /\
  can_end R [CVerify c p; CProve [u] dw rw] 2 0 (inr (Ok true)).
Proof.
  intros K E1 N2 ES p s Y NZ NU.
  assert (EV : firstn 1 (vals [C1; C2]) = map (fun _ : nat => padd R (smul R (of_Z a) (rp_Base R)) (smul R bl (rp_Blind R))) (seq 0 1)).
  { cbn [vals map firstn seq]. rewrite E1. reflexivity. }
  destruct (C100_alone R OK 2 7 1 [C1; C2] (fun _ => a) (fun _ => bl) alpha S c ltac:(lia) ltac:(lia) ltac:(reflexivity) ltac:(cbn; lia) (fun _ _ => K) EV ES Y NU) as [H1 H2].
  split.
  - intros m H0 HB C. destruct (Nat.eq_dec m 2) as [->|N].
    + apply H1 in C. unfold z_rest in C. change (2 - 1) with 1 in C. cbn [seq map vals skipn] in C. rewrite msm_cons, msm_nil_l, (padd_0_r OK) in C.
      apply (smul_integral OK) in C. destruct C as [C|C]; [|exact (N2 C)]. revert C. apply fpow_nz. exact NZ.
    + pose proof (H2 m H0 HB N) as E. fold p in E. congruence.
  - apply (C100_accepted R OK 2 7 1 [C1; C2] (fun _ => a) (fun _ => bl) alpha S c [u] dw rw); auto; cbn; lia.
Qed.
Print Assumptions C100_two.
Lemma fs_ones R (O : forall b, sderive R b = f1) V s an k : fs_y R V s = f1 /\ fs_z R V s = f1 /\ fs_rounds R k V s an = repeat f1 k.
Proof.
  split; [apply O|]. split; [apply O|]. unfold fs_rounds. set (L := s_L s _ _ _ _). set (Rr := s_R s _ _ _ _). clearbody L Rr.
  generalize (@nil F) at 1. generalize (@nil Byte.byte). induction k as [|k IH]; intros hs pre; cbn [fs_us repeat]; [reflexivity|]. cbv zeta. rewrite O, IH. reflexivity.
Qed.
(** in the instance where hashes are 1: the first commitment to 5, the second to anything nonzero *)
Example C100_ex : (0 <= 5 < 2 ^ 64)%Z /\
  let C1 := mkCom tiny (fadd (fmul (of_Z 5) (rp_Base tiny)) (fmul f1 (rp_Blind tiny))) f1 in
  let C2 := mkCom tiny f1 f0 in
  let s := smap (reval tiny (64 * 2)) (part_script 2 7 1 (fun _ => 5%Z) (fun _ => f1) f1 five_S) in
  c_val tiny C1 = padd tiny (smul tiny (of_Z 5) (rp_Base tiny)) (smul tiny f1 (rp_Blind tiny)) /\ c_val tiny C2 <> pt0 tiny /\ rb five_S = f0 /\
  fs_y tiny [C1; C2] s <> f0 /\ fs_z tiny [C1; C2] s <> f0 /\
  Forall (fun u => u <> f0) (fs_rounds tiny 7 [C1; C2] s (part_answers 2 7 1 (fun _ => 5%Z) (fun _ => f1) f1 five_S)).
Proof.
  split; [lia|]. intros C1 C2 s. destruct (fs_ones tiny (fun _ => eq_refl) [C1; C2] s (part_answers 2 7 1 (fun _ => 5%Z) (fun _ => f1) f1 five_S) 7) as (-> & -> & ->).
  split; [reflexivity|]. split; [exact f1_neq_f0|]. split; [reflexivity|]. split; [exact f1_neq_f0|]. split; [exact f1_neq_f0|].
  apply Forall_forall. intros u Hu. apply repeat_spec in Hu. subst u. exact f1_neq_f0.
Qed.

(** C101.  A prover of the interactive argument that has answers for the challenges its messages hash to makes a
    proof that Verify accepts, for every c; conversely a proof it makes is accepted for two c only if its answers
    satisfy the equations. *)
Theorem C101_run R (OK : rist_ok R) m k V s an c : 0 < m -> (64 * Z.of_nat m < 2 ^ 32)%Z -> 2 ^ k = 64 * m ->
  m <= length V -> firstn m (vals V) = map (s_V s) (seq 0 m) ->
  accepts R m s an (fs_y R V s) (fs_z R V s) (fs_x R V s) (fs_w R V s an) (fs_rounds R k V s an) ->
  fst (grun (Verify R c (fs_proof R k V s an)) (Z.of_nat m)) = Ok true.
Proof.
  intros H0 HB HK HV EV ACC. pose proof (fs_size k V s an m HK HB) as HS.
  apply (C33_verify_iff R OK c (fs_proof R k V s an) (fs_ip k V s an) m eq_refl H0 HB HS HV).
  pose proof (fs_check OK k V s an m m c ltac:(lia) HV EV ltac:(intros; lia) ACC) as H.
  unfold z_rest in H. rewrite Nat.sub_diag in H. cbn [seq map] in H. rewrite msm_nil_l, (padd_0_r OK) in H. exact H.
Qed.
Print Assumptions C101_run.
Theorem C101_only R (OK : rist_ok R) m k V s an c c' : 0 < m -> (64 * Z.of_nat m < 2 ^ 32)%Z -> 2 ^ k = 64 * m ->
  m <= length V -> firstn m (vals V) = map (s_V s) (seq 0 m) -> c <> c' ->
  fst (grun (Verify R c (fs_proof R k V s an)) (Z.of_nat m)) = Ok true ->
  fst (grun (Verify R c' (fs_proof R k V s an)) (Z.of_nat m)) = Ok true ->
  accepts R m s an (fs_y R V s) (fs_z R V s) (fs_x R V s) (fs_w R V s an) (fs_rounds R k V s an).
Proof.
  intros H0 HB HK HV EV NC A1 A2. pose proof (fs_size k V s an m HK HB) as HS.
  destruct (C33_two_c R OK c c' (fs_proof R k V s an) (fs_ip k V s an) m eq_refl H0 HB HS HV NC A1 A2) as [E1 E2].
  exact (fs_sides OK k V s an m EV E1 E2).
Qed.
Print Assumptions C101_only.
(** In particular: numbers below 2^64, whatever the blinding factors and the vector S. *)
Theorem C101_numbers R (OK : rist_ok R) m k V ks bl alpha S c : 0 < m -> (64 * Z.of_nat m < 2 ^ 32)%Z -> 2 ^ k = 64 * m ->
  m <= length V -> (forall j, j < m -> (0 <= ks j < 2 ^ 64)%Z) ->
  firstn m (vals V) = map (fun j => padd R (smul R (of_Z (ks j)) (rp_Base R)) (smul R (bl j) (rp_Blind R))) (seq 0 m) ->
  rb S = f0 ->
  let p := part_proof m k m ks bl alpha S R V in
  let s := smap (reval R (64 * m)) (part_script m k m ks bl alpha S) in
  fs_y R V s <> f0 -> Forall (fun u => u <> f0) (fs_rounds R k V s (part_answers m k m ks bl alpha S)) ->
  pf_V R p = V /\ fst (grun (Verify R c p) (Z.of_nat m)) = Ok true.
Proof.
  intros H0 HB HK HV K EV ES p s Y NZ. split; [reflexivity|].
  destruct (C100_alone R OK m k m V ks bl alpha S c ltac:(lia) HB HK HV K EV ES Y NZ) as [H _]. apply H.
  unfold z_rest. rewrite Nat.sub_diag. apply msm_nil_l.
Qed.
Print Assumptions C101_numbers.
Example C101_ex : let V := [mkCom tiny (fadd (fmul (of_Z 5) (rp_Base tiny)) (fmul f1 (rp_Blind tiny))) f1] in
  let s := smap (reval tiny (64 * 1)) (part_script 1 6 1 (fun _ => 5%Z) (fun _ => f1) f1 five_S) in
  firstn 1 (vals V) = map (fun _ => padd tiny (smul tiny (of_Z 5) (rp_Base tiny)) (smul tiny f1 (rp_Blind tiny))) (seq 0 1) /\ rb five_S = f0 /\
  fs_y tiny V s <> f0 /\ Forall (fun u => u <> f0) (fs_rounds tiny 6 V s (part_answers 1 6 1 (fun _ => 5%Z) (fun _ => f1) f1 five_S)).
Proof.
  intros V s. destruct (fs_ones tiny (fun _ => eq_refl) V s (part_answers 1 6 1 (fun _ => 5%Z) (fun _ => f1) f1 five_S) 6) as (-> & _ & ->).
  split; [reflexivity|]. split; [reflexivity|]. split; [exact f1_neq_f0|].
  apply Forall_forall. intros u Hu. apply repeat_spec in Hu. subst u. exact f1_neq_f0.
Qed.
