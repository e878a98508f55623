(** Concurrent calls: panics and wrong answers; non-interactive runs of provers *)
From Coq Require Import String ZArith List Lia Bool Arith Field.
From Verif Require Import GoModel GoFacts Fld Rist RistFacts SpecVector VectorFacts VectorModel PedersenModel SpecPedersen PedersenFacts InnerProductModel InnerProductFacts IPPVerifyFacts SpecIPP SpecRange
  GlobModel GlobFacts RangeProofModel RangeFacts RangeRun RangeProps RangeProveFacts SpecHonest RangeMore
  SpecSound Poly IPSound RangeSound SoundPoints SpecRewind RewindIP RewindRange RewindHonest SpecFS.
Import ListNotations.
Local Open Scope nat_scope.

(** ** Prove *)
Section Crash.
Context {R : rist} (OK : rist_ok R).
Lemma fill_short (f g : nat -> F) n : forall i (sL sR : list F), i <= length sL -> length sL < i + n -> length sR = length sL ->
  for_loop i n (fun i '(sL, sR) => let! sL := set_idx sL i (f i) in let! sR := set_idx sR i (g i) in Ok (sL, sR)) (sL, sR) = Panic.
Proof.
  induction n as [|n IH]; intros i sL sR H1 H2 H3; [lia|]. cbn [for_loop bind]. unfold set_idx at 1.
  destruct (Nat.ltb_spec i (length sL)) as [C|C]; cbn [bind]; [|reflexivity]. unfold set_idx at 1.
  destruct (Nat.ltb_spec i (length sR)) as [C'|C']; cbn [bind]; [|reflexivity].
  apply IH; rewrite !upd_length; lia.
Qed.
Lemma drawS_late rs m n : m < n -> (64 * Z.of_nat n < 2 ^ 63)%Z -> late (Z.of_nat n) (drawS rs) (Z.of_nat m) Panic.
Proof.
  intros L B. unfold drawS. ls. rewrite make_n_ok. cbv beta iota. ls. rewrite make_n_ok. cbv beta iota. apply late_now.
  rewrite (for_run _ _ (Z.of_nat n) (fun i '(sL, sR) => let! sL := set_idx sL i (rs (2 * i)) in let! sR := set_idx sR i (rs (2 * i + 1)) in Ok (sL, sR))) with (n := 64 * n);
    [|intros i [sL sR]; reflexivity|lia|intros j Hj; apply Z.ltb_lt; unfold rN; lia|apply Z.ltb_ge; unfold rN; lia].
  cbn [fst]. apply (fill_short (fun i => rs (2 * i)) (fun i => rs (2 * i + 1))); unfold make_scalars; rewrite !repeat_length; lia.
Qed.
Lemma prove_padded_late v debug rs n : (64 * Z.of_nat (length v) < 2 ^ 32)%Z -> length v < n -> (64 * Z.of_nat n < 2 ^ 63)%Z ->
  late (Z.of_nat n) (prove_padded R v debug rs) (Z.of_nat (length v)) Panic.
Proof.
  intros HM L B. set (m := length v) in *. unfold prove_padded. ls. rewrite NM_eq by exact HM. rewrite ped_computed_the. cbv beta iota. ls.
  rewrite commit_loop_V. cbv beta iota. ls. rewrite bits_loop. cbv beta iota. ls.
  assert (PO : ped_ok genData (the_ped (R := R) genData (64 * m))) by (split; [reflexivity|]; split; [reflexivity|]; eexists; reflexivity).
  destruct (CommitToVectors_ok OK genData _ (rs (length v)) [allbits v; map (fun a => fsub a f1) (allbits v)] PO) as [p1 [E1 [PO1 _]]].
  { repeat constructor; rewrite ?map_length, allbits_length; lia. }
  rewrite E1. cbv beta iota. apply (late_left _ _ _ Panic); [reflexivity|]. apply drawS_late; assumption.
Qed.
Lemma Prove_late v debug rs m n : 1 <= length v <= 16 -> pad_size (length v) < n -> (64 * Z.of_nat n < 2 ^ 63)%Z ->
  late (Z.of_nat n) (Prove R v debug rs) m Panic.
Proof.
  intros H L B. destruct (pad_cases _ H) as [EP [HL _]]. rewrite Prove_tree by lia. cbn [late]. right. right.
  destruct (Z.ltb_spec maxM (Z.of_nat (length v))) as [D|D]; [unfold maxM in D; lia|]. cbn [late]. right. right. right.
  rewrite EP, Nat2Z.id. fold (padded v).
  replace (Z.of_nat (length v) + _)%Z with (Z.of_nat (length (padded v))) by (rewrite padded_length by exact H; lia).
  apply prove_padded_late; rewrite ?padded_length by exact H; lia.
Qed.
End Crash.

(** ** The change before the last read in Verify *)
Section Verify.
Context {R : rist} (OK : rist_ok R).
Local Notation "p [+] q" := (padd R p q) (at level 50, left associativity).
Local Notation "p [-] q" := (psub R p q) (at level 50, left associativity).
Local Notation "s [*] p" := (smul R s p) (at level 40, left associativity).
Lemma z_msm_split z n m V : n <= m -> m <= length V -> z_msm R z m V = z_msm R z n V [+] z_rest R z n m V.
Proof.
  intros L LV. unfold z_msm, z_rest. replace (seq 0 m) with (seq 0 n ++ seq n (m - n)).
  - rewrite map_app. rewrite <- (firstn_skipn n V) at 1.
    rewrite (msm_app OK) by (rewrite map_length, seq_length, firstn_length; lia).
    f_equal. symmetry. rewrite msm_firstn_r, map_length, seq_length. reflexivity.
  - pose proof (seq_app n (m - n) 0) as E. cbn [Nat.add] in E. rewrite <- E. f_equal. lia.
Qed.
Lemma late_check_rest m n c p ip z : z = rp_z R (rp_y R (vals (pf_V R p)) (pf_A R p) (pf_S R p)) -> n <= m -> m <= length (pf_V R p) ->
  late_check m n c p ip = rp_check m c p ip [+] z_rest R z n m (vals (pf_V R p)).
Proof.
  intros E L LV. unfold late_check, chals. cbv zeta. rewrite <- E. rewrite (z_msm_split z n m) by (unfold vals; rewrite ?map_length; lia).
  set (a := z_msm R z n _). set (b := z_rest R z n m _). clearbody a b. set (d := rp_check m c p ip). clearbody d. lin OK.
Qed.
Lemma verify_late_panic c p ip m n : pf_ip R p = Some ip -> 0 < m -> (64 * Z.of_nat m < 2 ^ 32)%Z -> sizes_ok m ip -> (Z.of_nat n < 2 ^ 32)%Z ->
  length (pf_V R p) < n -> late (Z.of_nat n) (Verify R c p) (Z.of_nat m) Panic.
Proof.
  intros EI H0 HM HS HN L. pose proof (Verify_late OK c p ip m n EI H0 HM HS HN) as H. destruct (Nat.ltb_spec (length (pf_V R p)) n); [exact H|lia].
Qed.
Lemma verify_late_check c p ip m n z : z = rp_z R (rp_y R (vals (pf_V R p)) (pf_A R p) (pf_S R p)) ->
  pf_ip R p = Some ip -> 0 < m -> (64 * Z.of_nat m < 2 ^ 32)%Z -> sizes_ok m ip -> n <= m -> m <= length (pf_V R p) ->
  late (Z.of_nat n) (Verify R c p) (Z.of_nat m)
    (if peqb R (pt0 R) (rp_check m c p ip [+] z_rest R z n m (vals (pf_V R p))) then Ok true else Err "megacheck failed"%string).
Proof.
  intros EZ EI H0 HM HS HN HV. pose proof (Verify_late OK c p ip m n EI H0 HM HS ltac:(lia)) as H. destruct (Nat.ltb_spec (length (pf_V R p)) n); [lia|].
  rewrite (late_check_rest m n c p ip z EZ HN HV) in H. exact H.
Qed.
End Verify.

(** ** Non-interactive runs *)
Section FS.
Context {R : rist} (OK : rist_ok R).
Lemma fs_us_length k : forall hs L Rr pre, length (fs_us R k hs L Rr pre) = k.
Proof. induction k as [|k IH]; intros; cbn [fs_us length]; [reflexivity|]. f_equal. apply IH. Qed.
Lemma fs_challenges k : forall hs L Rr pre, challenges R hs (rounds L pre (fs_us R k hs L Rr pre)) (rounds Rr pre (fs_us R k hs L Rr pre)) = fs_us R k hs L Rr pre.
Proof.
  induction k as [|k IH]; intros hs L Rr pre; cbn [fs_us]; cbv zeta; cbn [rounds challenges]; cbv zeta; [reflexivity|]. f_equal. apply IH.
Qed.
Context (k : nat) (V : list (commitment R)) (s : script (pt R)) (an : answers).
Local Notation "p [+] q" := (padd R p q) (at level 50, left associativity).
Local Notation y := (fs_y R V s).
Local Notation z := (fs_z R V s).
Local Notation x := (fs_x R V s).
Local Notation w := (fs_w R V s an).
Local Notation us := (fs_rounds R k V s an).
Local Notation p := (fs_proof R k V s an).
Definition fs_ip : ipproof R := mkIPP R (rounds (s_L s y z x w) [] us) (rounds (s_R s y z x w) [] us) (an_a an y z x w us) (an_b an y z x w us).
Lemma fs_size m : 2 ^ k = 64 * m -> (64 * Z.of_nat m < 2 ^ 32)%Z -> sizes_ok m fs_ip.
Proof.
  intros HK HB. unfold sizes_ok, fs_ip. cbn [ip_L ip_R]. rewrite !rounds_length. unfold fs_rounds. rewrite fs_us_length. split; [reflexivity|]. split; [|exact HK].
  apply (Nat.pow_lt_mono_r_iff 2); [lia|]. apply Nat2Z.inj_lt. rewrite HK, Nat2Z.inj_pow. change (Z.of_nat 2) with 2%Z. lia.
Qed.
Lemma msm_zeros (a : list F) : forall (P : list (pt R)), Forall (fun q => q = pt0 R) P -> msm R a P = pt0 R.
Proof.
  induction a as [|b a IH]; intros [|q P] H; rewrite ?msm_nil_l, ?msm_nil_r; try reflexivity.
  inversion H as [|? ? E H']; subst. rewrite msm_cons, IH by exact H'. rewrite smul_0_r by exact OK. apply (padd_0_l R OK).
Qed.
Lemma z_msm_first (f : nat -> pt R) (v : F) n m Vs : n <= m -> firstn n Vs = map f (seq 0 n) -> (forall j, n <= j < m -> f j = pt0 R) ->
  z_msm R v m (map f (seq 0 m)) = z_msm R v n Vs.
Proof.
  intros L E Z. rewrite (z_msm_split OK v n m) by (rewrite ?map_length, ?seq_length; lia).
  assert (E2 : seq 0 m = seq 0 n ++ seq n (m - n)) by (pose proof (seq_app n (m - n) 0) as E2; cbn [Nat.add] in E2; rewrite <- E2; f_equal; lia).
  unfold z_rest. rewrite msm_zeros.
  - rewrite (padd_0_r OK). unfold z_msm. rewrite msm_firstn_r, (msm_firstn_r _ Vs), map_length, seq_length, E. f_equal.
    rewrite E2, map_app, firstn_app, map_length, seq_length, Nat.sub_diag. cbn [firstn]. rewrite app_nil_r. apply firstn_all2. rewrite map_length, seq_length. lia.
  - apply Forall_forall. intros q Hq. rewrite E2, map_app, skipn_app, map_length, seq_length, Nat.sub_diag, skipn_all2 in Hq by (rewrite map_length, seq_length; lia).
    cbn [app skipn] in Hq. apply in_map_iff in Hq. destruct Hq as (j & <- & Hj). apply in_seq in Hj. apply Z. lia.
Qed.
(** the prover has answers for the first n commitments of V, followed by zeros *)
Lemma fs_check m n c : n <= m -> m <= length V -> firstn n (vals V) = map (s_V s) (seq 0 n) -> (forall j, n <= j < m -> s_V s j = pt0 R) ->
  accepts R m s an y z x w us -> rp_check m c p fs_ip [+] z_rest R z n m (vals V) = pt0 R.
Proof.
  intros L LV EV Z [HI HP]. unfold rp_check. change (chals p) with (y, z, x, w). cbv beta iota.
  unfold rp_ip_defect. cbn [pf_V pf_A pf_S pf_T1 pf_T2 pf_mu pf_t pf_taux fs_proof fs_ip ip_L ip_R ip_A ip_B]. cbv zeta.
  change (fs_us R k [] _ _ []) with us.
  replace (challenges R [] (rounds (s_L s y z x w) [] us) (rounds (s_R s y z x w) [] us)) with us by (symmetry; apply fs_challenges).
  unfold ip_holds in HI. cbv zeta in HI. rewrite HI. unfold poly_holds in HP. rewrite HP. unfold rp_poly_rhs.
  rewrite (z_msm_first (s_V s) z n m (vals V)) by assumption. rewrite (z_msm_split OK z n m (vals V)) by (unfold vals; rewrite ?map_length; lia).
  set (a := padd R (rp_P R m _ _ _ _ _ _ _ _) _). set (b := z_msm R z n _). set (d := z_rest R z n m _). clearbody a b d.
  set (e := smul R (delta y z m) _). clearbody e. set (t1 := s_T1 s y z). set (t2 := s_T2 s y z). clearbody t1 t2. lin OK.
Qed.
Lemma fs_sides m : firstn m (vals V) = map (s_V s) (seq 0 m) ->
  rp_ip_defect R m (ip_L R fs_ip) (ip_R R fs_ip) (ip_A R fs_ip) (ip_B R fs_ip) (s_A s) (s_S s) x y z w (an_mu an y z x) (an_t an y z x) = pt0 R ->
  psub R (rp_poly_lhs R (an_t an y z x) (an_taux an y z x)) (rp_poly_rhs R m (vals V) (s_T1 s y z) (s_T2 s y z) x y z) = pt0 R ->
  accepts R m s an y z x w us.
Proof.
  intros EV. unfold rp_ip_defect. cbn [fs_ip ip_L ip_R ip_A ip_B]. cbv zeta.
  replace (challenges R [] (rounds (s_L s y z x w) [] us) (rounds (s_R s y z x w) [] us)) with us by (symmetry; apply fs_challenges).
  rewrite !(psub_eq0 OK). intros E1 E2. split; [exact E1|]. unfold poly_holds. rewrite E2. unfold rp_poly_rhs, z_msm.
  rewrite msm_firstn_r, map_length, seq_length, EV. reflexivity.
Qed.
End FS.

(** ** A proof for n of m commitments *)
Lemma reval_com {R : rist} (OK : rist_ok R) n b l : reval R n (mkRep (fun _ => f0) (fun _ => f0) b l) = padd R (smul R b (rp_Base R)) (smul R l (rp_Blind R)).
Proof.
  unfold reval. cbn [rg rh rb rl].
  assert (Z : forall (P : list (pt R)) i, msm R (map (fun _ : nat => f0) (seq i n)) P = pt0 R).
  { induction n as [|n' IH]; intros [|q P] i; cbn [seq map]; rewrite ?msm_nil_l, ?msm_nil_r; try reflexivity.
    rewrite msm_cons, IH, (smul_0_l OK). apply (padd_0_l R OK). }
  rewrite !Z. lin OK.
Qed.
(** [ks], [bl]: the first n values and blinding factors; the other commitments count as zero *)
Section Attack.
Context (m k n : nat) (ks : nat -> Z) (bl : nat -> F) (alpha : F) (S : rep).
Definition part_k (j : nat) : Z := if j <? n then ks j else 0.
Definition part_V (j : nat) : rep := if j <? n then mkRep (fun _ => f0) (fun _ => f0) (of_Z (ks j)) (bl j) else rzero.
Definition part_bit (i : nat) : F := nth (i mod 64) (bits64 (part_k (i / 64))) f0.
Definition part_A : rep := mkRep part_bit (fun i => fsub (part_bit i) f1) f0 alpha.
Definition part_script : script rep := honest_script m k part_V part_A S.
Definition part_answers : answers := honest_answers m k part_V part_A S.
Definition part_proof (R : rist) (V : list (commitment R)) : proof R := fs_proof R k V (smap (reval R (64 * m)) part_script) part_answers.
Lemma bits64_bit v i : nth i (bits64 v) f0 = f0 \/ nth i (bits64 v) f0 = f1.
Proof.
  destruct (nth_in_or_default i (bits64 v) f0) as [I|E]; [|left; exact E]. apply in_map_iff in I.
  destruct I as (j & E & _). rewrite <- E. destruct (Z.testbit v (Z.of_nat j)); auto.
Qed.
Lemma bits64_sum v : (0 <= v < 2 ^ 64)%Z -> of_Z v = Sum 64 (fun i => fmul (fpow two i) (nth i (bits64 v) f0)).
Proof.
  intros K. pose proof (bits_dot v ltac:(lia)) as E. unfold low64 in E. rewrite Z.mod_small in E by exact K. rewrite <- E.
  assert (L : length (bits64 v) = 64) by (unfold bits64; rewrite map_length, seq_length; reflexivity).
  transitivity (dot (map (fun i => nth i (bits64 v) f0) (seq 0 64)) (powers two 64)).
  - rewrite <- L at 1. rewrite map_nth_seq. reflexivity.
  - unfold powers. rewrite dot_Sum. apply Sum_ext. intros i _. ring.
Qed.
Lemma part_ok : (forall j, j < n -> (0 <= ks j < 2 ^ 64)%Z) -> ok_A m part_V part_A.
Proof.
  intros K. split; [|split]; cbn [part_A rg rh].
  - intros j Hj. unfold part_V. split; [|split]; try (intros; destruct (j <? n); reflexivity).
    assert (E : of_Z (part_k j) = Sum 64 (fun i => fmul (fpow two i) (part_bit (64 * j + i)))).
    { rewrite bits64_sum. 2:{ unfold part_k. destruct (Nat.ltb_spec j n); [auto|lia]. }
      apply Sum_ext. intros i Hi. unfold part_bit. rewrite Nat.mul_comm, Nat.add_comm, Nat.mod_add, Nat.div_add, Nat.mod_small, Nat.div_small by lia. reflexivity. }
    rewrite <- E. unfold part_k. destruct (j <? n); reflexivity.
  - intros i _. unfold part_bit. destruct (bits64_bit (part_k (i / 64)) (i mod 64)) as [-> | ->]; ring.
  - intros i _. ring.
Qed.
Lemma part_accepts R (OK : rist_ok R) y z x w us : 2 ^ k = 64 * m -> length us = k -> rb S = f0 -> (forall j, j < n -> (0 <= ks j < 2 ^ 64)%Z) ->
  y <> f0 -> Forall (fun u => u <> f0) us -> accepts R m (smap (reval R (64 * m)) part_script) part_answers y z x w us.
Proof.
  intros HK LU ES K Y NZ. destruct (honest_gaps m k part_V part_A S y z x w us HK LU Y NZ eq_refl ES (part_ok K)) as [H1 H2].
  apply (gaps_accept R OK); [rewrite LU; exact HK|exact H1|exact H2].
Qed.
End Attack.
