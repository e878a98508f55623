(** Facts about RangeProofModel.v: the pieces of Prove and Verify *)
From Coq Require Import String ZArith List Lia Bool Arith Field.
From Coq Require Import Init.Byte Strings.Byte.
From Verif Require Import GoModel GoFacts ReadModel GlobModel GlobFacts Fld Rist RistFacts SpecVector VectorModel VectorFacts
  SpecPedersen PedersenModel PedersenFacts PedersenProps SpecIPP InnerProductModel InnerProductFacts IPPVerifyFacts
  SpecRange RangeProofModel SpecHonest.
Import ListNotations.
Local Open Scope nat_scope.

(** ** Bits *)
Lemma set_idx_ok {A} (l : list A) i a : i < length l -> set_idx l i a = Ok (upd l i a).
Proof. intros H. unfold set_idx. destruct (Nat.ltb_spec i (length l)); [reflexivity|lia]. Qed.

Lemma bits64_length v : length (bits64 v) = 64. Proof. reflexivity. Qed.

Lemma u64_abs v : (0 <= v)%Z -> u64 (Z.abs v) = low64 v.
Proof. intros H. unfold u64, low64. rewrite Z.abs_eq by lia. reflexivity. Qed.

Lemma BitCommit_ok v : BitCommit v = Ok (bits64 (Z.abs v), map (fun a => fsub a f1) (bits64 (Z.abs v))).
Proof.
  unfold BitCommit. set (V := u64 (Z.abs v)).
  assert (VR : (0 <= V < 2 ^ 64)%Z) by (apply Z.mod_pos_bound; lia).
  set (ALs := bits64 (Z.abs v)). set (ARs := map (fun a => fsub a f1) ALs).
  edestruct (for_loop_inv (fun i '(num, AL, AR) => num = Z.shiftr V (Z.of_nat i) /\ length AL = 64 /\ length AR = 64 /\
     forall j, j < i -> nth_error AL j = nth_error ALs j /\ nth_error AR j = nth_error ARs j)) as [[[num AL] AR] [E P]]; cycle 2.
  - rewrite E. cbn [bind]. destruct P as [_ [L1 [L2 P]]]. f_equal. f_equal; apply nth_error_ext; intros j.
    + destruct (Nat.lt_ge_cases j 64) as [C|C]; [apply P; cbn; lia|].
      rewrite (proj2 (nth_error_None _ _)) by lia. symmetry. apply nth_error_None. exact C.
    + destruct (Nat.lt_ge_cases j 64) as [C|C]; [apply P; cbn; lia|].
      rewrite (proj2 (nth_error_None _ _)) by lia. symmetry. apply nth_error_None. exact C.
  - cbn. split; [reflexivity|]. split; [reflexivity|]. split; [reflexivity|]. intros j Hj. lia.
  - intros i [[num AL] AR] Hi [-> [L1 [L2 P]]].
    change (0 + Z.to_nat rN) with 64 in Hi.
    assert (TB : forall j, (j < 64)%nat -> nth_error ALs j = Some (if Z.testbit V (Z.of_nat j) then f1 else f0)).
    { intros j Hj. unfold ALs, bits64. rewrite nth_error_map_seq by exact Hj. f_equal.
      unfold V, u64. rewrite <- Z.land_ones by lia. rewrite Z.land_spec, Z.ones_spec_low by lia.
      rewrite andb_true_r. reflexivity. }
    assert (RM : Z.eqb (Z.shiftr V (Z.of_nat i) mod 2) 0 = negb (Z.testbit V (Z.of_nat i))).
    { pose proof (Z.bit0_mod (Z.shiftr V (Z.of_nat i))) as B. rewrite Z.shiftr_spec in B by lia.
      rewrite Z.add_0_l in B. rewrite <- B. destruct (Z.testbit V (Z.of_nat i)); reflexivity. }
    rewrite RM. rewrite Z.shiftr_shiftr by lia.
    pose proof (TB i ltac:(lia)) as TBi.
    destruct (Z.testbit V (Z.of_nat i)); cbn [negb]; rewrite !set_idx_ok by lia; cbn [bind]; eexists; (split; [reflexivity|]);
      cbv beta iota; rewrite !upd_length; (split; [f_equal; lia|]; split; [exact L1|]; split; [exact L2|]); intros j Hj;
      (destruct (Nat.eq_dec j i) as [->|D];
        [rewrite !upd_same by lia; unfold ARs; rewrite nth_error_map, TBi; cbn; split; [reflexivity|f_equal; ring]
        |rewrite !upd_other by congruence; apply P; lia]).
Qed.

(** <bits, 2^i> *)
Lemma of_Z_0 : of_Z 0 = f0. Proof. reflexivity. Qed.
Lemma bits_dot_gen n v : (0 <= v)%Z ->
  dot (map (fun i => if Z.testbit v (Z.of_nat i) then f1 else f0) (seq 0 n)) (powers two n) = of_Z (v mod 2 ^ Z.of_nat n).
Proof.
  intros H. induction n as [|n IH].
  - cbn. rewrite Z.mod_1_r. reflexivity.
  - rewrite powers_snoc, seq_S, map_app. cbn [map Nat.add].
    rewrite dot_app by (rewrite map_length, seq_length, powers_length; reflexivity).
    rewrite IH. rewrite dot_cons, dot_nil_l. unfold two. rewrite fpow_of_Z.
    assert (E : (v mod 2 ^ Z.of_nat (S n) = v mod 2 ^ Z.of_nat n + Z.b2z (Z.testbit v (Z.of_nat n)) * 2 ^ Z.of_nat n)%Z).
    { rewrite Nat2Z.inj_succ. pose proof (Z.testbit_spec' v (Z.of_nat n) ltac:(lia)) as B. rewrite B.
      rewrite Z.pow_succ_r by lia. rewrite (Z.mul_comm 2 (2 ^ _)).
      rewrite Z.rem_mul_r by (try apply Z.pow_nonzero; lia). ring. }
    rewrite E, of_Z_add, of_Z_mul.
    destruct (Z.testbit v (Z.of_nat n)); cbn [Z.b2z]; change (of_Z 1) with f1; change (of_Z 0) with f0; ring.
Qed.
Lemma bits_dot v : (0 <= v)%Z -> dot (bits64 v) (powers two 64) = of_Z (low64 v).
Proof. intros H. apply bits_dot_gen. exact H. Qed.

Lemma bits64_01 v : Forall (fun a => a = f0 \/ a = f1) (bits64 v).
Proof. unfold bits64. rewrite Forall_map. apply Forall_forall. intros i _. destruct (Z.testbit v (Z.of_nat i)); auto. Qed.

(** ** Powers *)
Lemma ScalarPowers_c a n : ScalarPowers a n = Ok (cpowers a n).
Proof. unfold cpowers. destruct (feqb_spec a f0) as [->|N]; [apply ScalarPowers_0|apply ScalarPowers_ok; exact N]. Qed.
Lemma cpowers_length a n : length (cpowers a n) = n.
Proof. unfold cpowers. destruct (feqb a f0); [apply repeat_length|apply powers_length]. Qed.
Lemma cpowers_nz a n : a <> f0 -> cpowers a n = powers a n.
Proof. intros N. unfold cpowers. destruct (feqb_spec a f0); [contradiction|reflexivity]. Qed.
Lemma fpow_0 k : 0 < k -> fpow f0 k = f0.
Proof. intros H. destruct k; [lia|]. cbn. ring. Qed.
Lemma nth_error_powers a n i : i < n -> nth_error (powers a n) i = Some (fpow a i).
Proof. apply nth_error_map_seq. Qed.
Lemma nth_error_cpowers a n i : 0 < i < n -> nth_error (cpowers a n) i = Some (fpow a i).
Proof.
  intros H. unfold cpowers. destruct (feqb_spec a f0) as [->|N]; [|apply nth_error_powers; lia].
  rewrite fpow_0 by lia. rewrite nth_error_repeat by lia. reflexivity.
Qed.
Lemma vscale_nth c l i : nth_error (vscale c l) i = option_map (fmul c) (nth_error l i).
Proof. apply nth_error_map. Qed.

(** z^2, z^3, ... *)
Definition zpow2 (z : F) (m : nat) : list F := map (fun j => fpow z (j + 2)) (seq 0 m).
Lemma zpow2_length z m : length (zpow2 z m) = m.
Proof. unfold zpow2. rewrite map_length, seq_length. reflexivity. Qed.
Lemma zpow2_c z m : map (fun x => fmul x (fmul z z)) (cpowers z m) = zpow2 z m.
Proof.
  apply nth_error_ext. intros i. destruct (Nat.lt_ge_cases i m) as [C|C].
  - unfold zpow2. rewrite nth_error_map_seq by exact C. rewrite nth_error_map.
    unfold cpowers. destruct (feqb_spec z f0) as [->|N].
    + rewrite nth_error_repeat by exact C. cbn. f_equal. rewrite fpow_0 by lia. ring.
    + rewrite nth_error_powers by exact C. cbn. f_equal. rewrite fpow_add. cbn. ring.
  - rewrite (proj2 (nth_error_None _ _)) by (rewrite map_length, cpowers_length; lia).
    symmetry. apply nth_error_None. rewrite zpow2_length. exact C.
Qed.

(** ** sumZMTwoN *)
Lemma z_two_length z m : length (z_two z m) = 64 * m.
Proof.
  unfold z_two. enough (H : forall lo, length (concat (map (fun j => vscale (fpow z (j + 2)) (powers two 64)) (seq lo m))) = 64 * m) by apply H.
  induction m as [|m IH]; intros lo; cbn [seq map concat]; [reflexivity|].
  rewrite app_length, IH, vscale_length, powers_length. lia.
Qed.
Lemma concat_blocks_nth {A} (f : nat -> list A) b : (forall j, length (f j) = b) -> forall m lo i, i < b * m ->
  nth_error (concat (map f (seq lo m))) i = nth_error (f (lo + i / b)) (i mod b).
Proof.
  intros HL. induction m as [|m IH]; intros lo i Hi; [lia|]. cbn [seq map concat].
  destruct (Nat.lt_ge_cases i b) as [C|C].
  - rewrite nth_error_app1 by (rewrite HL; exact C). rewrite Nat.div_small, Nat.mod_small, Nat.add_0_r by exact C. reflexivity.
  - rewrite nth_error_app2 by (rewrite HL; exact C). rewrite HL. rewrite IH by lia.
    assert (B : b <> 0) by lia.
    assert (E : i = (i - b) + 1 * b) by lia. rewrite E at 3 4. rewrite Nat.div_add, Nat.mod_add by exact B.
    f_equal. f_equal. lia.
Qed.
Lemma z_two_nth z m i : i < 64 * m ->
  nth_error (z_two z m) i = Some (fmul (fpow z (i / 64 + 2)) (fpow two (i mod 64))).
Proof.
  intros H. unfold z_two. rewrite (concat_blocks_nth _ 64).
  - cbn [Nat.add]. rewrite vscale_nth, nth_error_powers by (apply Nat.mod_upper_bound; lia). reflexivity.
  - intros j. rewrite vscale_length, powers_length. reflexivity.
  - exact H.
Qed.

Lemma NM_eq m : (64 * Z.of_nat m < 2 ^ 32)%Z -> NM (Z.of_nat m) = 64 * m.
Proof. intros H. unfold NM, rN, u32. rewrite Z.mod_small by lia. lia. Qed.

Lemma make_n_ok m : make_n (rN * Z.of_nat m) = Ok (make_scalars (64 * m)).
Proof. unfold make_n. destruct (Z.ltb_spec (rN * Z.of_nat m) 0) as [C|C]; [unfold rN in C; lia|]. do 2 f_equal. unfold rN. lia. Qed.
Lemma make_n_neg n : (n < 0)%Z -> make_n n = Panic.
Proof. intros H. unfold make_n. destruct (Z.ltb_spec n 0); [reflexivity|lia]. Qed.

Lemma sumZMTwoN_run z m : (64 * Z.of_nat m < 2 ^ 32)%Z ->
  grun (sumZMTwoN z) (Z.of_nat m) = (Ok (z_two z m), Z.of_nat m).
Proof.
  intros HM. unfold sumZMTwoN. gs. rewrite make_n_ok. cbv beta iota. gs. rewrite ScalarPowers_c. cbv beta iota. gs. rewrite ScalarPowers_c. cbv beta iota. gs.
  unfold u32. rewrite Z.mod_small by lia.
  replace (Z.to_nat (Z.of_nat m + 3)) with (m + 3) by lia.
  change (Z.to_nat rN) with 64.
  fold two. rewrite (cpowers_nz two) by (intros E; apply (f_equal to_Z) in E; revert E; vm_compute; discriminate).
  rewrite (for_run _ _ (Z.of_nat m) (fun i res => let! res := set_idx res i f0 in for_loop 1 m (fun j res =>
      if andb (Nat.leb ((j - 1) * 64) i) (Nat.ltb i (j * 64)) then
        let! zj := idx (cpowers z (m + 3)) (j + 1) in
        let! t := idx (powers two 64) (i - (j - 1) * 64) in
        let! r := idx res i in
        set_idx res i (fadd (fmul zj t) r)
      else Ok res) res)) with (n := 64 * m);
    [| |lia|intros j Hj; apply Z.ltb_lt; unfold rN; lia|apply Z.ltb_ge; unfold rN; lia].
  2:{ intros i res. rewrite run_lift. destruct (set_idx res i f0) as [res'|e|]; cbn [bind]; try reflexivity. cbv beta iota.
      apply for_run; [reflexivity|lia|intros j Hj; apply Z.leb_le; lia|apply Z.leb_gt; lia]. }
  f_equal.
  edestruct (for_loop_inv (fun i r => length r = 64 * m /\ forall j, j < i -> nth_error r j = nth_error (z_two z m) j)) as [r [E [LR P]]]; cycle 2.
  - rewrite E. f_equal. apply nth_error_ext. intros j. destruct (Nat.lt_ge_cases j (64 * m)) as [C|C]; [apply P; lia|].
    rewrite (proj2 (nth_error_None _ _)) by lia. symmetry. apply nth_error_None. rewrite z_two_length. exact C.
  - split; [apply repeat_length|]. intros j Hj. lia.
  - intros i r Hi [LR P]. rewrite set_idx_ok by lia. cbn [bind].
    set (val := fmul (fpow z (i / 64 + 2)) (fpow two (i mod 64))).
    edestruct (for_loop_inv (fun j r' => r' = upd r i (if Nat.ltb (i / 64 + 1) j then val else f0))) as [r' [E' P']]; cycle 2.
    + rewrite E'. eexists. split; [reflexivity|]. subst r'. split; [rewrite upd_length; exact LR|].
      assert (Q : i / 64 < m) by (apply Nat.div_lt_upper_bound; lia).
      destruct (Nat.ltb_spec (i / 64 + 1) (1 + m)); [|lia].
      intros j Hj. destruct (Nat.eq_dec j i) as [->|D].
      * rewrite upd_same by lia. rewrite z_two_nth by lia. reflexivity.
      * rewrite upd_other by congruence. apply P. lia.
    + destruct (Nat.ltb_spec (i / 64 + 1) 1); [lia|]. reflexivity.
    + intros j r' Hj ->. pose proof (Nat.div_mod i 64 ltac:(lia)) as DM. pose proof (Nat.mod_upper_bound i 64 ltac:(lia)) as MB.
      destruct (Nat.eq_dec j (i / 64 + 1)) as [->|D].
      * destruct (Nat.leb_spec ((i / 64 + 1 - 1) * 64) i); [|lia].
        destruct (Nat.ltb_spec i ((i / 64 + 1) * 64)); [|lia]. cbn [andb].
        rewrite (idx_some _ _ (fpow z (i / 64 + 1 + 1))) by (apply nth_error_cpowers; lia). cbn [bind].
        replace (i - (i / 64 + 1 - 1) * 64) with (i mod 64) by lia.
        rewrite (idx_some _ _ (fpow two (i mod 64))) by (apply nth_error_powers; lia). cbn [bind].
        destruct (Nat.ltb_spec (i / 64 + 1) (i / 64 + 1)); [lia|].
        rewrite (idx_some _ _ f0) by (apply upd_same; lia). cbn [bind].
        rewrite set_idx_ok by (rewrite upd_length; lia). eexists. split; [reflexivity|].
        rewrite upd_upd. destruct (Nat.ltb_spec (i / 64 + 1) (1 + (i / 64 + 1))); [|lia].
        f_equal. unfold val. rewrite <- Nat.add_assoc. cbn [Nat.add]. ring.
      * assert (B : (Nat.leb ((j - 1) * 64) i && Nat.ltb i (j * 64))%bool = false).
        { destruct (Nat.leb_spec ((j - 1) * 64) i); [|reflexivity]. destruct (Nat.ltb_spec i (j * 64)); [|reflexivity]. lia. }
        rewrite B. eexists. split; [reflexivity|]. f_equal.
        destruct (Nat.ltb_spec (i / 64 + 1) j), (Nat.ltb_spec (i / 64 + 1) (1 + j)); try reflexivity; lia.
Qed.

Lemma computeDelta_ok y z m : (64 * Z.of_nat m < 2 ^ 32)%Z ->
  computeDelta y z rN (u32 (Z.of_nat m)) = Ok (delta y z m).
Proof.
  intros H. unfold computeDelta. replace (u32 (Z.of_nat m)) with (Z.of_nat m) by (unfold u32; rewrite Z.mod_small; lia).
  unfold u32, rN. rewrite Z.mod_small by lia. replace (Z.to_nat (64 * Z.of_nat m)) with (64 * m) by lia.
  rewrite Nat2Z.id. rewrite !ScalarPowersSum_ok. cbn [bind]. reflexivity.
Qed.

(** ** Verify *)
(** programs of this package that only read M *)
Ltac ro := repeat match goal with
  | |- forall _, _ => intro
  | |- readonly (gbind _ _) => apply readonly_bind
  | |- readonly (GRet _) => exact I
  | |- readonly (gwrap _ _) => apply readonly_wrap
  | |- readonly (glift _) => exact I
  | |- readonly getM => exact (fun _ => I)
  | |- readonly (match ?r with _ => _ end) => destruct r
  | |- readonly (sumZMTwoN _) => unfold sumZMTwoN
  | |- readonly (gfor _ _ _ _) => apply readonly_for
  end.

Section Verify.
Context {R : rist} (OK : rist_ok R).
Local Notation "p [+] q" := (padd R p q) (at level 50, left associativity).
Local Notation "p [-] q" := (psub R p q) (at level 50, left associativity).
Local Notation "s [*] p" := (smul R s p) (at level 40, left associativity).

Lemma ped_computed_ok data n : ped_computed R data n =
  Ok (mkPed R (mkGen R data (chain R data n)) data (rp_Blind R) (rp_Base R)).
Proof.
  unfold ped_computed. cbv zeta. change (p_gens R (ped_New R data)) with (mkGen R data (chain R data 0)).
  rewrite (gen_Compute_ok data 0 n). reflexivity.
Qed.

Lemma fold_append V : forall hs, fold_left (fun hs V => hc_Append hs [pbytes R (c_val R V)]) V hs = hs ++ concat (map (pbytes R) (vals V)).
Proof.
  induction V as [|v V IH]; intros hs; cbn [fold_left vals map concat]; [symmetry; apply app_nil_r|].
  rewrite IH. unfold hc_Append. cbn [fold_left]. symmetry. apply app_assoc.
Qed.

(** the challenges of a proof *)
Definition chals (p : proof R) : F * F * F * F :=
  let V := vals (pf_V R p) in
  let y := rp_y R V (pf_A R p) (pf_S R p) in
  let z := rp_z R y in
  let x := rp_x R V (pf_A R p) (pf_S R p) z (pf_T1 R p) (pf_T2 R p) in
  let w := rp_w R V (pf_A R p) (pf_S R p) z (pf_T1 R p) (pf_T2 R p) x (pf_taux R p) (pf_mu R p) (pf_t R p) in
  (y, z, x, w).
Lemma verify_challenges_ok p : verify_challenges R p = chals p.
Proof.
  unfold verify_challenges, chals, computeYAndZ, computeX, hc_Derive, hc_Result. rewrite fold_append. cbn [app].
  rewrite !hc_Append_concat. cbn [concat]. rewrite !app_nil_r.
  unfold rp_w, rp_x, rp_y, rp_z. rewrite <- !app_assoc. reflexivity.
Qed.

Definition sizes_ok (m : nat) (ip : ipproof R) : Prop :=
  length (ip_L R ip) = length (ip_R R ip) /\ length (ip_L R ip) < 32 /\ 2 ^ length (ip_L R ip) = 64 * m.

Lemma msm_map_add s c G : length s = length G -> msm R (map (fun x => fadd x c) s) G = msm R s G [+] c [*] psum R G.
Proof.
  revert G. induction s as [|x s IH]; intros [|g G] L; try discriminate.
  - cbn [map]. rewrite !msm_nil_l. cbn. rewrite smul_0_r by exact OK. symmetry. apply (padd_0_l R OK).
  - cbn [map]. rewrite !msm_cons, IH by (cbn in L; lia). cbn [psum fold_right]. fold (psum R G). lin OK.
Qed.
Lemma msm_sub s t G : length s = length t -> msm R (zipw fsub s t) G = msm R s G [-] msm R t G.
Proof.
  revert t G. induction s as [|x s IH]; intros [|y t] [|g G] L; try discriminate; cbn [zipw];
    rewrite ?msm_nil_l, ?msm_nil_r; try (rewrite psub_smul, smul_0_r by exact OK; symmetry; apply (padd_0_l R OK)).
  rewrite !msm_cons, IH by (cbn in L; lia). lin OK.
Qed.
Lemma zipw_fmul_sub a b c : length a = length b -> length b = length c ->
  zipw fmul (zipw fsub a b) c = zipw fsub (zipw fmul a c) (zipw fmul b c).
Proof.
  revert b c. induction a as [|x a IH]; intros [|y b] [|w c] L1 L2; try discriminate; cbn [zipw]; [reflexivity|].
  rewrite IH by (cbn in *; lia). f_equal. ring.
Qed.

(** what Verify compares with zero *)
Definition rp_check (m : nat) (c : F) (p : proof R) (ip : ipproof R) : pt R :=
  let '(y, z, x, w) := chals p in
  c [*] rp_ip_defect R m (ip_L R ip) (ip_R R ip) (ip_A R ip) (ip_B R ip) (pf_A R p) (pf_S R p) x y z w (pf_mu R p) (pf_t R p)
  [+] (rp_poly_lhs R (pf_t R p) (pf_taux R p) [-] rp_poly_rhs R m (vals (pf_V R p)) (pf_T1 R p) (pf_T2 R p) x y z).

Lemma map_fmul_r c l : map (fun x => fmul x c) l = vscale c l.
Proof. apply map_ext. intros x. ring. Qed.

Lemma V_loop l : forall V acc, length l <= length V ->
  for_loop 0 (length l) (fun i c9 => let! Vi := idx V i in let! zi := idx l i in Ok (c9 [+] zi [*] c_val R Vi)) acc
  = Ok (acc [+] msm R l (vals V)).
Proof.
  induction l as [|x l IH]; intros [|v V] acc L; cbn [length] in L; try lia.
  1,2: cbn [length for_loop]; rewrite msm_nil_l, (padd_0_r OK); reflexivity.
  cbn [length for_loop idx nth_error bind].
  rewrite (for_loop_shift _ (fun i c9 => let! Vi := idx V i in let! zi := idx l i in Ok (c9 [+] zi [*] c_val R Vi)) _ 0) by reflexivity.
  rewrite IH by lia. cbn [vals map]. rewrite msm_cons. f_equal. symmetry. apply (padd_assoc R OK).
Qed.
Lemma V_loop_short l : forall V acc, length V < length l ->
  for_loop 0 (length l) (fun i c9 => let! Vi := idx V i in let! zi := idx l i in Ok (c9 [+] zi [*] c_val R Vi)) acc = Panic.
Proof.
  induction l as [|x l IH]; intros [|v V] acc L; cbn [length] in L; try lia.
  - reflexivity.
  - cbn [length for_loop idx nth_error bind].
    rewrite (for_loop_shift _ (fun i c9 => let! Vi := idx V i in let! zi := idx l i in Ok (c9 [+] zi [*] c_val R Vi)) _ 0) by reflexivity.
    apply IH. lia.
Qed.

(** the inner-product part has the wrong size: an error *)
Lemma Verify_sizes_err c p ip m : pf_ip R p = Some ip -> 0 < m -> (64 * Z.of_nat m < 2 ^ 32)%Z -> ~ sizes_ok m ip ->
  grun (Verify R c p) (Z.of_nat m) = (Err "length of slice of scalars a does not equal length of slices of points b", Z.of_nat m).
Proof.
  intros HI H0 HM NS. unfold Verify. gs. rewrite ped_computed_ok. cbv beta iota. gs. rewrite ped_computed_ok. cbv beta iota.
  destruct (verify_challenges R p) as [[[y z] x] w]. unfold megacheckWithC. rewrite HI. cbn [g_bases p_gens].
  rewrite NM_eq by exact HM. gs.
  assert (V : exists a b s, VerifScalars R ip = Ok (a, b, s) /\ length s <> 64 * m).
  { destruct (Nat.eq_dec (length (ip_L R ip)) (length (ip_R R ip))) as [E|E].
    - destruct (Nat.lt_ge_cases (length (ip_L R ip)) 32) as [C|C].
      + pose proof (VerifScalars_ok ip E C) as V. cbn zeta in V. do 3 eexists. split; [exact V|].
        rewrite svec_length, challenges_length by exact E. intros X. apply NS. split; [exact E|]. split; [exact C|exact X].
      + destruct (VerifScalars_wrap ip E C) as [a [b [s V]]]. exists a, b, [s]. split; [exact V|]. cbn. lia.
    - rewrite VerifScalars_neq by exact E. exists [], [], []. split; [reflexivity|]. cbn. lia. }
  destruct V as [a [b [s [V LS]]]]. rewrite V. cbv beta iota. gs. rewrite reverse_ok. cbv beta iota. gs.
  rewrite MulScalar_ok. cbv beta iota. gs. rewrite AddScalar_ok. cbv beta iota. gs. rewrite MulScalar_ok. cbv beta iota. gs.
  rewrite Exp_err_len by (rewrite !map_length, chain_length; exact LS). reflexivity.
Qed.

Lemma megacheck_sum c c1 c2 cw ab t d mu taux x (Gb Hb A S T1 T2 c7 c8 c9 : pt R) :
  c1 [+] c2 [+] fadd (fmul cw ab) (fsub t d) [*] Gb [+] fadd (fmul mu c) taux [*] Hb [-] c [*] A [-] fmul c x [*] S
    [-] c [*] c7 [-] c [*] c8 [-] c9 [-] x [*] T1 [-] fmul x x [*] T2 =
  (c1 [+] c2 [+] fmul cw ab [*] Gb [+] fmul mu c [*] Hb [-] c [*] A [-] fmul c x [*] S [-] c [*] c7 [-] c [*] c8) [+]
  ((t [*] Gb [+] taux [*] Hb) [-] (d [*] Gb [+] c9 [+] x [*] T1 [+] fmul x x [*] T2)).
Proof. lin OK. Qed.

(** when M is m, and changed to n before it is read for the last time *)
Definition late_check (m n : nat) (c : F) (p : proof R) (ip : ipproof R) : pt R :=
  let '(y, z, x, w) := chals p in
  rp_check m c p ip [+] (z_msm R z m (vals (pf_V R p)) [-] z_msm R z n (vals (pf_V R p))).
Lemma Verify_late c p ip m n : pf_ip R p = Some ip -> 0 < m -> (64 * Z.of_nat m < 2 ^ 32)%Z -> sizes_ok m ip -> (Z.of_nat n < 2 ^ 32)%Z ->
  late (Z.of_nat n) (Verify R c p) (Z.of_nat m)
  (if Nat.ltb (length (pf_V R p)) n then Panic
   else if peqb R (pt0 R) (late_check m n c p ip) then Ok true else Err "megacheck failed"%string).
Proof.
  intros HI H0 HM [E1 [E2 E3]] HN. unfold Verify. ls. rewrite ped_computed_ok. cbv beta iota. ls. rewrite ped_computed_ok. cbv beta iota.
  rewrite verify_challenges_ok. unfold late_check, rp_check. destruct (chals p) as [[[y z] x] w].
  unfold megacheckWithC. rewrite HI. cbn [g_bases p_gens p_base p_blind].
  rewrite NM_eq by exact HM. ls.
  pose proof (VerifScalars_ok ip E1 E2) as VS. cbn zeta in VS. rewrite VS. clear VS.
  set (us := challenges R [] (ip_L R ip) (ip_R R ip)).
  assert (LU : length us = length (ip_L R ip)) by (apply challenges_length; exact E1).
  assert (LSV : length (svec us) = 64 * m) by (rewrite svec_length, LU; exact E3).
  cbv beta iota. ls. rewrite reverse_ok. cbv beta iota. ls.
  rewrite MulScalar_ok. cbv beta iota. ls. rewrite AddScalar_ok. cbv beta iota. ls. rewrite MulScalar_ok. cbv beta iota. ls.
  rewrite (Exp_ok OK); [|rewrite !map_length, chain_length; exact LSV|rewrite !map_length, chain_length, i64_small; lia].
  cbv beta iota. ls. rewrite MulScalar_ok. cbv beta iota. ls. apply (late_run_bind _ (sumZMTwoN_run z m HM)). cbv beta iota. ls.
  rewrite Sub_ok; [|rewrite map_length, rev_length, z_two_length; exact LSV]. cbv beta iota. ls.
  rewrite ScalarPowers_c. cbv beta iota. ls. rewrite NM_eq by exact HM.
  rewrite Hadamard_ok; [|rewrite zipw_length; rewrite map_length, rev_length, ?cpowers_length, ?z_two_length; exact LSV].
  cbv beta iota. ls. rewrite SubScalar_ok. cbv beta iota. ls. rewrite MulScalar_ok. cbv beta iota. ls.
  assert (LH : length (zipw fmul (zipw fsub (map (fun x0 => fmul x0 (ip_B R ip)) (rev (svec us))) (z_two z m)) (cpowers (finv y) (64 * m))) = 64 * m).
  { rewrite !zipw_length; rewrite ?zipw_length; rewrite ?map_length, ?rev_length, ?cpowers_length, ?z_two_length; exact LSV. }
  rewrite (Exp_ok OK); [|rewrite !map_length, chain_length; exact LH|rewrite !map_length, chain_length, LH, i64_small; lia].
  cbv beta iota. ls. rewrite computeDelta_ok by exact HM. cbv beta iota. ls.
  rewrite (Exp_ok OK); [|rewrite map_length; exact LU|rewrite map_length, LU, i64_small; lia]. cbv beta iota. ls.
  rewrite (Exp_ok OK); [|rewrite map_length; congruence|rewrite map_length, <- E1, LU, i64_small; lia]. cbv beta iota zeta.
  apply late_now. gs. rewrite ScalarPowers_c. cbv beta iota. gs. rewrite MulScalar_ok. cbv beta iota. gs.
  replace (Z.to_nat (u32 (Z.of_nat n))) with n by (unfold u32; rewrite Z.mod_small; lia).
  rewrite zpow2_c.
  destruct (Nat.ltb_spec (length (pf_V R p)) n) as [CV|CV].
  { rewrite V_loop_short by (rewrite zpow2_length; exact CV). reflexivity. }
  rewrite V_loop by (rewrite zpow2_length; exact CV). cbv beta iota.
  rewrite megacheck_sum.
  match goal with |- context [peqb R (pt0 R) ?a] => match goal with |- _ = (if peqb R (pt0 R) ?b then _ else _) =>
    replace a with b; [destruct (peqb R (pt0 R) b); reflexivity|] end end.
  unfold rp_poly_lhs, rp_poly_rhs, z_msm. fold (zpow2 z m). fold (zpow2 z n). rewrite (padd_0_l R OK).
  match goal with |- ?D [+] (?a [-] (?b [+] ?vm [+] ?c1 [+] ?c2)) [+] (?vm [-] ?vn) = ?E [+] _ =>
    transitivity (D [+] (a [-] (b [+] vn [+] c1 [+] c2))); [generalize D; intros; lin OK|f_equal] end.
  unfold rp_ip_defect. fold us. rewrite lr_sum_msm by congruence. unfold rp_P.
  rewrite !map_fmul_r, !(msm_vscale OK), msm_map_add by (rewrite vscale_length, chain_length; exact LSV).
  rewrite (msm_vscale OK). change (chain R genData (64 * m)) with (rp_G R (64 * m)). change (chain R genData2 (64 * m)) with (rp_H R (64 * m)).
  rewrite (map_ext (fun x0 => fsub x0 z) (fun x0 => fadd x0 (fneg z))) by (intros; ring).
  rewrite map_fmul_r in LH.
  rewrite msm_map_add by (rewrite LH; unfold rp_H; rewrite chain_length; reflexivity).
  rewrite zipw_fmul_sub; [|rewrite vscale_length, rev_length, z_two_length; exact LSV|rewrite z_two_length, cpowers_length; reflexivity].
  rewrite msm_sub by (rewrite !zipw_length; rewrite ?vscale_length, ?rev_length, ?z_two_length, ?cpowers_length; lia).
  rewrite rev_svec.
  assert (HV : zipw fmul (vscale (ip_B R ip) (svec (map finv us))) (cpowers (finv y) (64 * m))
    = vscale (ip_B R ip) (zipw fmul (svec (map finv us)) (cpowers (finv y) (64 * m)))).
  { generalize (cpowers (finv y) (64 * m)). induction (svec (map finv us)) as [|a l IH]; intros [|b q]; try reflexivity.
    cbn [vscale map zipw]. f_equal; [ring|]. apply IH. }
  rewrite HV, (msm_vscale OK).
  lin OK.
Qed.
Lemma late_check_same m c p ip : late_check m m c p ip = rp_check m c p ip.
Proof. unfold late_check. destruct (chals p) as [[[y z] x] w]. lin OK. Qed.

Lemma Verify_readonly c p : readonly (Verify R c p).
Proof.
  unfold Verify. destruct (verify_challenges R p) as [[[y z] x] w]. unfold megacheckWithC. ro.
Qed.

Lemma Verify_run c p ip m : pf_ip R p = Some ip -> 0 < m -> (64 * Z.of_nat m < 2 ^ 32)%Z -> sizes_ok m ip ->
  grun (Verify R c p) (Z.of_nat m) =
  (if Nat.ltb (length (pf_V R p)) m then Panic
   else if peqb R (pt0 R) (rp_check m c p ip) then Ok true else Err "megacheck failed"%string, Z.of_nat m).
Proof.
  intros HI H0 HM HS. pose proof (Verify_late c p ip m m HI H0 HM HS ltac:(lia)) as H.
  apply late_run in H; [|apply Verify_readonly]. rewrite late_check_same in H. rewrite <- H.
  rewrite <- (readonly_run (Verify R c p) (Z.of_nat m) (Verify_readonly c p)) at 3. apply surjective_pairing.
Qed.
End Verify.
