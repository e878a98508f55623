(** Execution of Prove *)
From Coq Require Import String ZArith List Lia Bool Arith Field.
From Coq Require Import Init.Byte Strings.Byte.
From Verif Require Import GoModel GoFacts ReadModel GlobModel GlobFacts Fld Rist RistFacts SpecVector VectorModel VectorFacts
  SpecPedersen PedersenModel PedersenFacts PedersenProps SpecIPP InnerProductModel InnerProductFacts IPPVerifyFacts
  SpecRange RangeProofModel SpecHonest RangeFacts RangeProveFacts.
Import ListNotations.
Local Open Scope nat_scope.

(** ** Loops of Prove *)
Lemma fill2 (f g : nat -> F) n a b : length a = n -> length b = n ->
  for_loop 0 n (fun i '(sL, sR) => let! sL := set_idx sL i (f i) in let! sR := set_idx sR i (g i) in Ok (sL, sR)) (a, b)
  = Ok (map f (seq 0 n), map g (seq 0 n)).
Proof.
  intros La Lb.
  edestruct (for_loop_inv (fun k '(x, y) => length x = n /\ length y = n /\
     forall i, i < k -> nth_error x i = Some (f i) /\ nth_error y i = Some (g i))) as [[x y] [E P]]; cycle 2.
  - rewrite E. destruct P as [L1 [L2 P]]. f_equal. f_equal; apply nth_error_ext; intros i;
      (destruct (Nat.lt_ge_cases i n) as [C|C];
       [rewrite nth_error_map_seq by exact C; apply P; lia
       |rewrite (proj2 (nth_error_None _ _)) by lia; symmetry; apply nth_error_None; rewrite map_length, seq_length; exact C]).
  - split; [exact La|]. split; [exact Lb|]. intros i Hi. lia.
  - intros i [x y] Hi [L1 [L2 P]]. rewrite set_idx_ok by lia. cbn [bind]. rewrite set_idx_ok by lia. cbn [bind].
    eexists. split; [reflexivity|]. cbv beta iota. rewrite !upd_length. split; [exact L1|]. split; [exact L2|].
    intros j Hj. destruct (Nat.eq_dec j i) as [->|D].
    + rewrite !upd_same by lia. auto.
    + rewrite !upd_other by congruence. apply P. lia.
Qed.

Lemma drawS_run rs m : (64 * Z.of_nat m < 2 ^ 32)%Z -> grun (drawS rs) (Z.of_nat m) =
  (Ok (map (fun i => rs (2 * i)) (seq 0 (64 * m)), map (fun i => rs (2 * i + 1)) (seq 0 (64 * m))), Z.of_nat m).
Proof.
  intros HM. unfold drawS. gs. rewrite make_n_ok. cbv beta iota. gs. rewrite make_n_ok. cbv beta iota.
  rewrite (for_run _ _ (Z.of_nat m) (fun i '(sL, sR) => let! sL := set_idx sL i (rs (2 * i)) in let! sR := set_idx sR i (rs (2 * i + 1)) in Ok (sL, sR))) with (n := 64 * m);
    [|intros i [sL sR]; reflexivity|lia|intros j Hj; apply Z.ltb_lt; unfold rN; lia|apply Z.ltb_ge; unfold rN; lia].
  f_equal. apply fill2; apply repeat_length.
Qed.

Lemma bits_loop v : for_loop 0 (length v) (fun i '(aLs, aRs) =>
    let! vi := idx v i in
    let! (AL, AR) := BitCommit (to_Z vi) in
    Ok (aLs ++ AL, aRs ++ AR)) ([], []) = Ok (allbits v, map (fun a => fsub a f1) (allbits v)).
Proof.
  enough (H : forall a b, for_loop 0 (length v) (fun i '(aLs, aRs) =>
    let! vi := idx v i in let! (AL, AR) := BitCommit (to_Z vi) in
    Ok (aLs ++ AL, aRs ++ AR)) (a, b) = Ok (a ++ allbits v, b ++ map (fun a => fsub a f1) (allbits v))) by apply (H [] []).
  induction v as [|x v IH]; intros a b; cbn [length for_loop].
  - cbn. rewrite !app_nil_r. reflexivity.
  - cbn [idx nth_error bind]. rewrite BitCommit_ok. cbn [bind]. rewrite Z.abs_eq by apply to_Z_range.
    rewrite (for_loop_shift _ (fun i '(aLs, aRs) => let! vi := idx v i in let! (AL, AR) := BitCommit (to_Z vi) in
      Ok (aLs ++ AL, aRs ++ AR)) _ 0) by reflexivity.
    rewrite IH. unfold allbits. cbn [map concat]. rewrite map_app, <- !app_assoc. reflexivity.
Qed.

Section Run.
Context {R : rist} (OK : rist_ok R).
Local Notation "p [+] q" := (padd R p q) (at level 50, left associativity).
Local Notation "s [*] p" := (smul R s p) (at level 40, left associativity).

Definition the_ped (data : bytes) (n : nat) : pedersen R :=
  mkPed R (mkGen R data (chain R data n)) data (rp_Blind R) (rp_Base R).
Lemma ped_computed_the data n : ped_computed R data n = Ok (the_ped data n).
Proof. apply ped_computed_ok. Qed.

Lemma commit_loop_V n data rs v :
  for_loop 0 (length v) (fun i '(Vs, hs) =>
    let! amount := idx v i in
    let V := CommitToScalar R (the_ped data n) (rs i) amount in
    Ok (Vs ++ [V], hc_Append hs [pbytes R (c_val R V)])) ([], ([] : cacher))
  = Ok (zipw com v (map rs (seq 0 (length v))), concat (map (pbytes R) (vals (zipw com v (map rs (seq 0 (length v))))))).
Proof.
  enough (H : forall lo A (h : cacher) (ix : nat -> F) , (forall i, ix i = rs (lo + i)) -> 
   for_loop 0 (length v) (fun i '(Vs, hs) =>
    let! amount := idx v i in
    let V := CommitToScalar R (the_ped data n) (ix i) amount in
    Ok (Vs ++ [V], hc_Append hs [pbytes R (c_val R V)])) (A, h)
   = Ok (A ++ zipw com v (map rs (seq lo (length v))), h ++ concat (map (pbytes R) (vals (zipw com v (map rs (seq lo (length v)))))))).
  { apply (H 0 [] [] rs). reflexivity. }
  induction v as [|x v IH]; intros lo A h ix HX; cbn [length for_loop seq map zipw].
  - cbn. rewrite !app_nil_r. reflexivity.
  - cbn [idx nth_error bind]. cbv zeta.
    rewrite (for_loop_shift _ (fun i '(Vs, hs) =>
      let! amount := idx v i in
      let V := CommitToScalar R (the_ped data n) (ix (S i)) amount in
      Ok (Vs ++ [V], hc_Append hs [pbytes R (c_val R V)])) _ 0) by reflexivity.
    rewrite (IH (S lo) _ _ (fun i => ix (S i))).
    + rewrite HX, Nat.add_0_r. unfold hc_Append. cbn [fold_left vals map concat]. rewrite <- !app_assoc. reflexivity.
    + intros i. rewrite HX. f_equal. lia.
Qed.

Lemma CommitToVectors_the data n b u v : length u <= n -> length v <= n -> (Z.of_nat n < 2 ^ 32)%Z ->
  CommitToVectors R (the_ped data n) b [u; v] = Ok (the_ped data n, mkCom R (vec_commit R low_byte data b [u; v]) b).
Proof.
  intros Lu Lv Ln.
  assert (PO : ped_ok data (the_ped data n)) by (split; [reflexivity|]; split; [reflexivity|]; exists n; reflexivity).
  destruct (CommitToVectors_ok OK data (the_ped data n) b [u; v] PO) as [p' [E _]].
  { repeat constructor; lia. }
  rewrite E. f_equal. f_equal. revert E. unfold CommitToVectors. cbn [length for_loop idx nth_error bind Nat.eqb].
  unfold commitToScalars at 1. cbn [the_ped p_gens g_bases p_data p_blind p_base]. rewrite chain_length.
  destruct (Nat.ltb_spec n (length u)) as [C|C]; [lia|]. cbn [bind p_gens g_bases].
  destruct (for_loop 0 (length u) _ _) as [s|e|]; cbn [bind]; try discriminate.
  match goal with |- context [commitToScalars R ?p None v] => destruct (commitToScalars R p None v) as [[q c]|e|] end; cbn [bind]; try discriminate.
  intros E. injection E as E _. symmetry. exact E.
Qed.

Lemma computePoly_run aL aR sL sR y z m : (64 * Z.of_nat m < 2 ^ 32)%Z ->
  length aL = 64 * m -> length aR = 64 * m -> length sL = 64 * m -> length sR = 64 * m ->
  let l0 := map (fun x => fsub x z) aL in
  let yp := cpowers y (64 * m) in
  let r0 := vadd (zipw fmul (map (fun x => fadd x z) aR) yp) (z_two z m) in
  let r1 := zipw fmul yp sR in
  grun (computePoly aL aR sL sR y z) (Z.of_nat m) =
  (Ok (mkPoly l0 sL r0 r1 (dot l0 r0) (fadd (dot sL r0) (dot l0 r1)) (dot sL r1)), Z.of_nat m).
Proof.
  intros HM L1 L2 L3 L4. cbv zeta. unfold computePoly. gs. rewrite SubScalar_ok. cbv beta iota zeta. gs.
  rewrite ScalarPowers_c. cbv beta iota. rewrite NM_eq by exact HM. rewrite (run_bind (sumZMTwoN_run z m HM)). cbv beta iota. gs.
  rewrite AddScalar_ok. cbv beta iota. gs.
  rewrite Hadamard_ok by (rewrite map_length, cpowers_length; exact L2). cbv beta iota. gs.
  assert (LR0 : length (zipw fmul (map (fun x => fadd x z) aR) (cpowers y (64 * m))) = 64 * m)
    by (rewrite zipw_length; rewrite map_length, ?cpowers_length; exact L2).
  rewrite Add_ok by (rewrite LR0, z_two_length; reflexivity). cbv beta iota. gs.
  rewrite Hadamard_ok by (rewrite cpowers_length; auto). cbv beta iota. gs.
  assert (LR1 : length (zipw fmul (cpowers y (64 * m)) sR) = 64 * m) by (rewrite zipw_length; rewrite cpowers_length; auto).
  assert (LV : length (vadd (zipw fmul (map (fun x => fadd x z) aR) (cpowers y (64 * m))) (z_two z m)) = 64 * m)
    by (rewrite vadd_length; rewrite LR0, ?z_two_length; reflexivity).
  rewrite InnerProduct_ok by (rewrite map_length, LV; exact L1). cbv beta iota. gs.
  rewrite InnerProduct_ok by (rewrite LV; exact L3). cbv beta iota. gs.
  rewrite InnerProduct_ok by (rewrite map_length, LR1; exact L1). cbv beta iota zeta. gs.
  rewrite InnerProduct_ok by (rewrite LR1; exact L3). cbv beta iota. reflexivity.
Qed.

Lemma taux_loop z v : forall b zN s, length b = length v ->
  for_loop 0 (length (zipw (@com R) v b)) (fun i '(zN, sum) =>
    let! c := idx (zipw com v b) i in
    Ok (fmul zN z, fadd (fmul zN (c_blind R c)) sum)) (zN, s)
  = Ok (fmul zN (fpow z (length b)), fadd s (fmul zN (dot (powers z (length b)) b))).
Proof.
  induction v as [|x v IH]; intros [|y b] zN s L; try discriminate.
  - cbn. f_equal. f_equal; unfold fsum; ring.
  - cbn [zipw length for_loop idx nth_error bind].
    rewrite (for_loop_shift _ (fun i '(zN, sum) => let! c := idx (zipw com v b) i in
      Ok (fmul zN z, fadd (fmul zN (c_blind R c)) sum)) _ 0) by reflexivity.
    rewrite IH by (cbn in L; lia). f_equal. f_equal; [cbn [fpow]; ring|].
    rewrite powers_S, dot_cons, dot_vscale_l. cbn [com c_blind]. ring.
Qed.
Lemma computeTaux_ok x z t1 t2 v b : length b = length v ->
  computeTaux R x z t1 t2 (zipw com v b) = Ok (fadd (fadd (fmul x t1) (fmul (fmul x x) t2)) (z_dot z b)).
Proof.
  intros L. unfold computeTaux. rewrite taux_loop by exact L. cbn [bind]. f_equal. f_equal.
  unfold z_dot. replace (map (fun j => fpow z (j + 2)) (seq 0 (length b))) with (vscale (fmul z z) (powers z (length b))).
  - rewrite dot_vscale_l. ring.
  - unfold vscale, powers. rewrite map_map. apply map_ext. intros j. rewrite fpow_add. cbn. ring.
Qed.

Lemma hin_wf v rs : 0 < length v -> (64 * Z.of_nat (length v) < 2 ^ 32)%Z -> hp_wf (hin R v rs).
Proof. intros H HB. unfold hp_wf, hm. cbn [hin hv hbl h_sL h_sR]. rewrite !map_length, !seq_length. auto. Qed.

End Run.

Lemma debug_readonly {R : rist} x y z t v l r aLs aRs sL sR poly : readonly (debugChecks R x y z t v l r aLs aRs sL sR poly).
Proof. unfold debugChecks, debugProve, debugLxG, debugRxHPrime, debugT0. ro. Qed.

Section Debug.
Context {R : rist} (OK : rist_ok R).
Local Notation "p [+] q" := (padd R p q) (at level 50, left associativity).
Local Notation "s [*] p" := (smul R s p) (at level 40, left associativity).

Lemma i64_le a m : length a = 64 * m -> (64 * Z.of_nat m < 2 ^ 32)%Z -> (i64 (rN * Z.of_nat m) <= Z.of_nat (length (a : list F)))%Z.
Proof. intros L H. unfold rN. rewrite i64_small by lia. lia. Qed.

Lemma msm_repeat c n (G : list (pt R)) : length G = n -> msm R (repeat c n) G = c [*] psum R G.
Proof.
  intros L. subst n. induction G as [|g G IH]; cbn [length repeat].
  - unfold psum. cbn. symmetry. apply (smul_0_r OK).
  - rewrite msm_cons, IH. unfold psum. cbn [fold_right]. rewrite (smul_add_r R OK). reflexivity.
Qed.

Lemma of_Z_pow a i : of_Z (a ^ Z.of_nat i) = fpow (of_Z a) i.
Proof.
  induction i as [|i IH]; [reflexivity|]. rewrite Nat2Z.inj_succ, Z.pow_succ_r by lia. rewrite of_Z_mul, IH. reflexivity.
Qed.
Lemma Hprime_ok y H : computeHprime R H y = Ok (zipw (smul R) (powers (finv y) (length H)) H).
Proof.
  unfold computeHprime.
  edestruct (for_loop_inv (fun k (s : list (pt R)) => s = zipw (smul R) (powers (finv y) k) (firstn k H))) as [s' [E P]]; cycle 2.
  - rewrite E, P. cbn [Nat.add]. rewrite firstn_all. reflexivity.
  - reflexivity.
  - intros i s Hi ->. destruct (nth_error H i) as [p|] eqn:Ep; [|apply nth_error_None in Ep; lia].
    unfold idx. rewrite Ep. cbn [bind]. eexists. split; [reflexivity|].
    cbn [Nat.add]. rewrite powers_snoc.
    rewrite (proj2 (nth_error_split_eq _ _ _ Ep)).
    rewrite zipw_app by (rewrite powers_length, firstn_length; lia). cbn [zipw app]. f_equal. f_equal. f_equal.
    rewrite of_Z_pow, of_Z_to_Z. reflexivity.
Qed.

Context (h : hp_in R) (WF : hp_wf h).
Definition hpoly : polynomial := mkPoly (hl0 h) (h_sL h) (hr0 h) (hr1 h) (ht0 h) (ht1 h) (ht2 h).
Definition hdebug : gres unit :=
  debugChecks R (hx h) (hy h) (hz h) (ht h) (hv h) (hl h) (hr h) (haL h) (haR h) (h_sL h) (h_sR h) hpoly.

Lemma debugLxG_run : grun (debugLxG R (hl h) (hx h) (hz h) (haL h) (h_sL h)) (Z.of_nat (hm h)) = (Ok true, Z.of_nat (hm h)).
Proof.
  pose proof WF as [W0 [W1 [W2 [WP WB]]]].
  unfold debugLxG. gs. rewrite NM_eq by exact WB. rewrite ped_computed_the. cbv beta iota. gs.
  cbn [the_ped p_gens g_bases].
  pose proof (chain_length (R := R) genData (64 * hm h)) as LG. pose proof (hl_len h WF) as LL.
  pose proof (haL_len h) as LA.
  rewrite (Exp_ok OK) by (auto using i64_le; congruence). cbv beta iota. gs.
  rewrite (Exp_ok OK) by (auto using i64_le; congruence). cbv beta iota. gs.
  rewrite (Exp_ok OK) by (auto using i64_le; congruence). cbv beta iota. gs.
  rewrite FromScalar_ok. cbv beta iota. gs. rewrite ?NM_eq by exact WB.
  rewrite (Exp_ok OK); [|rewrite repeat_length; congruence|apply i64_le; [apply repeat_length|exact WB]]. cbv beta iota. gs.
  cbn [grun glift]. f_equal. f_equal. apply (peqb_ok R OK).
  unfold hl. rewrite (msm_vadd OK) by (rewrite vscale_length, hl0_len; auto). rewrite (msm_vscale OK).
  rewrite msm_repeat by exact LG.
  unfold hl0. rewrite (map_ext _ (fun x => fadd x (fneg (hz h)))) by (intros a; ring).
  rewrite (msm_map_add OK) by congruence. lin OK.
Qed.

Lemma debugRxH_run : exists b, grun (debugRxHPrime R (hr h) (hx h) (hy h) (hz h) (haR h) (h_sR h)) (Z.of_nat (hm h)) = (Ok b, Z.of_nat (hm h))
  /\ (hy h <> f0 -> b = true).
Proof.
  pose proof WF as [W0 [W1 [W2 [WP WB]]]].
  unfold debugRxHPrime. gs. rewrite NM_eq by exact WB. rewrite ped_computed_the. cbv beta iota. gs.
  cbn [the_ped p_gens g_bases].
  pose proof (chain_length (R := R) genData2 (64 * hm h)) as LG. pose proof (hr_len h WF) as LL.
  pose proof (haR_len h) as LA.
  rewrite Hprime_ok. cbv beta iota. rewrite LG.
  assert (LH : length (zipw (smul R) (powers (finv (hy h)) (64 * hm h)) (chain R genData2 (64 * hm h))) = 64 * hm h)
    by (rewrite zipw_length; rewrite powers_length; auto).
  gs. rewrite (Exp_ok OK) by (auto using i64_le; congruence). cbv beta iota. gs.
  rewrite (Exp_ok OK) by (auto using i64_le; congruence). cbv beta iota. gs.
  rewrite (Exp_ok OK) by (auto using i64_le; congruence). cbv beta iota. gs.
  rewrite ScalarPowers_c. cbv beta iota. gs. rewrite NM_eq by exact WB.
  rewrite MulScalar_vscale. cbv beta iota. gs.
  rewrite (Exp_ok OK); [|rewrite vscale_length, cpowers_length; congruence|apply i64_le; [rewrite vscale_length, cpowers_length; reflexivity|exact WB]].
  cbv beta iota.
  rewrite (run_bind (sumZMTwoN_run (hz h) (hm h) WB)). cbv beta iota. gs.
  rewrite (Exp_ok OK); [|rewrite z_two_length; congruence|apply i64_le; [apply z_two_length|exact WB]].
  cbv beta iota. gs. cbn [grun glift]. eexists. split; [reflexivity|]. intros N. apply (peqb_ok R OK).
  rewrite <- !(msm_had OK) by (rewrite ?powers_length, ?vscale_length, ?cpowers_length, ?z_two_length; auto).
  unfold hr, hr0, hr1. rewrite r_factors.
  - rewrite !(msm_vadd OK).
    + rewrite !(msm_map_add OK) by congruence. rewrite !(msm_vscale OK).
      rewrite (cpowers_nz _ _ N).
      assert (EZ : zipw fmul (vscale (hz h) (powers (hy h) (64 * hm h))) (powers (finv (hy h)) (64 * hm h)) = repeat (hz h) (64 * hm h)).
      { transitivity (vscale (hz h) (zipw fmul (powers (hy h) (64 * hm h)) (powers (finv (hy h)) (64 * hm h)))).
        - unfold vscale. rewrite zipw_l_map. generalize (powers (hy h) (64 * hm h)), (powers (finv (hy h)) (64 * hm h)).
          intros a. induction a as [|x a IH]; intros [|y b]; cbn; f_equal; auto; ring.
        - rewrite powers_inv by exact N. generalize (64 * hm h). induction n as [|n IH]; cbn; [reflexivity|]. f_equal; [ring|exact IH]. }
      rewrite EZ, msm_repeat by exact LG. lin OK.
    + rewrite map_length, vscale_length. congruence.
    + rewrite vadd_length; rewrite map_length, ?vscale_length; [|congruence].
      rewrite zipw_length; rewrite ?z_two_length, ?powers_length; congruence.
  - unfold hyp. rewrite cpowers_nz by exact N. rewrite powers_length. apply powers_inv. exact N.
  - rewrite powers_length, hyp_len. reflexivity.
  - rewrite hyp_len. exact LA.
  - rewrite hyp_len. exact W2.
  - rewrite hyp_len. apply z_two_length.
Qed.

Lemma debugT0_run : grun (debugT0 (haL h) (haR h) (hy h) (hz h)) (Z.of_nat (hm h)) = (Ok (ht0 h), Z.of_nat (hm h)).
Proof.
  pose proof WF as [W0 [W1 [W2 [WP WB]]]].
  unfold debugT0. gs. rewrite SubScalar_ok. cbv beta iota. gs. rewrite AddScalar_ok. cbv beta iota. gs.
  rewrite ScalarPowers_c. cbv beta iota. gs. rewrite NM_eq by exact WB.
  pose proof (haL_len h) as LA. pose proof (haR_len h) as LR.
  rewrite Hadamard_ok by (rewrite map_length, cpowers_length; auto). cbv beta iota.
  gs. rewrite (run_bind (sumZMTwoN_run (hz h) (hm h) WB)). cbv beta iota. gs.
  assert (L1 : length (zipw fmul (cpowers (hy h) (64 * hm h)) (map (fun x => fadd x (hz h)) (haR h))) = 64 * hm h)
    by (rewrite zipw_length; rewrite ?cpowers_length, ?map_length; auto).
  rewrite Add_ok by (rewrite L1, z_two_length; reflexivity). cbv beta iota.
  gs. rewrite InnerProduct_ok.
  - cbn [grun glift]. f_equal. f_equal. unfold ht0, hl0, hr0, hyp. f_equal.
    assert (C : forall a b, zipw fmul a b = zipw fmul b a).
    { induction a as [|x a IH]; intros [|y b]; cbn; f_equal; auto. ring. }
    rewrite (C (cpowers _ _)). unfold vadd.
    generalize (z_two (hz h) (hm h)), (zipw fmul (map (fun x => fadd x (hz h)) (haR h)) (cpowers (hy h) (64 * hm h))).
    intros a. induction a as [|x a IH]; intros [|y b]; cbn; f_equal; auto. ring.
  - rewrite map_length, vadd_length; rewrite z_two_length; congruence.
Qed.

Lemma T0_loop z : forall v acc w, for_loop 0 (length v) (fun i acc =>
    let! zi := idx (map (fun j => fmul w (fpow z j)) (seq 0 (length v))) i in let! vi := idx v i in Ok (fadd (fmul zi vi) acc)) acc
  = Ok (fadd acc (dot (map (fun j => fmul w (fpow z j)) (seq 0 (length v))) v)).
Proof.
  induction v as [|x v IH]; intros acc w.
  - cbn. f_equal. ring.
  - cbn [length for_loop seq map idx nth_error bind].
    rewrite (for_loop_shift _ (fun i acc => let! zi := idx (map (fun j => fmul (fmul w z) (fpow z j)) (seq 0 (length v))) i in
      let! vi := idx v i in Ok (fadd (fmul zi vi) acc)) _ 0).
    + rewrite IH. f_equal. rewrite dot_cons. rewrite <- seq_shift, map_map. cbn [fpow].
      rewrite (map_ext (fun x => fmul w (fmul z (fpow z x))) (fun x => fmul (fmul w z) (fpow z x))) by (intros; ring). ring.
    + intros i s. cbn [nth_error]. rewrite <- seq_shift, map_map. unfold idx. cbn [nth_error].
      rewrite (map_ext (fun x => fmul w (fpow z (S x))) (fun x => fmul (fmul w z) (fpow z x))) by (intros; cbn [fpow]; ring). reflexivity.
Qed.
Lemma computeT0_ok y z v m : length v = m -> (64 * Z.of_nat m < 2 ^ 32)%Z ->
  computeT0 y z v rN (u32 (Z.of_nat m)) = Ok (fadd (delta y z m) (z_dot z v)).
Proof.
  intros L HB. unfold computeT0. rewrite computeDelta_ok by exact HB. cbn [bind]. rewrite L.
  rewrite ScalarPowers_c. cbn [bind]. rewrite MulScalar_ok. cbn [bind].
  unfold u32. rewrite Z.mod_small by lia. rewrite Nat2Z.id. rewrite zpow2_c. unfold zpow2.
  rewrite (map_ext (fun j => fpow z (j + 2)) (fun j => fmul (fmul z z) (fpow z j))) by (intros; rewrite fpow_add; cbn [fpow]; ring).
  rewrite <- L at 2. rewrite <- L. rewrite T0_loop. cbn [bind]. f_equal. f_equal. unfold z_dot.
  rewrite (map_ext (fun j => fpow z (j + 2)) (fun j => fmul (fmul z z) (fpow z j))) by (intros; rewrite fpow_add; cbn [fpow]; ring).
  ring.
Qed.

Definition sizes_dbg (v : list F) : bool := forallb (fun a => debugsizeOfV (to_Z a)) v.
Lemma size_loop v : for_loop 0 (length v) (fun i u =>
      let! vi := idx v i in
      if negb (debugsizeOfV (to_Z vi)) then Err "[DEBUG]: Value v is more than 2^N - 1" else Ok u) tt
  = if sizes_dbg v then Ok tt else Err "[DEBUG]: Value v is more than 2^N - 1"%string.
Proof.
  induction v as [|x v IH]; [reflexivity|].
  cbn [length for_loop idx nth_error bind sizes_dbg forallb]. destruct (debugsizeOfV (to_Z x)); cbn [negb bind]; [|reflexivity].
  rewrite (for_loop_shift _ (fun i u => let! vi := idx v i in
    if negb (debugsizeOfV (to_Z vi)) then Err "[DEBUG]: Value v is more than 2^N - 1"%string else Ok u) _ 0) by reflexivity.
  exact IH.
Qed.
Lemma sizes_lowv v : sizes_dbg v = true -> lowv v = v.
Proof.
  unfold sizes_dbg, lowv. induction v as [|x v IH]; [reflexivity|]. cbn [forallb map]. rewrite andb_true_iff. intros [H1 H2].
  rewrite IH by exact H2. f_equal. apply Z.ltb_lt in H1. unfold rN in H1. unfold low64.
  rewrite Z.mod_small by (pose proof (to_Z_range x); lia). apply of_Z_to_Z.
Qed.

Lemma hdebug_run : exists r, grun hdebug (Z.of_nat (hm h)) = (r, Z.of_nat (hm h)) /\ r <> Panic /\ (hy h <> f0 -> r = if sizes_dbg (hv h) then Ok tt else Err "[Prove] - debugProve: [DEBUG]: Value v is more than 2^N - 1"%string).
Proof.
  pose proof WF as [W0 [W1 [W2 [WP WB]]]].
  unfold hdebug, debugChecks. destruct debugRxH_run as [b [EB HB]].
  assert (DP : grun (debugProve R (hx h) (hy h) (hz h) (hv h) (hl h) (hr h) (haL h) (haR h) (h_sL h) (h_sR h)) (Z.of_nat (hm h)) =
    (if b then if sizes_dbg (hv h) then Ok tt else Err "[DEBUG]: Value v is more than 2^N - 1"%string else Ok tt, Z.of_nat (hm h))).
  { unfold debugProve. rewrite (run_bind (run_wrap _ debugLxG_run)). cbv beta iota. cbn [negb].
    rewrite (run_bind (run_wrap _ EB)). cbv beta iota. destruct b; cbn [negb]; [rewrite size_loop|]; reflexivity. }
  assert (REST : grun (let* testT0 := gwrap "[Prove] - testT0" (debugT0 (haL h) (haR h) (hy h) (hz h)) in
     if negb (feqb testT0 (t0 hpoly)) then
       glift (Err "[Prove]: Test t0 value does not match the value calculated from the polynomial"%string)
     else
       let* m := getM in
       let* polyt0 := glift (computeT0 (hy h) (hz h) (hv h) rN (u32 m)) in
       if negb (feqb polyt0 (t0 hpoly)) then
         glift (Err "[Prove]: t0 value from delta function, does not match the polynomial t0 value(Correct)"%string)
       else if negb (feqb (ht h) (poly_eval hpoly (hx h))) then
         glift (Err "[Prove]: The t value computed from the t-poly, does not match the t value computed from the inner product of l and r"%string)
       else glift (Ok tt)) (Z.of_nat (hm h)) =
     (if feqb (fadd (delta (hy h) (hz h) (hm h)) (z_dot (hz h) (hv h))) (ht0 h) then Ok tt
      else Err "[Prove]: t0 value from delta function, does not match the polynomial t0 value(Correct)"%string, Z.of_nat (hm h))).
  { rewrite (run_bind (run_wrap _ debugT0_run)). cbv beta iota. cbn [hpoly t0]. rewrite feqb_refl. cbn [negb]. gs.
    rewrite computeT0_ok by (auto; exact WB). cbv beta iota.
    destruct (feqb _ (ht0 h)); cbn [negb]; [|reflexivity].
    replace (poly_eval hpoly (hx h)) with (ht h) by (rewrite (ht_poly h WF); reflexivity).
    rewrite feqb_refl. reflexivity. }
  destruct b; [destruct (sizes_dbg (hv h)) eqn:ES|].
  - rewrite (run_bind (run_wrap _ DP)). cbv beta iota.
    rewrite REST. eexists. split; [reflexivity|]. split; [destruct (feqb (fadd (delta (hy h) (hz h) (hm h)) (z_dot (hz h) (hv h))) (ht0 h)); discriminate|].
    intros N. rewrite (ht0_delta h N). rewrite sizes_lowv by exact ES. rewrite feqb_refl. reflexivity.
  - rewrite (run_bind (run_wrap_err _ DP)). cbv beta iota. eexists. split; [reflexivity|]. split; [discriminate|]. reflexivity.
  - rewrite (run_bind (run_wrap _ DP)). cbv beta iota.
    rewrite REST. eexists. split; [reflexivity|]. split; [destruct (feqb (fadd (delta (hy h) (hz h) (hm h)) (z_dot (hz h) (hv h))) (ht0 h)); discriminate|].
    intros N. specialize (HB N). discriminate.
Qed.
End Debug.


Section Run2.
Context {R : rist} (OK : rist_ok R).
Local Notation "p [+] q" := (padd R p q) (at level 50, left associativity).
Local Notation "s [*] p" := (smul R s p) (at level 40, left associativity).
Lemma prove_padded_run v debug rs : 0 < length v -> (64 * Z.of_nat (length v) < 2 ^ 32)%Z ->
  let h := hin R v rs in
  let m := Z.of_nat (length v) in
  grun (prove_padded R v debug rs) m =
  grun (let* _ := (if debug then hdebug h else glift (Ok tt)) in
        glift (if zero_challenge h then
                 Err "[Prove] - One of the challenge scalars, x, y, or z was equal to zero. Generate proof again"%string
               else let! ip := wrap "[Prove] -  ipproof"%string (hip h) in Ok (hproof h ip))) m.
Proof.
  intros H0 HM. cbv zeta. set (h := hin R v rs). set (m := length v) in *.
  assert (WF : hp_wf h) by (apply hin_wf; assumption).
  unfold prove_padded. gs. rewrite NM_eq by exact HM. rewrite ped_computed_the. cbv beta iota. gs.
  rewrite commit_loop_V. cbv beta iota. gs. rewrite bits_loop. cbv beta iota. gs.
  rewrite (CommitToVectors_the OK); [|rewrite allbits_length; fold m; lia|rewrite map_length, allbits_length; fold m; lia|lia].
  cbv beta iota. fold m.
  rewrite (run_bind (drawS_run (fun i => rs (m + 1 + i)) m HM)). cbv beta iota.
  rewrite !map_length, !seq_length. gs.
  rewrite (CommitToVectors_the OK); [|rewrite map_length, seq_length; lia|rewrite map_length, seq_length; lia|lia].
  cbv beta iota. cbn [c_val c_blind].
  (* fold the names of the honest proof *)
  change (allbits v) with (haL h). change (map (fun a => fsub a f1) (haL h)) with (haR h).
  change (map (fun i => rs (m + 1 + 2 * i)) (seq 0 (64 * m))) with (h_sL h).
  change (map (fun i => rs (m + 1 + (2 * i + 1))) (seq 0 (64 * m))) with (h_sR h).
  change (rs (m + 1 + (64 * m + 64 * m))) with (h_rho h).
  change (rs m) with (h_alpha h).
  change (vec_commit R low_byte genData (h_alpha h) [haL h; haR h]) with (hA h).
  change (vec_commit R low_byte genData (h_rho h) [h_sL h; h_sR h]) with (hS h).
  assert (EV : zipw com v (map rs (seq 0 m)) = hV h) by (unfold hV; cbn [hin hv hbl hextra h]; rewrite app_nil_r; reflexivity).
  rewrite EV. unfold computeYAndZ, hc_Result. rewrite !hc_Append_concat. cbn [concat]. rewrite !app_nil_r.
  change (sderive R (concat (map (pbytes R) (vals (hV h))) ++ pbytes R (hA h) ++ pbytes R (hS h))) with (hy h).
  change (sderive R (sbytes R (hy h))) with (hz h). cbv beta iota zeta.
  pose proof WF as [W0 [W1 [W2 _]]].
  pose proof (computePoly_run (haL h) (haR h) (h_sL h) (h_sR h) (hy h) (hz h) m HM (haL_len h) (haR_len h) W1 W2) as CP.
  cbv zeta in CP. rewrite (run_bind (run_wrap _ CP)). clear CP. cbv beta iota.
  change (mkPoly _ _ _ _ _ _ _) with (hpoly h). cbn [hpoly t1 t2]. cbv zeta.
  change (rs (m + 1 + (64 * m + 64 * m) + 1)) with (h_tau1 h).
  change (rs (m + 1 + (64 * m + 64 * m) + 2)) with (h_tau2 h).
  cbn [CommitToScalar c_val c_blind].
  change (padd R (smul R (ht1 h) (p_base R (the_ped genData (64 * m)))) (smul R (h_tau1 h) (p_blind R (the_ped genData (64 * m))))) with (hT1 h).
  change (padd R (smul R (ht2 h) (p_base R (the_ped genData (64 * m)))) (smul R (h_tau2 h) (p_blind R (the_ped genData (64 * m))))) with (hT2 h).
  unfold computeX, hc_Result.
  match goal with |- context [hc_Append ?a [sbytes R (hz h); ?b; ?c]] => set (HS := hc_Append a [sbytes R (hz h); b; c]) end.
  assert (EHS : HS = concat (map (pbytes R) (vals (hV h))) ++ pbytes R (hA h) ++ pbytes R (hS h) ++ sbytes R (hz h) ++ pbytes R (hT1 h) ++ pbytes R (hT2 h)).
  { unfold HS. rewrite hc_Append_concat. cbn [concat]. rewrite app_nil_r, <- !app_assoc. reflexivity. }
  assert (EX : sderive R HS = hx h) by (rewrite EHS; reflexivity).
  rewrite EX.
  gs. replace (computeTaux R (hx h) (hz h) (h_tau1 h) (h_tau2 h) (hV h)) with (Ok (htaux h)).
  2:{ rewrite <- EV. rewrite computeTaux_ok; [reflexivity|]. rewrite map_length, seq_length. reflexivity. }
  cbv beta iota. gs.
  change (computeMu (hx h) (h_alpha h) (h_rho h)) with (hmu h).
  assert (EL : computeL (hpoly h) (hx h) = Ok (hl h)).
  { unfold computeL. cbn [hpoly l1 l0]. rewrite MulScalar_vscale. cbn [bind]. rewrite Add_ok; [reflexivity|].
    rewrite hl0_len, vscale_length. auto. }
  assert (ER : computeR (hpoly h) (hx h) = Ok (hr h)).
  { unfold computeR. cbn [hpoly r1 r0]. rewrite MulScalar_vscale. cbn [bind]. rewrite Add_ok; [reflexivity|].
    rewrite hr0_len, vscale_length, hr1_len by exact WF. auto. }
  rewrite EL. cbv beta iota. gs. rewrite ER. cbv beta iota. gs.
  rewrite InnerProduct_ok by (rewrite (hl_len h WF), (hr_len h WF); reflexivity). cbv beta iota. fold (ht h).
  change (debugChecks R (hx h) (hy h) (hz h) (ht h) v (hl h) (hr h) (haL h) (haR h) (h_sL h) (h_sR h) (hpoly h)) with (hdebug h).
  rewrite !(grun_bind (if debug then _ else _)).
  destruct (grun (if debug then hdebug h else glift (Ok tt)) (Z.of_nat m)) as [[u|e|] m'] eqn:ED; cbn [fst snd]; try reflexivity.
  assert (EM : m' = Z.of_nat m).
  { destruct debug; [|cbn in ED; congruence]. pose proof (readonly_run (hdebug h) (Z.of_nat m) (debug_readonly _ _ _ _ _ _ _ _ _ _ _ _)) as HR.
    rewrite ED in HR. exact HR. }
  subst m'. fold (zero_challenge h). destruct (zero_challenge h); [reflexivity|].
  gs. rewrite ScalarPowers_c. cbv beta iota. gs. rewrite NM_eq by exact HM. rewrite ped_computed_the. cbv beta iota. gs.
  cbn [the_ped g_bases p_gens p_base].
  unfold hc_Derive. rewrite hc_Append_concat, EHS. cbn [concat]. rewrite app_nil_r, <- !app_assoc.
  match goal with |- context [Generate R ?g ?hh ?a ?b ?f ?q] => change (Generate R g hh a b f q) with (hip h) end.
  destruct (hip h) as [ip|e|]; cbv beta iota; reflexivity.
Qed.
End Run2.
