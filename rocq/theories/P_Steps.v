(** Property C118: the steps of Prove on vectors of any lengths. *)
From Coq Require Import String ZArith List Lia Bool Arith.
From Coq Require Import Init.Byte.
From Verif Require Import GoModel GoFacts Fld Rist RistFacts RistInst SpecVector SpecIPP SpecRange VectorModel VectorFacts PedersenModel PedersenFacts SpecPedersen
  InnerProductModel InnerProductFacts IPPVerifyFacts GlobModel GlobFacts RangeProofModel SpecHonest RangeFacts RangeRun RangeProveFacts.
Import ListNotations.
Local Open Scope nat_scope.

Lemma had_len a b : length a <> length b -> Hadamard a b = Err "Length of a does not equal length of b"%string.
Proof. intros N. unfold Hadamard. destruct (Nat.eqb_spec (length a) (length b)); [contradiction|reflexivity]. Qed.
Lemma add_len a b : length a <> length b -> Add a b = Err "Length of a does not equal b"%string.
Proof. intros N. unfold Add. destruct (Nat.eqb_spec (length a) (length b)); [contradiction|reflexivity]. Qed.
Lemma ip_len a b : length a <> length b -> InnerProduct a b = Err "[Inner Product]:Length of a does not equal length of b"%string.
Proof. intros N. unfold InnerProduct. destruct (Nat.eqb_spec (length a) (length b)); [contradiction|reflexivity]. Qed.

(** C118.  computePoly with M = m: the polynomials l and r and the coefficients of t, or the error of the first
    vector that does not have 64 m elements, in the order aR, sR, aL, sL. *)
Theorem C118_poly aL aR sL sR y z m : (64 * Z.of_nat m < 2 ^ 32)%Z ->
  let l0 := map (fun a => fsub a z) aL in
  let yp := cpowers y (64 * m) in
  let r0 := vadd (zipw fmul (map (fun a => fadd a z) aR) yp) (z_two z m) in
  let r1 := zipw fmul yp sR in
  grun (computePoly aL aR sL sR y z) (Z.of_nat m) =
  (if negb (Nat.eqb (length aR) (64 * m)) then Err "[ComputePoly] - r0 (1): Length of a does not equal length of b"%string
   else if negb (Nat.eqb (length sR) (64 * m)) then Err "[ComputePoly] - r1: Length of a does not equal length of b"%string
   else if negb (Nat.eqb (length aL) (64 * m)) then Err "[ComputePoly] - t0: [Inner Product]:Length of a does not equal length of b"%string
   else if negb (Nat.eqb (length sL) (64 * m)) then Err "[ComputePoly] - t1Left: [Inner Product]:Length of a does not equal length of b"%string
   else Ok (mkPoly l0 sL r0 r1 (dot l0 r0) (fadd (dot sL r0) (dot l0 r1)) (dot sL r1)), Z.of_nat m).
Proof.
  intros HM. cbv zeta.
  destruct (Nat.eqb_spec (length aR) (64 * m)) as [L2|L2]; cbn [negb].
  2:{ unfold computePoly. gs. rewrite SubScalar_ok. cbv beta iota zeta. gs.
      rewrite ScalarPowers_c. cbv beta iota. rewrite NM_eq by exact HM. rewrite (run_bind (sumZMTwoN_run z m HM)). cbv beta iota. gs.
      rewrite AddScalar_ok. cbv beta iota. gs. rewrite had_len by (rewrite map_length, cpowers_length; exact L2). reflexivity. }
  assert (LR0 : length (zipw fmul (map (fun x => fadd x z) aR) (cpowers y (64 * m))) = 64 * m)
    by (rewrite zipw_length; rewrite map_length, ?cpowers_length; exact L2).
  assert (LV : length (vadd (zipw fmul (map (fun x => fadd x z) aR) (cpowers y (64 * m))) (z_two z m)) = 64 * m)
    by (rewrite vadd_length; rewrite LR0, ?z_two_length; reflexivity).
  destruct (Nat.eqb_spec (length sR) (64 * m)) as [L4|L4]; cbn [negb].
  - destruct (Nat.eqb_spec (length aL) (64 * m)) as [L1|L1]; cbn [negb].
    + destruct (Nat.eqb_spec (length sL) (64 * m)) as [L3|L3]; cbn [negb]; [exact (computePoly_run aL aR sL sR y z m HM L1 L2 L3 L4)|].
      unfold computePoly. gs. rewrite SubScalar_ok. cbv beta iota zeta. gs.
      rewrite ScalarPowers_c. cbv beta iota. rewrite NM_eq by exact HM. rewrite (run_bind (sumZMTwoN_run z m HM)). cbv beta iota. gs.
      rewrite AddScalar_ok. cbv beta iota. gs. rewrite Hadamard_ok by (rewrite map_length, cpowers_length; exact L2). cbv beta iota. gs.
      rewrite Add_ok by (rewrite LR0, z_two_length; reflexivity). cbv beta iota. gs.
      rewrite Hadamard_ok by (rewrite cpowers_length; auto). cbv beta iota. gs.
      rewrite InnerProduct_ok by (rewrite map_length, LV; exact L1). cbv beta iota. gs.
      rewrite ip_len by (rewrite LV; exact L3). reflexivity.
    + unfold computePoly. gs. rewrite SubScalar_ok. cbv beta iota zeta. gs.
      rewrite ScalarPowers_c. cbv beta iota. rewrite NM_eq by exact HM. rewrite (run_bind (sumZMTwoN_run z m HM)). cbv beta iota. gs.
      rewrite AddScalar_ok. cbv beta iota. gs. rewrite Hadamard_ok by (rewrite map_length, cpowers_length; exact L2). cbv beta iota. gs.
      rewrite Add_ok by (rewrite LR0, z_two_length; reflexivity). cbv beta iota. gs.
      rewrite Hadamard_ok by (rewrite cpowers_length; auto). cbv beta iota. gs.
      rewrite ip_len by (rewrite map_length, LV; exact L1). reflexivity.
  - unfold computePoly. gs. rewrite SubScalar_ok. cbv beta iota zeta. gs.
    rewrite ScalarPowers_c. cbv beta iota. rewrite NM_eq by exact HM. rewrite (run_bind (sumZMTwoN_run z m HM)). cbv beta iota. gs.
    rewrite AddScalar_ok. cbv beta iota. gs. rewrite Hadamard_ok by (rewrite map_length, cpowers_length; exact L2). cbv beta iota. gs.
    rewrite Add_ok by (rewrite LR0, z_two_length; reflexivity). cbv beta iota. gs.
    rewrite had_len by (rewrite cpowers_length; auto). reflexivity.
Qed.
Print Assumptions C118_poly.

(** computeL, computeR and eval: l0 + x l1, r0 + x r1 and t0 + x t1 + x^2 t2 *)
Theorem C118_eval p x :
  computeL p x = (if Nat.eqb (length (l0 p)) (length (l1 p)) then Ok (vadd (l0 p) (vscale x (l1 p)))
                  else Err "[ComputeL]: Length of a does not equal b"%string) /\
  computeR p x = (if Nat.eqb (length (r0 p)) (length (r1 p)) then Ok (vadd (r0 p) (vscale x (r1 p)))
                  else Err "[computeR]: Length of a does not equal b"%string) /\
  poly_eval p x = fadd (t0 p) (fadd (fmul (t1 p) x) (fmul (t2 p) (fmul x x))).
Proof.
  split; [|split].
  - unfold computeL. rewrite MulScalar_vscale. cbn [bind]. destruct (Nat.eqb_spec (length (l0 p)) (length (l1 p))) as [E|E].
    + rewrite Add_ok by (rewrite vscale_length; exact E). reflexivity.
    + rewrite add_len by (rewrite vscale_length; exact E). reflexivity.
  - unfold computeR. rewrite MulScalar_vscale. cbn [bind]. destruct (Nat.eqb_spec (length (r0 p)) (length (r1 p))) as [E|E].
    + rewrite Add_ok by (rewrite vscale_length; exact E). reflexivity.
    + rewrite add_len by (rewrite vscale_length; exact E). reflexivity.
  - unfold poly_eval. ring.
Qed.
Print Assumptions C118_eval.
(** So the value of t is that of the inner product of l and r. *)
Theorem C118_inner aL aR sL sR y z m p x l r : (64 * Z.of_nat m < 2 ^ 32)%Z ->
  fst (grun (computePoly aL aR sL sR y z) (Z.of_nat m)) = Ok p -> computeL p x = Ok l -> computeR p x = Ok r ->
  InnerProduct l r = Ok (poly_eval p x).
Proof.
  intros HM E EL ER. destruct (C118_eval p x) as [H1 [H2 H3]]. rewrite H1 in EL. rewrite H2 in ER.
  pose proof (C118_poly aL aR sL sR y z m HM) as C. cbv zeta in C. rewrite C in E. cbn [fst] in E.
  destruct (Nat.eqb_spec (length aR) (64 * m)) as [L2|]; cbn [negb] in E; [|discriminate].
  destruct (Nat.eqb_spec (length sR) (64 * m)) as [L4|]; cbn [negb] in E; [|discriminate].
  destruct (Nat.eqb_spec (length aL) (64 * m)) as [L1|]; cbn [negb] in E; [|discriminate].
  destruct (Nat.eqb_spec (length sL) (64 * m)) as [L3|]; cbn [negb] in E; [|discriminate].
  apply (f_equal (fun r => match r with Ok q => q | _ => p end)) in E. cbv beta iota in E. subst p. clear H1 H2 H3 C. unfold poly_eval. cbn [RangeProofModel.l0 RangeProofModel.l1 RangeProofModel.r0 RangeProofModel.r1 RangeProofModel.t0 RangeProofModel.t1 RangeProofModel.t2] in *.
  set (P := map (fun a => fsub a z) aL) in *. set (Q := vadd (zipw fmul (map (fun a => fadd a z) aR) (cpowers y (64 * m))) (z_two z m)) in *.
  set (S := zipw fmul (cpowers y (64 * m)) sR) in *.
  destruct (Nat.eqb_spec (length P) (length sL)) as [E1|]; [|congruence]. destruct (Nat.eqb_spec (length Q) (length S)) as [E2|]; [|congruence].
  assert (EL' : vadd P (vscale x sL) = l) by congruence. assert (ER' : vadd Q (vscale x S) = r) by congruence. subst l r. clear EL ER.
  assert (LP : length P = 64 * m) by (unfold P; rewrite map_length; exact L1).
  assert (LS : length S = 64 * m) by (unfold S; rewrite zipw_length; rewrite cpowers_length; auto).
  rewrite InnerProduct_ok by (rewrite !vadd_length; rewrite ?vscale_length; congruence). f_equal.
  rewrite dot_vadd_l by (rewrite vscale_length; exact E1). rewrite !dot_vadd_r by (rewrite vscale_length; exact E2).
  rewrite !dot_vscale_l, !dot_vscale_r. ring.
Qed.
Print Assumptions C118_inner.
(** computeT0: delta(y, z) for m values, and the sum of z^(j+2) v_j over the values given *)
Theorem C118_t0 y z v m : (64 * Z.of_nat m < 2 ^ 32)%Z -> (Z.of_nat (length v) < 2 ^ 32)%Z ->
  computeT0 y z v 64 (Z.of_nat m) = Ok (fadd (delta y z m) (z_dot z v)).
Proof.
  intros HB HV. pose proof (computeDelta_ok y z m HB) as CD. unfold u32 in CD. rewrite Z.mod_small in CD by lia. change rN with 64%Z in CD.
  unfold computeT0. rewrite CD. cbn [bind]. rewrite ScalarPowers_c. cbn [bind]. rewrite MulScalar_ok. cbn [bind].
  unfold u32. rewrite Z.mod_small by lia. rewrite Nat2Z.id. rewrite zpow2_c. unfold zpow2.
  rewrite (map_ext (fun j => fpow z (j + 2)) (fun j => fmul (fmul z z) (fpow z j))) by (intros; rewrite fpow_add; cbn [fpow]; ring).
  rewrite T0_loop. cbn [bind]. f_equal. f_equal. unfold z_dot.
  rewrite (map_ext (fun j => fpow z (j + 2)) (fun j => fmul (fmul z z) (fpow z j))) by (intros; rewrite fpow_add; cbn [fpow]; ring).
  ring.
Qed.
Print Assumptions C118_t0.
(** debugT0: the inner product of aL - z and y^i (aR + z) + z^(j+2) 2^i *)
Theorem C118_debug_t0 aL aR y z m : (64 * Z.of_nat m < 2 ^ 32)%Z ->
  grun (debugT0 aL aR y z) (Z.of_nat m) =
  (if negb (Nat.eqb (length aR) (64 * m)) then Err "Length of a does not equal length of b"%string
   else if negb (Nat.eqb (length aL) (64 * m)) then Err "[Inner Product]:Length of a does not equal length of b"%string
   else Ok (dot (map (fun a => fsub a z) aL) (vadd (zipw fmul (map (fun a => fadd a z) aR) (cpowers y (64 * m))) (z_two z m))), Z.of_nat m).
Proof.
  intros HM. unfold debugT0. gs. rewrite SubScalar_ok. cbv beta iota. gs. rewrite AddScalar_ok. cbv beta iota. gs.
  rewrite ScalarPowers_c. cbv beta iota. gs. rewrite NM_eq by exact HM.
  destruct (Nat.eqb_spec (length aR) (64 * m)) as [L2|L2]; cbn [negb].
  2:{ rewrite had_len by (rewrite map_length, cpowers_length; auto). reflexivity. }
  rewrite Hadamard_ok by (rewrite map_length, cpowers_length; auto). cbv beta iota.
  gs. rewrite (run_bind (sumZMTwoN_run z m HM)). cbv beta iota. gs.
  assert (L3 : length (zipw fmul (cpowers y (64 * m)) (map (fun x => fadd x z) aR)) = 64 * m)
    by (rewrite zipw_length; rewrite ?cpowers_length, ?map_length; auto).
  rewrite Add_ok by (rewrite L3, z_two_length; reflexivity). cbv beta iota. gs.
  assert (L4 : length (vadd (z_two z m) (zipw fmul (cpowers y (64 * m)) (map (fun x => fadd x z) aR))) = 64 * m)
    by (rewrite vadd_length; rewrite ?L3, z_two_length; reflexivity).
  destruct (Nat.eqb_spec (length aL) (64 * m)) as [L1|L1]; cbn [negb].
  2:{ rewrite ip_len by (rewrite map_length, L4; exact L1). reflexivity. }
  rewrite InnerProduct_ok by (rewrite map_length, L4; exact L1). cbn [grun glift]. do 3 f_equal.
  clear. generalize (z_two z m) (cpowers y (64 * m)) (map (fun x => fadd x z) aR). clear.
  induction l as [|a l IH]; intros [|b l2] [|c l3]; try reflexivity. unfold vadd in *. cbn [zipw]. rewrite IH. f_equal. ring.
Qed.
Print Assumptions C118_debug_t0.

(** The debug comparisons, with M = m, G = the first 64 m generators, H' = y^-i H: the result of comparing the
    two sides, or the error of the first vector that does not have 64 m elements. *)
Theorem C118_lxg R (OK : rist_ok R) l x z aL sL m : (64 * Z.of_nat m < 2 ^ 32)%Z ->
  let G := rp_G R (64 * m) in
  grun (debugLxG R l x z aL sL) (Z.of_nat m) =
  (if negb (Nat.eqb (length l) (64 * m)) then Err "<l(x), G>: length of slice of scalars a does not equal length of slices of points b"%string
   else if negb (Nat.eqb (length aL) (64 * m)) then Err "<aL,G>: length of slice of scalars a does not equal length of slices of points b"%string
   else if negb (Nat.eqb (length sL) (64 * m)) then Err "x<sL, G>: length of slice of scalars a does not equal length of slices of points b"%string
   else Ok (peqb R (msm R l G) (padd R (padd R (msm R aL G) (smul R x (msm R sL G))) (smul R (fneg z) (psum R G)))), Z.of_nat m).
Proof.
  intros WB. cbv zeta. unfold debugLxG. gs. rewrite NM_eq by exact WB. rewrite ped_computed_the. cbv beta iota. gs.
  cbn [the_ped p_gens g_bases]. change (chain R genData (64 * m)) with (rp_G R (64 * m)).
  assert (LG : length (rp_G R (64 * m)) = 64 * m) by apply chain_length.
  destruct (Nat.eqb_spec (length l) (64 * m)) as [L1|L1]; cbn [negb]; [|rewrite Exp_err_len by congruence; reflexivity].
  rewrite (Exp_ok OK) by (auto using i64_le; congruence). cbv beta iota. gs.
  destruct (Nat.eqb_spec (length aL) (64 * m)) as [L2|L2]; cbn [negb]; [|rewrite Exp_err_len by congruence; reflexivity].
  rewrite (Exp_ok OK) by (auto using i64_le; congruence). cbv beta iota. gs.
  destruct (Nat.eqb_spec (length sL) (64 * m)) as [L3|L3]; cbn [negb]; [|rewrite Exp_err_len by congruence; reflexivity].
  rewrite (Exp_ok OK) by (auto using i64_le; congruence). cbv beta iota. gs.
  rewrite FromScalar_ok. cbv beta iota. gs. rewrite ?NM_eq by exact WB.
  rewrite (Exp_ok OK); [|rewrite repeat_length; congruence|apply i64_le; [apply repeat_length|exact WB]]. cbv beta iota. gs.
  rewrite (msm_repeat OK) by exact LG. reflexivity.
Qed.
Print Assumptions C118_lxg.
Theorem C118_rxh R (OK : rist_ok R) r x y z aR sR m : (64 * Z.of_nat m < 2 ^ 32)%Z ->
  let H := rp_H R (64 * m) in
  let H' := zipw (smul R) (powers (finv y) (64 * m)) H in
  grun (debugRxHPrime R r x y z aR sR) (Z.of_nat m) =
  (if negb (Nat.eqb (length r) (64 * m)) then Err "<r(x), H'>: length of slice of scalars a does not equal length of slices of points b"%string
   else if negb (Nat.eqb (length aR) (64 * m)) then Err "<aR,H>: length of slice of scalars a does not equal length of slices of points b"%string
   else if negb (Nat.eqb (length sR) (64 * m)) then Err "x<sR, H>: length of slice of scalars a does not equal length of slices of points b"%string
   else Ok (peqb R (msm R r H') (padd R (padd R (padd R (msm R aR H) (smul R x (msm R sR H))) (smul R z (msm R (cpowers y (64 * m)) H'))) (msm R (z_two z m) H'))), Z.of_nat m).
Proof.
  intros WB. cbv zeta. unfold debugRxHPrime. gs. rewrite NM_eq by exact WB. rewrite ped_computed_the. cbv beta iota. gs.
  cbn [the_ped p_gens g_bases]. change (chain R genData2 (64 * m)) with (rp_H R (64 * m)).
  assert (LG : length (rp_H R (64 * m)) = 64 * m) by apply chain_length.
  rewrite Hprime_ok. cbv beta iota. rewrite LG.
  assert (LH : length (zipw (smul R) (powers (finv y) (64 * m)) (rp_H R (64 * m))) = 64 * m)
    by (rewrite zipw_length; rewrite powers_length; auto).
  gs.
  destruct (Nat.eqb_spec (length r) (64 * m)) as [L1|L1]; cbn [negb]; [|rewrite Exp_err_len by congruence; reflexivity].
  rewrite (Exp_ok OK) by (auto using i64_le; congruence). cbv beta iota. gs.
  destruct (Nat.eqb_spec (length aR) (64 * m)) as [L2|L2]; cbn [negb]; [|rewrite Exp_err_len by congruence; reflexivity].
  rewrite (Exp_ok OK) by (auto using i64_le; congruence). cbv beta iota. gs.
  destruct (Nat.eqb_spec (length sR) (64 * m)) as [L3|L3]; cbn [negb]; [|rewrite Exp_err_len by congruence; reflexivity].
  rewrite (Exp_ok OK) by (auto using i64_le; congruence). cbv beta iota. gs.
  rewrite ScalarPowers_c. cbv beta iota. gs. rewrite NM_eq by exact WB.
  rewrite MulScalar_vscale. cbv beta iota. gs.
  rewrite (Exp_ok OK); [|rewrite vscale_length, cpowers_length; congruence|apply i64_le; [rewrite vscale_length, cpowers_length; reflexivity|exact WB]].
  cbv beta iota.
  rewrite (run_bind (sumZMTwoN_run z m WB)). cbv beta iota. gs.
  rewrite (Exp_ok OK); [|rewrite z_two_length; congruence|apply i64_le; [apply z_two_length|exact WB]].
  rewrite (msm_vscale OK). reflexivity.
Qed.
Print Assumptions C118_rxh.
(** debugProve returns the errors of the comparisons, but no error when a comparison fails; the values are then
    not looked at. *)
Theorem C118_debug_prove R x y z v l r aL aR sL sR m b b' :
  grun (debugLxG R l x z aL sL) m = (b, m) -> grun (debugRxHPrime R r x y z aR sR) m = (b', m) ->
  grun (debugProve R x y z v l r aL aR sL sR) m =
  (match b with
   | Ok false => Ok tt
   | Ok true =>
     match b' with
     | Ok false => Ok tt
     | Ok true => if forallb (fun a => Z.ltb (to_Z a) (2 ^ 64 - 1)) v then Ok tt else Err "[DEBUG]: Value v is more than 2^N - 1"%string
     | Err e => Err (append "[DEBUG]: <r(x), H'> is constructed incorrectly: " e)
     | Panic => Panic
     end
   | Err e => Err (append "[DEBUG]: <l(x), G> is constructed incorrectly: " e)
   | Panic => Panic
   end, m).
Proof.
  intros E E'. unfold debugProve. destruct b as [[]|e|].
  - rewrite (run_bind (run_wrap _ E)). cbv beta iota. cbn [negb]. destruct b' as [[]|e|].
    + rewrite (run_bind (run_wrap _ E')). cbv beta iota. cbn [negb]. rewrite size_loop. reflexivity.
    + rewrite (run_bind (run_wrap _ E')). reflexivity.
    + rewrite (run_bind (run_wrap_err _ E')). reflexivity.
    + unfold gwrap. rewrite !grun_bind, E'. reflexivity.
  - rewrite (run_bind (run_wrap _ E)). reflexivity.
  - rewrite (run_bind (run_wrap_err _ E)). reflexivity.
  - unfold gwrap at 1. rewrite !grun_bind, E. reflexivity.
Qed.
Print Assumptions C118_debug_prove.
Example C118_ex : fst (grun (computePoly [] [] [] [] f1 f1) 0) = Ok (mkPoly [] [] [] [] f0 f0 f0) /\
  fst (grun (debugLxG tiny [] f1 f1 [] [f1]) 0) = Err "x<sL, G>: length of slice of scalars a does not equal length of slices of points b"%string.
Proof.
  split.
  - pose proof (C118_poly [] [] [] [] f1 f1 0 ltac:(lia)) as E. cbv zeta in E. change (Z.of_nat 0) with 0%Z in E. rewrite E. cbn [fst length Nat.mul Nat.eqb negb]. do 2 f_equal; reflexivity.
  - pose proof (C118_lxg tiny (fin_rist_ok _) [] f1 f1 [] [f1] 0 ltac:(lia)) as E. cbv zeta in E. change (Z.of_nat 0) with 0%Z in E. rewrite E. reflexivity.
Qed.
