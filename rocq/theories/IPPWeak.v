(** The challenges of an inner-product proof do not depend on the statement. *)
From Coq Require Import String ZArith List Lia Bool Arith Field.
From Verif Require Import Prime GoModel GoFacts Fld Rist RistFacts SpecVector SpecIPP VectorModel VectorFacts InnerProductModel InnerProductFacts IPPVerifyFacts.
Import ListNotations.
Local Open Scope nat_scope.

Lemma svec_dot us : Forall (fun u => u <> f0) us -> dot (svec us) (svec (map finv us)) = fpow (of_Z 2) (length us).
Proof.
  induction 1 as [|u us N _ IH]; [cbn; ring|]. cbn [svec map length fpow]. rewrite dot_app by (rewrite !vscale_length, !svec_length, map_length; reflexivity).
  rewrite !dot_vscale_l, !dot_vscale_r, IH, finv_finv. replace (of_Z 2) with (fadd f1 f1) by reflexivity. field. exact N.
Qed.
Lemma svec_dot_0 us : Exists (fun u => u = f0) us -> dot (svec us) (svec (map finv us)) = f0.
Proof.
  induction 1 as [u us ->|u us _ IH]; cbn [svec map]; rewrite dot_app by (rewrite !vscale_length, !svec_length, map_length; reflexivity);
    rewrite !dot_vscale_l, !dot_vscale_r; [rewrite finv_0|rewrite IH]; ring.
Qed.
Lemma pow2_neq1 k : 1 <= k < 32 -> fpow (of_Z 2) k <> f1.
Proof.
  intros H E. rewrite fpow_of_Z in E. apply (f_equal to_Z) in E. rewrite to_Z_of_Z in E. change (to_Z f1) with 1%Z in E.
  assert (2 ^ 1 <= 2 ^ Z.of_nat k)%Z by (apply Z.pow_le_mono_r; lia). assert (2 ^ Z.of_nat k <= 2 ^ 32)%Z by (apply Z.pow_le_mono_r; lia).
  rewrite Z.mod_small in E; [lia|]. unfold Prime.ell. lia.
Qed.
Lemma svec_dot_neq1 us : 1 <= length us < 32 -> dot (svec us) (svec (map finv us)) <> f1.
Proof.
  intros L. destruct (Forall_Exists_dec (fun u => u <> f0) (fun u => match F_eq_dec u f0 with left e => right (fun n => n e) | right n => left n end) us) as [D|D].
  - rewrite svec_dot by exact D. apply pow2_neq1. exact L.
  - rewrite svec_dot_0; [intros E; apply f1_neq_f0; symmetry; exact E|]. revert D. apply Exists_impl. intros u N.
    destruct (F_eq_dec u f0); [assumption|contradiction].
Qed.

Section Weak.
Context {R : rist} (OK : rist_ok R).
Local Notation "p [+] q" := (padd R p q) (at level 50, left associativity).
Local Notation "s [*] p" := (smul R s p) (at level 40, left associativity).

Lemma lr_sum_zero us k : lr_sum R us (repeat (pt0 R) k) (repeat (pt0 R) k) = pt0 R.
Proof.
  revert us. induction k as [|k IH]; intros [|u us]; cbn [repeat lr_sum]; try reflexivity. rewrite IH. lin OK.
Qed.
Lemma accepted_false G H fs Q k a b : k < 32 -> length G = 2 ^ k -> length H = 2 ^ k -> length fs = 2 ^ k ->
  let O := repeat (pt0 R) k in let us := challenges R [] O O in
  let l := vscale a (svec us) in let r := vscale b (svec (map finv us)) in
  ipp_Verify R (mkIPP R O O a b) G H fs Q (msm R l G [+] msm R (zipw fmul r fs) H [+] fmul a b [*] Q) (Z.of_nat (2 ^ k)) = Ok true.
Proof.
  intros HK HG HH HF O us l r.
  destruct (Verify_ok OK (mkIPP R O O a b) G H fs Q (msm R l G [+] msm R (zipw fmul r fs) H [+] fmul a b [*] Q) (Z.of_nat (2 ^ k)) k) as [v [V1 V2]];
    try assumption; try (cbn [ip_L ip_R]; apply repeat_length); try lia.
  rewrite V1. f_equal. apply V2. unfold ipp_equation. cbn [ip_L ip_R ip_A ip_B]. fold us. unfold O at 1. unfold O at 1.
  rewrite lr_sum_zero. unfold l, r. rewrite (msm_vscale OK).
  replace (zipw fmul (vscale b (svec (map finv us))) fs) with (vscale b (zipw fmul (svec (map finv us)) fs)).
  - rewrite (msm_vscale OK). lin OK.
  - generalize (svec (map finv us)). clear. intros s. revert fs. induction s as [|x s IH]; intros [|y fs]; cbn; try reflexivity.
    f_equal; [ring|apply IH].
Qed.
Lemma any_proof p G H fs Q k : length (ip_L R p) = k -> length (ip_R R p) = k -> k < 32 ->
  length G = 2 ^ k -> length H = 2 ^ k -> length fs = 2 ^ k ->
  let us := challenges R [] (ip_L R p) (ip_R R p) in
  ipp_Verify R p G H fs Q (psub R (msm R (vscale (ip_A R p) (svec us)) G [+] msm R (zipw fmul (vscale (ip_B R p) (svec (map finv us))) fs) H
    [+] fmul (ip_A R p) (ip_B R p) [*] Q) (lr_sum R us (ip_L R p) (ip_R R p))) (Z.of_nat (2 ^ k)) = Ok true.
Proof.
  intros HL HR HK HG HH HF us. set (P := psub R _ _).
  destruct (Verify_ok OK p G H fs Q P (Z.of_nat (2 ^ k)) k) as [v [V1 V2]]; try assumption; try lia.
  rewrite V1. f_equal. apply V2. unfold ipp_equation. fold us. unfold P. rewrite (msm_vscale OK).
  replace (zipw fmul (vscale (ip_B R p) (svec (map finv us))) fs) with (vscale (ip_B R p) (zipw fmul (svec (map finv us)) fs)).
  - rewrite (msm_vscale OK), (psub_smul OK). lin OK.
  - generalize (svec (map finv us)). clear. intros s. revert fs. induction s as [|x s IH]; intros [|y fs]; cbn; try reflexivity.
    f_equal; [ring|apply IH].
Qed.
End Weak.
