(** The honest range proof *)
From Coq Require Import String ZArith List Lia Bool Arith Field.
From Coq Require Import Init.Byte Strings.Byte.
From Verif Require Import GoModel GoFacts ReadModel GlobModel GlobFacts Fld Rist RistFacts SpecVector VectorModel VectorFacts
  SpecPedersen PedersenModel PedersenFacts PedersenProps SpecIPP InnerProductModel InnerProductFacts IPPVerifyFacts
  SpecRange RangeProofModel SpecHonest RangeFacts.
Import ListNotations.
Local Open Scope nat_scope.

(** ** Algebra of vectors *)
Lemma dot_t0 z aL : Forall (fun a => a = f0 \/ a = f1) aL -> forall ys zs, length ys = length aL -> length zs = length aL ->
  dot (map (fun x => fsub x z) aL) (vadd (zipw fmul (map (fun x => fadd x z) (map (fun a => fsub a f1) aL)) ys) zs)
  = fadd (fadd (fmul (fsub z (fmul z z)) (fsum ys)) (dot aL zs)) (fneg (fmul z (fsum zs))).
Proof.
  induction 1 as [|a aL Ha HF IH]; intros [|y ys] [|w zs] L1 L2; try discriminate.
  - cbn. unfold fsum, dot, fsum. cbn. ring.
  - cbn [map zipw vadd]. rewrite !dot_cons, !fsum_cons. cbn in L1, L2.
    specialize (IH ys zs ltac:(lia) ltac:(lia)). unfold vadd in IH. rewrite IH.
    destruct Ha as [->| ->]; ring.
Qed.

Lemma fsum_vscale c l : fsum (vscale c l) = fmul c (fsum l).
Proof. induction l as [|x l IH]; cbn [vscale map]; [unfold fsum; cbn; ring|]. rewrite !fsum_cons. unfold vscale in IH. rewrite IH. ring. Qed.
Lemma fsum_zpow2 z m : fsum (zpow2 z m) = fmul (fmul z z) (fsum (powers z m)).
Proof.
  rewrite <- fsum_vscale. f_equal. unfold zpow2, vscale, powers. rewrite map_map. apply map_ext. intros j. rewrite fpow_add. cbn. ring.
Qed.
Lemma fsum_z_two z m : fsum (z_two z m) = fmul (fsum (zpow2 z m)) (fsum (powers two 64)).
Proof.
  unfold z_two, zpow2. generalize (seq 0 m). intros l. induction l as [|j l IH]; cbn [map concat].
  - unfold fsum at 1 2. cbn [fold_right]. ring.
  - rewrite fsum_app, IH, fsum_vscale, fsum_cons. ring.
Qed.
Lemma allbits_length v : length (allbits v) = 64 * length v.
Proof. unfold allbits. induction v as [|a v IH]; cbn [map concat length]; [reflexivity|]. rewrite app_length, IH, bits64_length. lia. Qed.
Lemma allbits_01 v : Forall (fun a => a = f0 \/ a = f1) (allbits v).
Proof. unfold allbits. induction v as [|a v IH]; cbn [map concat]; [constructor|]. apply Forall_app. split; [apply bits64_01|exact IH]. Qed.
Lemma dot_allbits z v : dot (allbits v) (z_two z (length v)) = z_dot z (lowv v).
Proof.
  unfold z_two, z_dot. replace (length (lowv v)) with (length v) by (symmetry; apply map_length).
  enough (H : forall lo, dot (allbits v) (concat (map (fun j => vscale (fpow z (j + 2)) (powers two 64)) (seq lo (length v))))
    = dot (map (fun j => fpow z (j + 2)) (seq lo (length v))) (lowv v)) by apply H.
  induction v as [|a v IH]; intros lo; cbn [length seq map allbits concat lowv]; [reflexivity|].
  rewrite dot_app by (rewrite bits64_length, vscale_length, powers_length; reflexivity).
  fold (allbits v). fold (lowv v). rewrite IH, dot_vscale_r, bits_dot by apply to_Z_range. rewrite dot_cons. reflexivity.
Qed.

Lemma zipw_l_map {A A' B C} (f : A' -> B -> C) (g : A -> A') a b : zipw f (map g a) b = zipw (fun x y => f (g x) y) a b.
Proof. revert b. induction a as [|x a IH]; intros [|y b]; cbn; f_equal; auto. Qed.

(** r o y^-i *)
Lemma powers_inv y n : y <> f0 -> zipw fmul (powers y n) (powers (finv y) n) = repeat f1 n.
Proof.
  intros N. unfold powers. apply nth_error_ext. intros i. destruct (Nat.lt_ge_cases i n) as [C|C].
  - rewrite (zipw_nth _ _ _ i (fpow y i) (fpow (finv y) i)) by (apply nth_error_map_seq; exact C).
    rewrite nth_error_repeat by exact C. f_equal. rewrite <- fpow_mul_l.
    replace (fmul y (finv y)) with f1 by (field; exact N). apply fpow_1_l.
  - rewrite !(proj2 (nth_error_None _ _)); [reflexivity|rewrite repeat_length; exact C|].
    rewrite zipw_length; rewrite !map_length, seq_length; [exact C|reflexivity].
Qed.
Lemma r_factors x z : forall ys fs aR sR zz, zipw fmul ys fs = repeat f1 (length ys) ->
  length fs = length ys -> length aR = length ys -> length sR = length ys -> length zz = length ys ->
  zipw fmul (vadd (vadd (zipw fmul (map (fun a => fadd a z) aR) ys) zz) (vscale x (zipw fmul ys sR))) fs
  = vadd (vadd (map (fun a => fadd a z) aR) (vscale x sR)) (zipw fmul zz fs).
Proof.
  induction ys as [|y ys IH]; intros [|f fs] [|a aR] [|s sR] [|w zz] E L1 L2 L3 L4; try discriminate; [reflexivity|].
  cbn [length repeat zipw] in E. pose proof (f_equal (hd f0) E) as E1. apply (f_equal (@tl _)) in E. cbn [hd tl] in E, E1.
  cbn [map zipw vadd vscale]. f_equal.
  - transitivity (fadd (fadd (fmul (fadd a z) (fmul y f)) (fmul (fmul x s) (fmul y f))) (fmul w f)); [ring|]. rewrite E1. ring.
  - cbn in *. apply IH; auto.
Qed.

Section Honest.
Context {R : rist} (OK : rist_ok R).
Local Notation "p [+] q" := (padd R p q) (at level 50, left associativity).
Local Notation "p [-] q" := (psub R p q) (at level 50, left associativity).
Local Notation "s [*] p" := (smul R s p) (at level 40, left associativity).

(** the inner-product proof of the honest prover *)
Definition hip (h : hp_in R) := Generate R (rp_G R (64 * hm h)) (rp_H R (64 * hm h)) (hl h) (hr h) (hfs h) (hQ h).
Lemma hchals (h : hp_in R) ip : chals (hproof h ip) = (hy h, hz h, hx h, hw h).
Proof. reflexivity. Qed.

Context (h : hp_in R) (WF : hp_wf h).

Lemma haL_len : length (haL h) = 64 * hm h. Proof. apply allbits_length. Qed.
Lemma haR_len : length (haR h) = 64 * hm h. Proof. unfold haR. rewrite map_length. apply haL_len. Qed.
Lemma hyp_len : length (hyp h) = 64 * hm h. Proof. apply cpowers_length. Qed.
Lemma hl0_len : length (hl0 h) = 64 * hm h. Proof. unfold hl0. rewrite map_length. apply haL_len. Qed.
Lemma hr0_len : length (hr0 h) = 64 * hm h.
Proof. unfold hr0. rewrite vadd_length; rewrite zipw_length; rewrite ?map_length, ?hyp_len, ?z_two_length; apply haR_len. Qed.
Lemma hr1_len : length (hr1 h) = 64 * hm h.
Proof. unfold hr1. destruct WF as [_ [_ [W _]]]. rewrite zipw_length; rewrite hyp_len; auto. Qed.
Lemma hl_len : length (hl h) = 64 * hm h.
Proof. unfold hl. destruct WF as [_ [W _]]. rewrite vadd_length; rewrite hl0_len; auto. rewrite vscale_length. auto. Qed.
Lemma hr_len : length (hr h) = 64 * hm h.
Proof. unfold hr. rewrite vadd_length; rewrite hr0_len; auto. rewrite vscale_length, hr1_len. auto. Qed.
Lemma hfs_len : length (hfs h) = 64 * hm h. Proof. apply cpowers_length. Qed.

(** t = t0 + t1 x + t2 x^2 *)
Lemma ht_poly : ht h = fadd (fadd (fmul (hx h) (ht1 h)) (fmul (fmul (hx h) (hx h)) (ht2 h))) (ht0 h).
Proof.
  destruct WF as [_ [W1 [W2 _]]].
  unfold ht, hl, hr. rewrite dot_vadd_l by (rewrite hl0_len, vscale_length; auto).
  rewrite !dot_vadd_r by (rewrite hr0_len, vscale_length, hr1_len; auto).
  rewrite !dot_vscale_l, !dot_vscale_r. unfold ht0, ht1, ht2. ring.
Qed.

(** t0 for any y *)
Lemma ht0_gen : ht0 h = fadd (fadd (fmul (fsub (hz h) (fmul (hz h) (hz h))) (fsum (hyp h))) (z_dot (hz h) (lowv (hv h))))
  (fneg (fmul (fmul (fsum (powers two 64)) (fsum (powers (hz h) (hm h)))) (fmul (hz h) (fmul (hz h) (hz h))))).
Proof.
  unfold ht0, hl0, hr0, haR. rewrite dot_t0; [|apply allbits_01|rewrite hyp_len; symmetry; apply haL_len|rewrite z_two_length; symmetry; apply haL_len].
  unfold haL, hm. rewrite dot_allbits, fsum_z_two, fsum_zpow2. ring.
Qed.
Lemma ht0_delta : hy h <> f0 -> ht0 h = fadd (delta (hy h) (hz h) (hm h)) (z_dot (hz h) (lowv (hv h))).
Proof. intros N. rewrite ht0_gen. unfold delta, hyp. rewrite cpowers_nz by exact N. ring. Qed.

(** the inner-product statement *)
Lemma vec_commit2 a u v : length u = length v ->
  vec_commit R low_byte rp_seed a [u; v] = a [*] rp_Blind R [+] msm R u (rp_G R (length u)) [+] msm R v (rp_H R (length v)).
Proof.
  intros L. cbn [vec_commit vec_terms]. unfold vec_term, rp_G, rp_H, rp_Blind. change (low_byte 1) with x01. rewrite (padd_0_r OK). reflexivity.
Qed.

Lemma h_stmt : hy h <> f0 ->
  ipp_stmt R (hl h) (hr h) (hfs h) (rp_G R (64 * hm h)) (rp_H R (64 * hm h)) (hQ h)
  = rp_P R (hm h) (hA h) (hS h) (hx h) (hy h) (hz h) (hmu h) (ht h) (hQ h).
Proof.
  intros N. pose proof WF as [_ [W1 [W2 _]]]. unfold ipp_stmt, rp_P. fold (ht h). f_equal.
  unfold hA, hS. rewrite !vec_commit2 by (rewrite ?haR_len, ?haL_len; congruence).
  rewrite haL_len, haR_len, W1, W2. fold (hfs h).
  assert (NI : finv (hy h) <> f0) by (apply finv_neq0; exact N).
  set (G := rp_G R (64 * hm h)). set (H := rp_H R (64 * hm h)).
  assert (LG : length G = 64 * hm h) by (apply chain_length).
  assert (LH : length H = 64 * hm h) by (apply chain_length).
  assert (E : zipw fmul (hr h) (hfs h) =
    vadd (vadd (map (fun a => fadd a (hz h)) (haR h)) (vscale (hx h) (h_sR h))) (zipw fmul (z_two (hz h) (hm h)) (hfs h))).
  { unfold hr, hr0, hr1. apply r_factors; rewrite ?hyp_len, ?hfs_len, ?haR_len, ?z_two_length; auto.
    unfold hyp, hfs. rewrite !cpowers_nz by assumption. apply powers_inv. exact N. }
  rewrite E. unfold hl. rewrite !(msm_vadd OK); rewrite ?vadd_length; rewrite ?map_length, ?vscale_length, ?zipw_length, ?haR_len, ?hl0_len, ?z_two_length, ?hfs_len; auto.
  rewrite !(msm_vscale OK). unfold hl0. rewrite (map_ext (fun x0 => fsub x0 (hz h)) (fun x0 => fadd x0 (fneg (hz h)))) by (intros; ring).
  rewrite !(msm_map_add OK) by (rewrite ?haL_len, ?haR_len, ?LG, ?LH; reflexivity).
  unfold hmu. lin OK. rewrite z_two_length, hfs_len. reflexivity.
Qed.

(** the polynomial equation *)
Lemma z_msm_coms z v b extra : length b = length v ->
  z_msm R z (length v) (vals (zipw com v b ++ extra)) = z_dot z v [*] rp_Base R [+] z_dot z b [*] rp_Blind R.
Proof.
  intros L. unfold z_msm, vals. rewrite map_app.
  rewrite msm_more by (rewrite !map_length, seq_length, zipw_length; [lia|congruence]).
  unfold z_dot. rewrite L.
  enough (H : forall lo, msm R (map (fun j => fpow z (j + 2)) (seq lo (length v))) (map (c_val R) (zipw com v b))
    = dot (map (fun j => fpow z (j + 2)) (seq lo (length v))) v [*] rp_Base R
      [+] dot (map (fun j => fpow z (j + 2)) (seq lo (length v))) b [*] rp_Blind R) by apply H.
  intros lo. revert lo b L.
  induction v as [|a v IH]; intros lo [|c b] L; try discriminate.
  - cbn. rewrite !smul_0_l by exact OK. symmetry. apply (padd_0_l R OK).
  - cbn [length seq map zipw]. rewrite msm_cons, !dot_cons, IH by (cbn in L; lia). cbn [com c_val]. lin OK.
Qed.
Lemma h_poly : hy h <> f0 ->
  rp_poly_lhs R (ht h) (htaux h) [-] rp_poly_rhs R (hm h) (vals (hV h)) (hT1 h) (hT2 h) (hx h) (hy h) (hz h)
  = fsub (z_dot (hz h) (lowv (hv h))) (z_dot (hz h) (hv h)) [*] rp_Base R.
Proof.
  intros N. destruct WF as [W0 _]. unfold rp_poly_lhs, rp_poly_rhs, hV. unfold hm at 2. rewrite z_msm_coms by exact W0.
  rewrite ht_poly, ht0_delta by exact N. unfold htaux, hT1, hT2. cbn [com c_val]. lin OK.
Qed.

(** the check made by Verify *)
Lemma h_check c ip : hy h <> f0 ->
  ipp_equation R (ip_L R ip) (ip_R R ip) (ip_A R ip) (ip_B R ip) (rp_G R (64 * hm h)) (rp_H R (64 * hm h)) (hfs h) (hQ h)
    (ipp_stmt R (hl h) (hr h) (hfs h) (rp_G R (64 * hm h)) (rp_H R (64 * hm h)) (hQ h)) ->
  rp_check (hm h) c (hproof h ip) ip = fsub (z_dot (hz h) (lowv (hv h))) (z_dot (hz h) (hv h)) [*] rp_Base R.
Proof.
  intros N E. unfold rp_check. rewrite hchals. cbn [hproof pf_V pf_A pf_S pf_T1 pf_T2 pf_mu pf_t pf_taux].
  rewrite h_poly by exact N. rewrite h_stmt in E by exact N. unfold ipp_equation in E. unfold rp_ip_defect.
  fold (hQ h). fold (hfs h). rewrite E. rewrite (proj2 (psub_eq0 OK _ _) eq_refl). rewrite smul_0_r by exact OK. apply (padd_0_l R OK).
Qed.

Lemma hip_ok k : k < 32 -> 64 * hm h = 2 ^ k ->
  exists ip, hip h = Ok ip /\ length (ip_L R ip) = k /\ length (ip_R R ip) = k /\
   (Forall (fun u => u <> f0) (challenges R [] (ip_L R ip) (ip_R R ip)) ->
    ipp_equation R (ip_L R ip) (ip_R R ip) (ip_A R ip) (ip_B R ip) (rp_G R (64 * hm h)) (rp_H R (64 * hm h)) (hfs h) (hQ h)
    (ipp_stmt R (hl h) (hr h) (hfs h) (rp_G R (64 * hm h)) (rp_H R (64 * hm h)) (hQ h))).
Proof.
  intros HK E. unfold hip.
  destruct (Generate_ok OK (rp_G R (64 * hm h)) (rp_H R (64 * hm h)) (hl h) (hr h) (hfs h) (hQ h) k) as [ip H]; try assumption;
    rewrite <- ?E, ?hl_len, ?hr_len, ?hfs_len; try (apply chain_length); try lia.
  exists ip. exact H.
Qed.

(** Verify on the honest proof *)
Lemma h_verify k ip c : k < 32 -> 64 * hm h = 2 ^ k -> hip h = Ok ip -> hy h <> f0 ->
  Forall (fun u => u <> f0) (challenges R [] (ip_L R ip) (ip_R R ip)) ->
  grun (Verify R c (hproof h ip)) (Z.of_nat (hm h)) =
  (if peqb R (pt0 R) (fsub (z_dot (hz h) (lowv (hv h))) (z_dot (hz h) (hv h)) [*] rp_Base R) then Ok true
   else Err "megacheck failed"%string, Z.of_nat (hm h)).
Proof.
  intros HK E HI N HF. pose proof WF as [W0 [_ [_ [WP WB]]]]. destruct (hip_ok k HK E) as [ip' [E1 [L1 [L2 EQ]]]].
  rewrite HI in E1. injection E1 as <-.
  rewrite (Verify_run OK c (hproof h ip) ip (hm h)); [|reflexivity|exact WP|exact WB|].
  - rewrite h_check by auto. cbn [hproof pf_V]. destruct (Nat.ltb_spec (length (hV h)) (hm h)) as [C|C]; [|reflexivity].
    exfalso. unfold hV in C. rewrite app_length, zipw_length in C by auto. unfold hm in C. lia.
  - unfold sizes_ok. rewrite L1, L2. auto.
Qed.
End Honest.
