(** A range proof is equally possible for all values *)
From Coq Require Import String ZArith List Lia Bool Arith Field.
From Coq Require Import Init.Byte Strings.Byte.
From Verif Require Import GoModel GoFacts ReadModel GlobModel GlobFacts Fld Rist RistFacts SpecVector VectorModel VectorFacts
  SpecPedersen PedersenModel PedersenFacts PedersenProps SpecIPP InnerProductModel InnerProductFacts IPPVerifyFacts IPPProps
  SpecRange RangeProofModel SpecHonest RangeFacts RangeProveFacts RangeRun RangeProps RangeMore.
Import ListNotations.
Local Open Scope nat_scope.

Lemma solve_l x : x <> f0 -> forall a l, length a = length l -> exists s, length s = length l /\ vadd a (vscale x s) = l.
Proof.
  intros N. induction a as [|a0 a IH]; intros [|l0 l] L; try discriminate; [exists []; auto|]. injection L as L.
  destruct (IH l L) as (s & Ls & E). exists (fmul (finv x) (fsub l0 a0) :: s). split; [cbn; lia|]. cbn [vscale vadd zipw map]. fold (vscale x s). fold (vadd a (vscale x s)).
  rewrite E. f_equal. field. exact N.
Qed.
Lemma solve_r x : x <> f0 -> forall ys a r, Forall (fun y => y <> f0) ys -> length a = length r -> length ys = length r ->
  exists s, length s = length r /\ vadd a (vscale x (zipw fmul ys s)) = r.
Proof.
  intros N. induction ys as [|y ys IH]; intros [|a0 a] [|r0 r] HY La Ly; try discriminate; [exists []; auto|]. injection La as La. injection Ly as Ly.
  inversion HY as [|? ? Hy HY']. subst. destruct (IH a r HY' La Ly) as (s & Ls & E). exists (fmul (finv (fmul x y)) (fsub r0 a0) :: s). split; [cbn; lia|].
  cbn [vscale vadd zipw map]. fold (vscale x (zipw fmul ys s)). fold (vadd a (vscale x (zipw fmul ys s))). rewrite E. f_equal.
  field. split; assumption.
Qed.
Lemma fpow_nz y n : y <> f0 -> fpow y n <> f0.
Proof. intros N. induction n as [|n IH]; [exact f1_neq_f0|]. cbn [fpow]. intros E. apply fmul_integral in E. tauto. Qed.
Lemma cpowers_all_nz y n : y <> f0 -> Forall (fun y => y <> f0) (cpowers y n).
Proof. intros N. rewrite cpowers_nz by exact N. unfold powers. apply Forall_forall. intros a H. apply in_map_iff in H. destruct H as (i & <- & _). apply fpow_nz, N. Qed.

Section Hiding.
Context {R : rist} (OK : rist_ok R).
Local Notation "p [+] q" := (padd R p q) (at level 50, left associativity).
Local Notation "p [-] q" := (psub R p q) (at level 50, left associativity).
Local Notation "s [*] p" := (smul R s p) (at level 40, left associativity).
Context (gen : forall P : pt R, exists k, P = k [*] rp_Blind R).

Lemma blind_for P Q : exists k, k [*] rp_Blind R [+] P = Q.
Proof. destruct (gen (Q [-] P)) as [k E]. exists k. rewrite <- E. lin OK. Qed.
Lemma blinds_for v : forall V : list (pt R), length V = length v -> exists b, length b = length v /\ vals (zipw com v b) = V.
Proof.
  induction v as [|a v IH]; intros [|P V] L; try discriminate; [exists []; auto|]. injection L as L. destruct (IH V L) as (b & Lb & E).
  destruct (blind_for (a [*] rp_Base R) P) as [k K]. exists (k :: b). split; [cbn; lia|]. cbn [zipw vals map com c_val]. fold (@vals R (zipw com v b)).
  rewrite E, <- K. f_equal. apply (padd_comm R OK).
Qed.

Lemma hide (h : hp_in R) v' : hp_wf h -> hextra h = [] -> zero_challenge h = false -> Forall in64 (hv h) -> Forall in64 v' -> length v' = hm h ->
  exists h', hv h' = v' /\ hextra h' = [] /\ hp_wf h' /\ zero_challenge h' = false /\ vals (hV h') = vals (hV h) /\
    hip h' = hip h /\ forall ip, hproof h' ip = mkProof R (hV h') (hA h) (hS h) (hT1 h) (hT2 h) (htaux h) (hmu h) (ht h) (Some ip).
Proof.
  intros WF X0 ZC I I' Lv. pose proof WF as [W0 [W1 [W2 [W3 W4]]]].
  destruct (zc_false h ZC) as (NX & NY & NZ).
  assert (LV : length (vals (hV h)) = hm h).
  { unfold vals, hV. rewrite map_length, X0, app_nil_r, zipw_length; [reflexivity|]. symmetry. exact W0. }
  destruct (blinds_for v' (vals (hV h))) as (bl & Lbl & EV); [congruence|].
  set (aL := allbits v'). set (aR := map (fun a => fsub a f1) aL).
  assert (LaL : length aL = 64 * hm h) by (unfold aL; rewrite allbits_length, Lv; reflexivity).
  assert (LaR : length aR = 64 * hm h) by (unfold aR; rewrite map_length; exact LaL).
  (* sL, sR *)
  destruct (solve_l (hx h) NX (map (fun x => fsub x (hz h)) aL) (hl h)) as (sL & LsL & EL).
  { rewrite map_length, LaL, (hl_len h WF). reflexivity. }
  rewrite (hl_len h WF) in LsL.
  destruct (solve_r (hx h) NX (hyp h) (vadd (zipw fmul (map (fun x => fadd x (hz h)) aR) (hyp h)) (z_two (hz h) (hm h))) (hr h)) as (sR & LsR & ER).
  { apply cpowers_all_nz, NY. }
  { rewrite vadd_length; rewrite zipw_length; rewrite ?map_length, ?hyp_len, ?z_two_length, ?(hr_len h WF); auto. }
  { rewrite hyp_len, (hr_len h WF). reflexivity. }
  rewrite (hr_len h WF) in LsR.
  (* alpha, rho *)
  destruct (blind_for (msm R aL (rp_G R (64 * hm h)) [+] msm R aR (rp_H R (64 * hm h))) (hA h)) as [alpha EA].
  destruct (blind_for (msm R sL (rp_G R (64 * hm h)) [+] msm R sR (rp_H R (64 * hm h))) (hS h)) as [rho ES].
  set (r0' := vadd (zipw fmul (map (fun x => fadd x (hz h)) aR) (hyp h)) (z_two (hz h) (hm h))) in *.
  set (l0' := map (fun x => fsub x (hz h)) aL) in *.
  set (t1' := fadd (dot sL r0') (dot l0' (zipw fmul (hyp h) sR))). set (t2' := dot sL (zipw fmul (hyp h) sR)).
  destruct (blind_for (t1' [*] rp_Base R) (hT1 h)) as [tau1 ET1].
  destruct (blind_for (t2' [*] rp_Base R) (hT2 h)) as [tau2 ET2].
  set (h' := mkHP (R:=R) v' bl [] alpha rho tau1 tau2 sL sR).
  assert (M : hm h' = hm h) by exact Lv.
  assert (WF' : hp_wf h') by (unfold hp_wf; rewrite M; cbn; rewrite Lbl; auto).
  assert (QV : vals (hV h') = vals (hV h)) by (unfold hV at 1; cbn; rewrite app_nil_r; exact EV).
  assert (QA : hA h' = hA h).
  { unfold hA at 1. change (haL h') with aL. change (haR h') with aR. cbn [h' h_alpha]. rewrite (vec_commit2 OK) by congruence. rewrite LaL, LaR, <- EA. lin OK. }
  assert (QS : hS h' = hS h).
  { unfold hS at 1. cbn [h' h_rho h_sL h_sR]. rewrite (vec_commit2 OK) by congruence. rewrite LsL, LsR, <- ES. lin OK. }
  assert (QY : hy h' = hy h) by (unfold hy; rewrite QV, QA, QS; reflexivity).
  assert (QZ : hz h' = hz h) by (unfold hz; rewrite QY; reflexivity).
  assert (QP : hyp h' = hyp h) by (unfold hyp; rewrite QY, M; reflexivity).
  assert (QL0 : hl0 h' = l0') by (unfold hl0; rewrite QZ; reflexivity).
  assert (QR0 : hr0 h' = r0') by (unfold hr0; rewrite QZ, QP, M; reflexivity).
  assert (QR1 : hr1 h' = zipw fmul (hyp h) sR) by (unfold hr1; rewrite QP; reflexivity).
  assert (QT1 : hT1 h' = hT1 h).
  { unfold hT1 at 1. unfold ht1. rewrite QL0, QR0, QR1. cbn [com c_val h' h_sL h_tau1]. fold t1'. rewrite <- ET1. apply (padd_comm R OK). }
  assert (QT2 : hT2 h' = hT2 h).
  { unfold hT2 at 1. unfold ht2. rewrite QR1. cbn [com c_val h' h_sL h_tau2]. fold t2'. rewrite <- ET2. apply (padd_comm R OK). }
  assert (QX : hx h' = hx h) by (unfold hx; rewrite QV, QA, QS, QZ, QT1, QT2; reflexivity).
  assert (QL : hl h' = hl h) by (unfold hl at 1; rewrite QL0, QX; exact EL).
  assert (QR : hr h' = hr h) by (unfold hr at 1; rewrite QR0, QR1, QX; exact ER).
  assert (QT : ht h' = ht h) by (unfold ht; rewrite QL, QR; reflexivity).
  assert (QF : hfs h' = hfs h) by (unfold hfs; rewrite QY, M; reflexivity).
  assert (BN : rp_Blind R <> pt0 R) by exact (pbase_nz R OK).
  assert (QM : hmu h' = hmu h).
  { apply (smul_inj_l OK _ _ (rp_Blind R) BN).
    assert (NY' : hy h' <> f0) by congruence.
    pose proof (h_stmt OK h WF NY) as S1. pose proof (h_stmt OK h' WF' NY') as S2.
    unfold ipp_stmt in S1, S2. fold (ht h) in S1. fold (ht h') in S2. unfold rp_P in S1, S2. apply (padd_cancel_r OK) in S1, S2.
    rewrite M, QL, QR, QF, QA, QS, QX, QY, QZ in S2. rewrite S1 in S2. apply (padd_cancel_l OK) in S2.
    assert (D : fneg (hmu h) = fneg (hmu h')) by (apply (smul_inj_l OK _ _ (rp_Blind R) BN); exact S2).
    replace (hmu h') with (fneg (fneg (hmu h'))) by ring. rewrite <- D. f_equal. ring. }
  assert (QTX : htaux h' = htaux h).
  { apply (smul_inj_l OK _ _ (rp_Blind R) BN).
    assert (NY' : hy h' <> f0) by congruence.
    pose proof (h_poly OK h WF NY) as S1. pose proof (h_poly OK h' WF' NY') as S2.
    rewrite (lowv_in (hv h) I) in S1. rewrite (lowv_in (hv h') I') in S2.
    replace (fsub (z_dot (hz h) (hv h)) (z_dot (hz h) (hv h))) with f0 in S1 by ring.
    replace (fsub (z_dot (hz h') (hv h')) (z_dot (hz h') (hv h'))) with f0 in S2 by ring.
    rewrite (smul_0_l OK) in S1, S2. apply (proj1 (psub_eq0 OK _ _)) in S1. apply (proj1 (psub_eq0 OK _ _)) in S2.
    rewrite M, QV, QT1, QT2, QX, QY, QZ, <- S1 in S2. unfold rp_poly_lhs in S2. rewrite QT in S2. apply (padd_cancel_l OK) in S2. exact S2. }
  assert (QW : hw h' = hw h) by (unfold hw; rewrite QV, QA, QS, QZ, QT1, QT2, QX, QTX, QM, QT; reflexivity).
  exists h'. split; [reflexivity|]. split; [reflexivity|]. split; [exact WF'|]. split; [unfold zero_challenge; rewrite QX, QY, QZ; exact ZC|].
  split; [exact QV|]. split; [unfold hip, hQ; rewrite M, QL, QR, QF, QW; reflexivity|].
  intros ip. unfold hproof. rewrite QA, QS, QT1, QT2, QTX, QM, QT. reflexivity.
Qed.

(** every choice of the random scalars is a stream of draws *)
Lemma draws_for (h : hp_in R) : hp_wf h -> hextra h = [] -> exists rs, hin R (hv h) rs = h.
Proof.
  intros (W0 & W1 & W2 & W3 & _) X. set (m := hm h). set (n2 := m + 1 + (64 * m + 64 * m)).
  set (rs := fun i => if Nat.ltb i m then nth i (hbl h) f0
    else if Nat.eqb i m then h_alpha h
    else if Nat.ltb i n2 then (if Nat.even (i - (m + 1)) then nth (Nat.div2 (i - (m + 1))) (h_sL h) f0 else nth (Nat.div2 (i - (m + 1))) (h_sR h) f0)
    else if Nat.eqb i n2 then h_rho h else if Nat.eqb i (n2 + 1) then h_tau1 h else h_tau2 h).
  exists rs. destruct h as [v bl ex al rho t1 t2 sL sR]. cbn [hv hbl hextra h_alpha h_rho h_tau1 h_tau2 h_sL h_sR] in *. subst ex.
  change (length v) with m in *. unfold hin. cbv zeta. change (length v) with m. fold n2.
  assert (G : forall l n (f : nat -> F), length l = n -> (forall i, i < n -> f i = nth i l f0) -> map f (seq 0 n) = l).
  { intros l n f Ln H. apply (nth_ext _ _ f0 f0); [rewrite map_length, seq_length; congruence|]. intros i Hi. rewrite map_length, seq_length in Hi.
    rewrite (nth_indep _ f0 (f 0)) by (rewrite map_length, seq_length; exact Hi). rewrite map_nth, seq_nth by exact Hi. apply H, Hi. }
  f_equal.
  - apply G; [exact W0|]. intros i Hi. unfold rs. destruct (Nat.ltb_spec i m); [reflexivity|lia].
  - unfold rs. destruct (Nat.ltb_spec m m); [lia|]. rewrite Nat.eqb_refl. reflexivity.
  - unfold rs. destruct (Nat.ltb_spec n2 m); [lia|]. destruct (Nat.eqb_spec n2 m); [lia|]. destruct (Nat.ltb_spec n2 n2); [lia|]. rewrite Nat.eqb_refl. reflexivity.
  - unfold rs. destruct (Nat.ltb_spec (n2 + 1) m); [lia|]. destruct (Nat.eqb_spec (n2 + 1) m); [lia|]. destruct (Nat.ltb_spec (n2 + 1) n2); [lia|]. destruct (Nat.eqb_spec (n2 + 1) n2); [lia|]. rewrite Nat.eqb_refl. reflexivity.
  - unfold rs. destruct (Nat.ltb_spec (n2 + 2) m); [lia|]. destruct (Nat.eqb_spec (n2 + 2) m); [lia|]. destruct (Nat.ltb_spec (n2 + 2) n2); [lia|]. destruct (Nat.eqb_spec (n2 + 2) n2); [lia|]. destruct (Nat.eqb_spec (n2 + 2) (n2 + 1)); [lia|]. reflexivity.
  - apply G; [exact W1|]. intros i Hi. unfold rs. destruct (Nat.ltb_spec (m + 1 + 2 * i) m); [lia|]. destruct (Nat.eqb_spec (m + 1 + 2 * i) m); [lia|]. destruct (Nat.ltb_spec (m + 1 + 2 * i) n2); [|unfold n2 in *; lia].
    replace (m + 1 + 2 * i - (m + 1)) with (2 * i) by lia. rewrite Nat.even_mul. cbn [Nat.even orb]. rewrite Nat.div2_double. reflexivity.
  - apply G; [exact W2|]. intros i Hi. unfold rs. destruct (Nat.ltb_spec (m + 1 + (2 * i + 1)) m); [lia|]. destruct (Nat.eqb_spec (m + 1 + (2 * i + 1)) m); [lia|]. destruct (Nat.ltb_spec (m + 1 + (2 * i + 1)) n2); [|unfold n2 in *; lia].
    replace (m + 1 + (2 * i + 1) - (m + 1)) with (2 * i + 1) by lia. rewrite Nat.even_add, Nat.even_mul. cbn [Nat.even orb Bool.eqb]. rewrite Nat.add_1_r, Nat.div2_succ_double. reflexivity.
Qed.

Lemma in64_padded v : Forall in64 v -> Forall in64 (padded v).
Proof.
  intros H. unfold padded. apply Forall_app. split; [exact H|]. apply Forall_forall. intros a Ha. apply repeat_spec in Ha. subst. unfold in64. reflexivity.
Qed.
Lemma prove_hides v v' debug rs m p m' : grun (Prove R v debug rs) m = (Ok p, m') -> Forall in64 v -> Forall in64 v' ->
  1 <= length v' <= 16 -> pad_size (length v') = pad_size (length v) ->
  exists rs' p', grun (Prove R v' false rs') m = (Ok p', m') /\ vals (pf_V R p') = vals (pf_V R p) /\
    p = mkProof R (pf_V R p) (pf_A R p') (pf_S R p') (pf_T1 R p') (pf_T2 R p') (pf_taux R p') (pf_mu R p') (pf_t R p') (pf_ip R p').
Proof.
  intros E I I' L' P. destruct (Prove_Ok OK v debug rs m p m' E) as (L & -> & ZC & ip & EI & ->).
  set (h := hin R (padded v) rs) in *.
  destruct (hide h (padded v')) as (h' & Hv & Hx & WF' & ZC' & QV & QI & QP).
  - apply hin_padded_wf, L.
  - reflexivity.
  - exact ZC.
  - apply in64_padded, I.
  - apply in64_padded, I'.
  - unfold h. rewrite hm_hin, !padded_length by assumption. exact P.
  - destruct (draws_for h' WF' Hx) as [rs' ER]. rewrite Hv in ER. exists rs', (hproof h' ip).
    destruct (Prove_run OK v' rs' m L') as (ip' & EI' & RUN). rewrite ER in EI', RUN. rewrite ZC' in RUN.
    rewrite QI, EI in EI'. injection EI' as <-. rewrite RUN, P. split; [reflexivity|]. split; [exact QV|]. rewrite QP. reflexivity.
Qed.
End Hiding.

Section Content.
Context {R : rist} (OK : rist_ok R).
Local Notation "p [+] q" := (padd R p q) (at level 50, left associativity).
Local Notation "s [*] p" := (smul R s p) (at level 40, left associativity).

Lemma Prove_commitments v debug rs m p m' : grun (Prove R v debug rs) m = (Ok p, m') ->
  length (pf_V R p) = pad_size (length v) /\ m' = Z.of_nat (pad_size (length v)) /\
  forall i, i < pad_size (length v) -> nth_error (pf_V R p) i =
    Some (mkCom R (nth i v f0 [*] rp_Base R [+] rs i [*] rp_Blind R) (rs i)).
Proof.
  intros E. destruct (Prove_Ok OK v debug rs m p m' E) as (L & -> & ZC & ip & EI & ->).
  cbn [hproof pf_V]. unfold hV. cbn [hin hv hbl hextra]. rewrite app_nil_r, padded_length by exact L.
  assert (LZ : length (zipw (com (R := R)) (padded v) (map rs (seq 0 (pad_size (length v))))) = pad_size (length v)).
  { rewrite zipw_length; rewrite ?map_length, ?seq_length; apply padded_length, L. }
  split; [exact LZ|]. split; [reflexivity|]. intros i Hi.
  rewrite (zipw_nth _ _ _ i (nth i v f0) (rs i)); [reflexivity| |].
  - unfold padded. destruct (Nat.lt_ge_cases i (length v)) as [C|C].
    + rewrite nth_error_app1 by exact C. apply nth_error_nth'. exact C.
    + rewrite nth_error_app2 by exact C. rewrite nth_overflow by exact C. apply nth_error_repeat. lia.
  - apply nth_error_map_seq. exact Hi.
Qed.
Lemma pad_size_least n : 1 <= n -> (exists k, pad_size n = 2 ^ k) /\ n <= pad_size n < 2 * n.
Proof.
  intros L. unfold pad_size. split; [eauto|]. destruct (Nat.eq_dec n 1) as [->|N]; [cbn; lia|].
  pose proof (Nat.log2_up_spec n ltac:(lia)) as [A B]. pose proof (Nat.log2_up_pos n ltac:(lia)) as C.
  destruct (Nat.log2_up n) as [|k]; [lia|]. cbn [Nat.pred Nat.pow] in *. lia.
Qed.
Lemma encode_same p p' b w : map (c_val R) (pf_V R p') = map (c_val R) (pf_V R p) ->
  p = mkProof R (pf_V R p) (pf_A R p') (pf_S R p') (pf_T1 R p') (pf_T2 R p') (pf_taux R p') (pf_mu R p') (pf_t R p') (pf_ip R p') ->
  pf_Encode R p' b w = pf_Encode R p b w.
Proof.
  intros V Q. assert (C : pf_chunks R p' b = pf_chunks R p b).
  { rewrite Q. destruct p' as [V' A' S' T1' T2' tx mu t ip]. cbn [pf_V pf_A pf_S pf_T1 pf_T2 pf_taux pf_mu pf_t pf_ip] in *. unfold pf_chunks. cbn [pf_V pf_A pf_S pf_T1 pf_T2 pf_taux pf_mu pf_t pf_ip].
    f_equal. destruct b; [|reflexivity]. unfold coms_chunks, com_chunks.
    assert (LV : length V' = length (pf_V R p)) by (apply (f_equal (@length _)) in V; rewrite !map_length in V; exact V).
    rewrite LV. f_equal. clear - V. revert V. generalize (pf_V R p). induction V' as [|a V' IH]; intros [|c l] V; try discriminate; [reflexivity|].
    cbn in V. injection V as V1 V2. cbn. rewrite V1, (IH l V2). reflexivity. }
  unfold pf_Encode. rewrite C. rewrite Q. reflexivity.
Qed.
End Content.
