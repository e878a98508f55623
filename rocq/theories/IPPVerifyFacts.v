(** Proofs about VerifScalars, Verify and Generate of InnerProductModel.v *)
From Coq Require Import String ZArith List Lia Bool Arith Field.
From Verif Require Import GoModel GoFacts ReadModel ReadFacts Fld Rist RistFacts SpecVector VectorModel VectorFacts
  PedersenModel PedersenFacts InnerProductModel SpecIPP InnerProductFacts.
Import ListNotations.
Local Open Scope nat_scope.

(** ** The vector s *)
Lemma sel_prod_low us i j : (forall m, m < length us -> Nat.testbit i m = Nat.testbit j m) -> sel_prod us i = sel_prod us j.
Proof.
  revert i j. induction us as [|u us IH]; intros i j H; cbn [sel_prod]; [reflexivity|].
  rewrite (H (length us)) by (cbn; lia). rewrite (IH i j); [reflexivity|]. intros m Hm. apply H. cbn. lia.
Qed.
Lemma testbit_low n r m : r < 2 ^ n -> m < n -> Nat.testbit (2 ^ n + r) m = Nat.testbit r m.
Proof.
  intros H Hm. rewrite <- (Nat.mod_pow2_bits_low (2 ^ n + r) n m Hm).
  replace ((2 ^ n + r) mod 2 ^ n) with r; [reflexivity|].
  rewrite <- (Nat.mul_1_l (2 ^ n)) at 1. rewrite Nat.add_comm, Nat.mod_add by (apply Nat.pow_nonzero; lia).
  symmetry. apply Nat.mod_small. exact H.
Qed.
Lemma testbit_top n r : r < 2 ^ n -> Nat.testbit (2 ^ n + r) n = true.
Proof.
  intros H. rewrite Nat.testbit_true.
  replace ((2 ^ n + r) / 2 ^ n) with 1; [reflexivity|].
  apply (Nat.div_unique _ _ 1 r); lia.
Qed.
Lemma testbit_above n r m : r < 2 ^ n -> n <= m -> Nat.testbit r m = false.
Proof.
  intros H Hm. rewrite <- (Nat.mod_small r (2 ^ n) H). apply Nat.mod_pow2_bits_high. exact Hm.
Qed.

Lemma seq_shift_plus k n : seq k n = map (fun i => k + i) (seq 0 n).
Proof.
  revert k. induction n as [|n IH]; intros k; cbn [seq map]; [reflexivity|].
  rewrite Nat.add_0_r. f_equal. rewrite IH, <- seq_shift, map_map. apply map_ext. intros i. lia.
Qed.
Lemma svec_sel us : svec us = map (sel_prod us) (seq 0 (2 ^ length us)).
Proof.
  induction us as [|u us IH]; cbn [svec length]; [reflexivity|].
  replace (2 ^ S (length us)) with (2 ^ length us + 2 ^ length us) by (cbn; lia).
  rewrite seq_app, map_app. f_equal.
  - rewrite IH. unfold vscale. rewrite map_map. apply map_ext_in. intros i Hi. apply in_seq in Hi.
    cbn [sel_prod]. rewrite (testbit_above (length us)) by lia. reflexivity.
  - rewrite IH. unfold vscale. rewrite map_map. cbn [plus].
    rewrite (seq_shift_plus (2 ^ length us)). rewrite map_map. apply map_ext_in. intros i Hi. apply in_seq in Hi.
    cbn [sel_prod]. rewrite testbit_top by lia. f_equal. apply sel_prod_low. intros m Hm.
    rewrite testbit_low by lia. reflexivity.
Qed.

(** the recurrence used by the code *)
Lemma sel_prod_rec us : forall i, 0 < i < 2 ^ length us ->
  exists u, nth_error us (length us - 1 - Nat.log2 i) = Some u /\ Nat.log2 i <= length us - 1 /\
    sel_prod us i = fmul (sel_prod us (i - 2 ^ Nat.log2 i)) (fmul u u).
Proof.
  induction us as [|u us IH]; intros i Hi; [cbn in Hi; lia|].
  assert (P2 : 2 ^ length (u :: us) = 2 ^ length us + 2 ^ length us) by (cbn; lia).
  assert (PP : 0 < 2 ^ length us) by (apply Nat.neq_0_lt_0; apply Nat.pow_nonzero; lia).
  destruct (Nat.log2_spec i) as [A B]; [lia|].
  destruct (Nat.lt_ge_cases i (2 ^ length us)) as [C|C].
  - destruct (IH i) as [v [V1 [V2 V3]]]; [lia|].
    assert (LL : Nat.log2 i < length us) by (apply Nat.log2_lt_pow2; lia).
    exists v. split; [|split].
    + cbn [length]. replace (S (length us) - 1 - Nat.log2 i) with (S (length us - 1 - Nat.log2 i)) by lia. exact V1.
    + cbn [length]. lia.
    + cbn [sel_prod]. rewrite !(testbit_above (length us)) by lia. rewrite V3. ring.
  - assert (LL : Nat.log2 i = length us).
    { apply Nat.log2_unique; [lia|]. rewrite Nat.pow_succ_r'. lia. }
    rewrite LL. exists u. cbn [length]. replace (S (length us) - 1 - length us) with 0 by lia.
    split; [reflexivity|]. split; [lia|].
    set (r := i - 2 ^ length us) in *. assert (Hr : r < 2 ^ length us) by (unfold r; lia).
    replace i with (2 ^ length us + r) by (unfold r; lia).
    cbn [sel_prod]. rewrite testbit_top, (testbit_above (length us) r) by lia.
    rewrite (sel_prod_low us (2 ^ length us + r) r) by (intros m Hm; apply testbit_low; lia).
    destruct (F_eq_dec u f0) as [->|Hu]; [rewrite finv_0; ring|field; exact Hu].
Qed.

Lemma rev_vscale u l : rev (vscale u l) = vscale u (rev l).
Proof. unfold vscale. symmetry. apply map_rev. Qed.
Lemma rev_svec us : rev (svec us) = svec (map finv us).
Proof.
  induction us as [|u us IH]; cbn [svec map]; [reflexivity|].
  rewrite rev_app_distr, !rev_vscale, IH, finv_finv. reflexivity.
Qed.
Lemma svec_inv us : Forall (fun u => u <> f0) us -> svec (map finv us) = map finv (svec us).
Proof.
  induction us as [|u us IH]; intros H; cbn [svec map].
  - f_equal; field; exact f1_neq_f0.
  - inversion H as [|? ? H1 H2]; subst. rewrite (IH H2), map_app. unfold vscale. rewrite !map_map.
    assert (NZ : Forall (fun x => x <> f0) (svec us)).
    { clear -H2. induction us as [|v us IH]; cbn [svec].
      - constructor; [exact f1_neq_f0|constructor].
      - inversion H2 as [|? ? A B]; subst. specialize (IH B). apply Forall_app.
        split; unfold vscale; apply Forall_map; (eapply Forall_impl; [|exact IH]); cbn; intros x Hx E;
          apply fmul_integral in E; destruct E as [E|E]; try contradiction.
        apply (finv_neq0 v A). exact E. }
    rewrite Forall_forall in NZ.
    f_equal; apply map_ext_in; intros x Hx; specialize (NZ x Hx); field; repeat split; auto; exact f1_neq_f0.
Qed.

(** ** Reversal *)
Lemma reverse_ok s : reverse_in_place s = Ok (rev s).
Proof.
  unfold reverse_in_place. set (n := length s).
  assert (HH : n / 2 * 2 <= n /\ n < n / 2 * 2 + 2).
  { pose proof (Nat.div_mod n 2). pose proof (Nat.mod_upper_bound n 2). lia. }
  edestruct (for_loop_inv (fun i l => length l = n /\
     (forall p, p < i -> nth_error l p = nth_error s (n - 1 - p)) /\
     (forall p, i <= p -> p < n - i -> nth_error l p = nth_error s p) /\
     (forall p, n - i <= p -> p < n -> nth_error l p = nth_error s (n - 1 - p)))) as [s' [E P]]; cycle 2.
  - rewrite E. f_equal. destruct P as [P0 [P1 [P2 P3]]]. cbn [plus] in *. apply nth_error_ext. intros p.
    destruct (Nat.lt_ge_cases p n) as [C|C].
    + transitivity (nth_error s (n - 1 - p)).
      * destruct (Nat.lt_ge_cases p (n / 2)); [apply P1; assumption|].
        destruct (Nat.lt_ge_cases p (n - n / 2)); [|apply P3; assumption].
        rewrite P2 by assumption. f_equal. lia.
      * symmetry. unfold n in C |- *. replace (length s - 1 - p) with (length s - S p) by lia.
        clear -C. revert p C. induction s as [|x s IH]; intros p C; [cbn in C; lia|].
        cbn [rev length] in *. destruct (Nat.eq_dec p (length s)) as [->|D].
        -- rewrite nth_error_app2 by (rewrite rev_length; lia). rewrite rev_length, !Nat.sub_diag. reflexivity.
        -- rewrite nth_error_app1 by (rewrite rev_length; lia). rewrite IH by lia.
           replace (S (length s) - S p) with (S (length s - S p)) by lia. reflexivity.
    + rewrite !(proj2 (nth_error_None _ _)); [reflexivity| |]; rewrite ?rev_length; fold n; lia.
  - split; [reflexivity|]. split; [intros; lia|]. split; [reflexivity|intros; lia].
  - intros i l Hi [P0 [P1 [P2 P3]]]. cbn [plus] in Hi.
    rewrite P0. destruct (nth_error_ex s i) as [x Hx]; [fold n; lia|].
    destruct (nth_error_ex s (n - 1 - i)) as [y Hy]; [fold n; lia|].
    rewrite (idx_some l i x) by (rewrite P2 by lia; exact Hx). cbn [bind].
    rewrite (idx_some l (n - 1 - i) y) by (rewrite P2 by lia; exact Hy). cbn [bind].
    unfold set_idx at 1. destruct (Nat.ltb_spec i (length l)) as [C|C]; [|lia]. cbn [bind].
    unfold set_idx. rewrite upd_length. destruct (Nat.ltb_spec (n - 1 - i) (length l)) as [D|D]; [|lia].
    eexists. split; [reflexivity|]. split; [rewrite !upd_length; exact P0|].
    split; [|split].
    + intros p Hp. destruct (Nat.eq_dec p i) as [->|N].
      * rewrite upd_other by lia. rewrite upd_same by lia. symmetry. exact Hy.
      * rewrite !upd_other by lia. apply P1. lia.
    + intros p Hp Hp2. rewrite !upd_other by lia. apply P2; lia.
    + intros p Hp Hp2. destruct (Nat.eq_dec p (n - 1 - i)) as [->|N].
      * rewrite upd_same by (rewrite upd_length; lia). rewrite <- Hx. f_equal. lia.
      * rewrite !upd_other by lia. apply P3; lia.
Qed.

(** ** VerifScalars *)
Section VS.
Context {R : rist} (OK : rist_ok R).
Local Notation "p [+] q" := (padd R p q) (at level 50, left associativity).
Local Notation "s [*] p" := (smul R s p) (at level 40, left associativity).

Lemma chal_loop Ls : forall Rs (hs : cacher) acc, length Ls = length Rs ->
  exists hs' : cacher, for_loop 0 (length Ls) (fun k '(hs, xChals) =>
      let! l := idx Ls k in let! r := idx Rs k in
      let hs := hc_Append hs [pbytes R l; pbytes R r] in
      Ok (hs, xChals ++ [hc_Derive R hs])) (hs, acc) = Ok (hs', acc ++ challenges R hs Ls Rs).
Proof.
  induction Ls as [|l Ls IH]; intros [|r Rs] hs acc H; cbn [length] in *; try discriminate.
  - cbn. rewrite app_nil_r. eauto.
  - cbn [for_loop idx nth_error bind]. rewrite hc_Append_concat. cbn [concat]. rewrite app_nil_r.
    destruct (IH Rs (hs ++ pbytes R l ++ pbytes R r) (acc ++ [hc_Derive R (hs ++ pbytes R l ++ pbytes R r)])) as [hs' E]; [lia|].
    exists hs'. rewrite (for_loop_shift _ (fun k '(hs, xChals) =>
      let! l := idx Ls k in let! r := idx Rs k in
      let hs := hc_Append hs [pbytes R l; pbytes R r] in
      Ok (hs, xChals ++ [hc_Derive R hs]))) by (intros i [h x]; reflexivity).
    cbn zeta in E |- *. rewrite E, <- app_assoc. reflexivity.
Qed.

Fixpoint fprod (l : list F) : F := match l with [] => f1 | x :: l' => fmul x (fprod l') end.
Lemma inv_loop xs : forall p acc,
  for_loop 0 (length xs) (fun k '(invProd, invXChals) =>
      let! x := idx xs k in let xinv := finv x in
      Ok (fmul invProd xinv, invXChals ++ [xinv])) (p, acc) = Ok (fmul p (fprod (map finv xs)), acc ++ map finv xs).
Proof.
  induction xs as [|x xs IH]; intros p acc; cbn [length for_loop map fprod].
  - rewrite app_nil_r. do 2 f_equal. ring.
  - cbn [idx nth_error bind]. rewrite (for_loop_shift _ (fun k '(invProd, invXChals) =>
      let! x := idx xs k in let xinv := finv x in
      Ok (fmul invProd xinv, invXChals ++ [xinv]))) by (intros i [h y]; reflexivity).
    rewrite IH, <- app_assoc. cbn [app]. do 2 f_equal. ring.
Qed.
Lemma sq_loop xs : forall ys a b, length xs = length ys ->
  for_loop 0 (length xs) (fun k '(chalSq, invChalSq) =>
      let! x := idx xs k in let! y := idx ys k in
      Ok (chalSq ++ [fmul x x], invChalSq ++ [fmul y y])) (a, b) =
  Ok (a ++ map (fun x => fmul x x) xs, b ++ map (fun x => fmul x x) ys).
Proof.
  induction xs as [|x xs IH]; intros [|y ys] a b H; cbn [length] in *; try discriminate; cbn [for_loop map].
  - rewrite !app_nil_r. reflexivity.
  - cbn [idx nth_error bind]. rewrite (for_loop_shift _ (fun k '(chalSq, invChalSq) =>
      let! x := idx xs k in let! y := idx ys k in
      Ok (chalSq ++ [fmul x x], invChalSq ++ [fmul y y]))) by (intros i [h z]; reflexivity).
    rewrite IH by lia. rewrite <- !app_assoc. reflexivity.
Qed.
Lemma sel_prod_0 us : sel_prod us 0 = fprod (map finv us).
Proof. induction us as [|u us IH]; cbn [sel_prod map fprod]; [reflexivity|]. rewrite Nat.bits_0, IH. reflexivity. Qed.

Lemma s_loop us : for_loop 1 (2 ^ length us - 1) (fun i s =>
      let lgI := Nat.log2 i in
      let k := Nat.pow 2 lgI in
      let! uLgISq := (if Nat.leb lgI (length us - 1) then idx (map (fun x => fmul x x) us) (length us - 1 - lgI) else Panic) in
      let! sik := idx s (i - k) in
      Ok (s ++ [fmul sik uLgISq])) [sel_prod us 0] = Ok (svec us).
Proof.
  assert (PP : 0 < 2 ^ length us) by (apply Nat.neq_0_lt_0; apply Nat.pow_nonzero; lia).
  edestruct (for_loop_inv (fun i s => s = map (sel_prod us) (seq 0 i))) as [s' [E P]]; cycle 2.
  - rewrite E. f_equal. rewrite P, svec_sel. do 2 f_equal. lia.
  - reflexivity.
  - intros i s Hi ->. destruct (sel_prod_rec us i) as [u [U1 [U2 U3]]]; [lia|]. cbn zeta.
    destruct (Nat.leb_spec (Nat.log2 i) (length us - 1)) as [C|C]; [|lia].
    rewrite (idx_some _ _ (fmul u u)) by (rewrite nth_error_map, U1; reflexivity). cbn [bind].
    destruct (Nat.log2_spec i) as [A B]; [lia|].
    assert (0 < 2 ^ Nat.log2 i) by (apply Nat.neq_0_lt_0; apply Nat.pow_nonzero; lia).
    rewrite (idx_some _ _ (sel_prod us (i - 2 ^ Nat.log2 i))) by (apply nth_error_map_seq; lia). cbn [bind].
    eexists. split; [reflexivity|]. rewrite <- U3. cbn [plus]. rewrite seq_S, map_app. reflexivity.
Qed.

Lemma VerifScalars_ok p : length (ip_L R p) = length (ip_R R p) -> length (ip_L R p) < 32 ->
  let us := challenges R [] (ip_L R p) (ip_R R p) in
  VerifScalars R p = Ok (map (fun u => fmul u u) us, map (fun u => fmul (finv u) (finv u)) us, svec us).
Proof.
  intros H1 H2. cbn zeta. unfold VerifScalars. rewrite <- H1, Nat.eqb_refl. cbn [negb].
  destruct (chal_loop (ip_L R p) (ip_R R p) [] [] H1) as [hs E]. cbn zeta in E |- *. rewrite E. cbn [bind app].
  set (us := challenges R [] (ip_L R p) (ip_R R p)).
  assert (UL : length us = length (ip_L R p)) by (apply challenges_length; exact H1).
  pose proof inv_loop as IL. cbn zeta in IL. rewrite IL. cbn [bind app].
  replace (fmul f1 (fprod (map finv us))) with (sel_prod us 0) by (rewrite sel_prod_0; ring).
  rewrite sq_loop by (rewrite map_length; reflexivity). cbn [bind app].
  replace (Z.to_nat (u32 (2 ^ Z.of_nat (length (ip_L R p)))) - 1) with (2 ^ length us - 1).
  - rewrite <- UL. pose proof (s_loop us) as SL. cbn zeta in SL. rewrite SL. cbn [bind]. rewrite map_map. reflexivity.
  - unfold u32. rewrite Z.mod_small.
    + rewrite UL. change 2%Z with (Z.of_nat 2). rewrite <- Nat2Z.inj_pow, Nat2Z.id. reflexivity.
    + split; [apply Z.pow_nonneg; lia|]. apply Z.pow_lt_mono_r; lia.
Qed.
Lemma VerifScalars_neq p : length (ip_L R p) <> length (ip_R R p) -> VerifScalars R p = Ok ([], [], []).
Proof. intros H. unfold VerifScalars. destruct (Nat.eqb_spec (length (ip_L R p)) (length (ip_R R p))); [contradiction|reflexivity]. Qed.
Lemma VerifScalars_wrap p : length (ip_L R p) = length (ip_R R p) -> 32 <= length (ip_L R p) ->
  exists x y s, VerifScalars R p = Ok (x, y, [s]).
Proof.
  intros H1 H2. unfold VerifScalars. rewrite <- H1, Nat.eqb_refl. cbn [negb].
  destruct (chal_loop (ip_L R p) (ip_R R p) [] [] H1) as [hs E]. cbn zeta in E |- *. rewrite E. cbn [bind app].
  pose proof inv_loop as IL. cbn zeta in IL. rewrite IL. cbn [bind app]. rewrite sq_loop by (rewrite map_length; reflexivity). cbn [bind app].
  replace (u32 (2 ^ Z.of_nat (length (ip_L R p)))) with 0%Z.
  - cbn. eauto.
  - unfold u32. replace (Z.of_nat (length (ip_L R p))) with (32 + (Z.of_nat (length (ip_L R p)) - 32))%Z by lia.
    rewrite Z.pow_add_r by lia. rewrite Z.mul_comm, Z.mod_mul by lia. reflexivity.
Qed.

(** ** Verify *)
Lemma lr_sum_msm us : forall Ls Rs, length Ls = length us -> length Rs = length us ->
  lr_sum R us Ls Rs = msm R (map (fun u => fmul u u) us) Ls [+] msm R (map (fun u => fmul (finv u) (finv u)) us) Rs.
Proof.
  induction us as [|u us IH]; intros [|l Ls] [|r Rs] H1 H2; cbn [length] in *; try discriminate.
  - cbn [lr_sum map]. rewrite !msm_nil_l. lin OK.
  - cbn [lr_sum map]. rewrite !msm_cons, IH by lia. lin OK.
Qed.
Lemma msm_neg (f : F -> F) us P : msm R (map fneg (map f us)) P = fneg f1 [*] msm R (map f us) P.
Proof.
  rewrite <- (msm_vscale OK). f_equal. unfold vscale. rewrite !map_map. apply map_ext. intros x. ring.
Qed.

(** the slices have a size for which no machine arithmetic wraps *)
Lemma Verify_ok p G H fs Q P n k :
  length (ip_L R p) = k -> length (ip_R R p) = k -> k < 32 ->
  length G = 2 ^ k -> length H = 2 ^ k -> 2 ^ k <= length fs -> (0 <= n <= Z.of_nat (2 ^ k))%Z ->
  exists b, ipp_Verify R p G H fs Q P n = Ok b /\
  (b = true <-> ipp_equation R (ip_L R p) (ip_R R p) (ip_A R p) (ip_B R p) G H fs Q P).
Proof.
  intros HL HR HK HG HH HF Hn. unfold ipp_Verify.
  pose proof (VerifScalars_ok p ltac:(congruence) ltac:(lia)) as VS. cbn zeta in VS. rewrite VS. cbn [bind].
  set (us := challenges R [] (ip_L R p) (ip_R R p)) in *.
  assert (UL : length us = k) by (unfold us; rewrite challenges_length; congruence).
  rewrite reverse_ok. cbn [bind]. rewrite rev_svec, !MulScalar_vscale. cbn [bind].
  assert (SL : length (svec us) = 2 ^ k) by (rewrite svec_length, UL; reflexivity).
  assert (SL' : length (svec (map finv us)) = 2 ^ k) by (rewrite svec_length, map_length, UL; reflexivity).
  rewrite mul_factors_ok by (rewrite vscale_length; lia). cbn [bind skipn].
  rewrite !loop1_map. cbn [bind].
  set (sc := _ :: _ ++ _ ++ _ ++ _). set (ps := _ :: _ ++ _ ++ _ ++ _).
  assert (ZL : length (zipw fmul (vscale (ip_B R p) (svec (map finv us))) fs) = 2 ^ k).
  { rewrite zipw_length_min, vscale_length. lia. }
  assert (LS : length sc = length ps).
  { unfold sc, ps. cbn [length]. rewrite !app_length, !map_length, vscale_length. rewrite ZL. lia. }
  assert (PB : (Z.of_nat (2 ^ k) <= 2 ^ 32)%Z).
  { change (2 ^ 32)%Z with (Z.of_nat 2 ^ Z.of_nat 32)%Z. rewrite Nat2Z.inj_pow. apply Z.pow_le_mono_r; lia. }
  rewrite (Exp_ok OK) by (exact LS || (rewrite Z.mul_1_r, i64_small by lia; unfold sc; cbn [length];
     rewrite !app_length, ZL; lia)).
  eexists. split; [reflexivity|]. rewrite (peqb_ok R OK). unfold ipp_equation. fold us.
  assert (EQ : msm R sc ps [+] lr_sum R us (ip_L R p) (ip_R R p) =
    ip_A R p [*] msm R (svec us) G [+] ip_B R p [*] msm R (zipw fmul (svec (map finv us)) fs) H [+] fmul (ip_A R p) (ip_B R p) [*] Q).
  { unfold sc, ps. rewrite msm_cons.
    rewrite (msm_app OK) by (rewrite vscale_length; lia).
    rewrite (msm_app OK) by (rewrite ZL; lia).
    rewrite (msm_app OK) by (rewrite !map_length; lia).
    rewrite (lr_sum_msm us) by lia. rewrite !msm_neg. rewrite !(msm_vscale OK).
    replace (zipw fmul (vscale (ip_B R p) (svec (map finv us))) fs)
      with (vscale (ip_B R p) (zipw fmul (svec (map finv us)) fs)).
    - rewrite (msm_vscale OK). lin OK.
    - generalize (svec (map finv us)). intros l. clear. revert fs. induction l as [|x l IH]; intros [|y fs]; cbn; try reflexivity.
      f_equal; [ring|apply IH]. }
  split; intros E.
  - rewrite <- E. exact EQ.
  - apply (padd_cancel_r OK (lr_sum R us (ip_L R p) (ip_R R p))). rewrite EQ. symmetry. exact E.
Qed.

(** factor slice too short: panic *)
Lemma Verify_short p G H fs Q P n k :
  length (ip_L R p) = k -> length (ip_R R p) = k -> k < 32 -> length fs < 2 ^ k ->
  ipp_Verify R p G H fs Q P n = Panic.
Proof.
  intros HL HR HK HF. unfold ipp_Verify.
  pose proof (VerifScalars_ok p ltac:(congruence) ltac:(lia)) as VS. cbn zeta in VS. rewrite VS. cbn [bind].
  set (us := challenges R [] (ip_L R p) (ip_R R p)) in *.
  assert (UL : length us = k) by (unfold us; rewrite challenges_length; congruence).
  rewrite reverse_ok. cbn [bind]. rewrite !MulScalar_vscale. cbn [bind].
  assert (PP : 0 < 2 ^ k) by (apply Nat.neq_0_lt_0; apply Nat.pow_nonzero; lia).
  rewrite mul_factors_short; [reflexivity| |]; rewrite vscale_length, rev_length, svec_length, UL; lia.
Qed.
(** other sizes: rejected *)
Lemma Verify_sizes p G H fs Q P n k :
  length (ip_L R p) = k -> length (ip_R R p) = k -> k < 32 -> 2 ^ k <= length fs ->
  length G + length H <> 2 ^ k + 2 ^ k -> ipp_Verify R p G H fs Q P n = Ok false.
Proof.
  intros HL HR HK HF HN. unfold ipp_Verify.
  pose proof (VerifScalars_ok p ltac:(congruence) ltac:(lia)) as VS. cbn zeta in VS. rewrite VS. cbn [bind].
  set (us := challenges R [] (ip_L R p) (ip_R R p)) in *.
  assert (UL : length us = k) by (unfold us; rewrite challenges_length; congruence).
  rewrite reverse_ok. cbn [bind]. rewrite !MulScalar_vscale. cbn [bind].
  rewrite mul_factors_ok by (rewrite vscale_length, rev_length, svec_length, UL; lia). cbn [bind skipn].
  rewrite !loop1_map. cbn [bind].
  match goal with |- context [Exp R ?x ?y ?u ?v] => destruct (Exp_err (R := R) x y u v) as [e E]; [|rewrite E; reflexivity] end.
  left. cbn [length]. rewrite !app_length, !map_length, vscale_length, zipw_length_min, vscale_length, rev_length, !svec_length, UL. lia.
Qed.
Lemma Verify_lr_neq p G H fs Q P n : length (ip_L R p) <> length (ip_R R p) ->
  ipp_Verify R p G H fs Q P n = Ok false.
Proof.
  intros HN. unfold ipp_Verify. rewrite (VerifScalars_neq p HN). cbn [bind].
  rewrite reverse_ok. cbn [bind]. rewrite !MulScalar_vscale. cbn [bind].
  rewrite mul_factors_ok by (cbn; lia). cbn [bind skipn]. rewrite !loop1_map. cbn [bind].
  match goal with |- context [Exp R ?x ?y ?u ?v] => destruct (Exp_err (R := R) x y u v) as [e E]; [|rewrite E; reflexivity] end.
  left. cbn [length app map rev vscale zipw]. rewrite !app_length. lia.
Qed.

(** ** Generate *)
Lemma Generate_ok G H a b fs Q k : k < 32 ->
  length a = 2 ^ k -> length b = 2 ^ k -> length G = 2 ^ k -> length H = 2 ^ k -> 2 ^ k <= length fs ->
  exists p, Generate R G H a b fs Q = Ok p /\ length (ip_L R p) = k /\ length (ip_R R p) = k /\
   (let us := challenges R [] (ip_L R p) (ip_R R p) in
    Forall (fun u => u <> f0) us ->
    ipp_equation R (ip_L R p) (ip_R R p) (ip_A R p) (ip_B R p) G H fs Q
      (ipp_stmt R a b fs G H Q)).
Proof.
  intros HK Ha Hb HG HH HF. unfold Generate.
  assert (PP : 0 < 2 ^ k) by (apply Nat.neq_0_lt_0; apply Nat.pow_nonzero; lia).
  assert (PB : (Z.of_nat (2 ^ k) < 2 ^ 32)%Z).
  { change (2 ^ 32)%Z with (Z.of_nat 2 ^ Z.of_nat 32)%Z. rewrite Nat2Z.inj_pow. apply Z.pow_lt_mono_r; lia. }
  rewrite HG. replace (u32 (Z.of_nat (2 ^ k))) with (Z.of_nat (2 ^ k)) by (unfold u32; rewrite Z.mod_small; lia).
  replace (isPower2 (Z.of_nat (2 ^ k))) with true by (symmetry; rewrite Nat2Z.inj_pow; apply (isPower2_pow (Z.of_nat k)); lia).
  cbn [negb]. set (H' := zipw (smul R) fs H).
  assert (HL' : length H' = 2 ^ k) by (unfold H'; rewrite zipw_length_min; lia).
  assert (HM : forall s, length s <= length fs -> msm R (zipw fmul s fs) H = msm R s H').
  { intros s Hs. unfold H'. rewrite <- (firstn_skipn (length s) fs) at 1.
    rewrite zipw_more by (rewrite firstn_length; lia). rewrite (msm_had OK) by (rewrite firstn_length; lia).
    rewrite <- (firstn_skipn (length s) (zipw (smul R) fs H)).
    destruct (Nat.le_gt_cases (length s) (length H)) as [C|C].
    - rewrite msm_more by (rewrite firstn_length, zipw_length_min; lia).
      f_equal. rewrite <- zipw_firstn. rewrite <- (firstn_skipn (length s) H) at 1.
      rewrite zipw_more by (rewrite !firstn_length; lia). reflexivity.
    - rewrite firstn_skipn. f_equal. rewrite <- (firstn_skipn (length s) fs) at 2.
      rewrite <- (app_nil_r H) at 2. clear -C Hs.
      assert (CC : length H <= length (firstn (length s) fs)) by (rewrite firstn_length; lia).
      revert CC. generalize (firstn (length s) fs) (skipn (length s) fs). clear. intros x y.
      revert x. induction H as [|h H IH]; intros x CC; cbn in *.
      + destruct x; cbn; [destruct y; reflexivity|reflexivity].
      + destruct x; cbn in *; [lia|]. f_equal. apply IH. lia. }
  assert (G1 : exists st1, (if negb (Z.of_nat (2 ^ k) =? 1)%Z
      then round_first R (Z.of_nat (2 ^ k) / 2) fs Q (mkG R a b G H [] [] []) else Ok (mkG R a b G H [] [] [])) = Ok st1 /\
      exists st' Ls Rs A B, rounds R 32 (if negb (Z.of_nat (2 ^ k) =? 1)%Z then (Z.of_nat (2 ^ k) / 2)%Z else Z.of_nat (2 ^ k)) Q st1 = Ok st' /\
    g_L R st' = Ls /\ g_R R st' = Rs /\ length Ls = k /\ length Rs = k /\
    g_a R st' = [A] /\ g_b R st' = [B] /\
    (let us := challenges R [] Ls Rs in
     Forall (fun u => u <> f0) us ->
     ipp_point R a b G H' Q [+] lr_sum R us Ls Rs =
     A [*] msm R (svec us) G [+] B [*] msm R (svec (map finv us)) H' [+] fmul A B [*] Q)).
  { destruct k as [|k].
    - cbn. eexists. split; [reflexivity|].
      destruct (rounds_ok OK 0 32 Q (mkG R a b G H' [] [] [])) as [st' [Ls [Rs [A [B [E [E1 [E2 [E3 [E4 [E5 [E6 E7]]]]]]]]]]]];
        [repeat split; assumption|lia|lia|].
      cbn [rounds] in E. change (1 <? Z.of_nat (2 ^ 0))%Z with false in E. cbn in E. injection E as <-.
      cbn [g_L g_R g_a g_b g_G g_H g_hs app] in *.
      exists (mkG R a b G H [] [] []), Ls, Rs, A, B. cbn [g_L g_R g_a g_b]. split; [reflexivity|].
      repeat split; assumption.
    - assert (P2 : 2 ^ S k = 2 ^ k + 2 ^ k) by (cbn; lia). rewrite P2 in *.
      destruct (Z.eqb_spec (Z.of_nat (2 ^ k + 2 ^ k)) 1) as [C|C]; [lia|]. cbn [negb].
      replace (Z.of_nat (2 ^ k + 2 ^ k) / 2)%Z with (Z.of_nat (2 ^ k)) by (rewrite Nat2Z.inj_add, Z.add_diag, Z.mul_comm, Z.div_mul by lia; reflexivity).
      rewrite (round_first_ok OK) by (repeat split; (assumption || lia)). eexists. split; [reflexivity|].
      fold H'.
      assert (PK : 2 ^ k <> 0) by (apply Nat.pow_nonzero; lia).
      assert (SL : st_len (R := R) (2 ^ S k) (mkG R a b G H' [] [] [])).
      { unfold st_len. cbn [g_a g_b g_G g_H]. rewrite P2. auto. }
      destruct (rounds_ok OK (S k) 33 Q (mkG R a b G H' [] [] [])) as [st' [Ls [Rs [A [B [E [E1 [E2 [E3 [E4 [E5 [E6 E7]]]]]]]]]]]];
        [exact SL|lia|lia|].
      exists st', Ls, Rs, A, B.
      cbn [g_L g_R g_a g_b g_G g_H g_hs app] in *.
      split; [|repeat split; assumption].
      change 33 with (S 32) in E. cbn [rounds] in E. rewrite P2 in E.
      destruct (Z.ltb_spec 1 (Z.of_nat (2 ^ k + 2 ^ k))) as [D|D]; [|lia].
      replace (Z.of_nat (2 ^ k + 2 ^ k) / 2)%Z with (Z.of_nat (2 ^ k)) in E by (rewrite Nat2Z.inj_add, Z.add_diag, Z.mul_comm, Z.div_mul by lia; reflexivity).
      rewrite (round_next_ok OK) in E; [exact E| |lia|assumption].
      rewrite <- P2. exact SL. }
  destruct G1 as [st1 [E0 [st' [Ls [Rs [A [B [E [E1 [E2 [E3 [E4 [E5 [E6 E7]]]]]]]]]]]]]].
  rewrite E0. cbn [bind]. rewrite E. cbn [bind]. rewrite E5, E6, E1, E2. cbn [last_elem length idx nth_error bind].
  eexists. split; [reflexivity|]. cbn [ip_L ip_R ip_A ip_B]. split; [exact E3|]. split; [exact E4|].
  cbn zeta. intros HU. specialize (E7 HU). unfold ipp_equation. set (us := challenges R [] Ls Rs) in *.
  assert (UL : length us = k) by (unfold us; rewrite challenges_length; lia).
  rewrite (HM (svec (map finv us))) by (rewrite svec_length, map_length, UL; lia).
  rewrite <- E7. unfold ipp_point, ipp_stmt. rewrite (HM b) by lia. lin OK.
Qed.
End VS.
