(** The proof made when the loop of sumZMTwoN ends early *)
From Coq Require Import String ZArith List Lia Bool Arith Field.
From Coq Require Import Init.Byte Strings.Byte.
From Verif Require Import GoModel GoFacts ReadModel GlobModel GlobFacts Fld Rist RistFacts SpecVector VectorModel VectorFacts
  SpecPedersen PedersenModel PedersenFacts PedersenProps SpecIPP InnerProductModel InnerProductFacts IPPVerifyFacts
  SpecRange RangeProofModel SpecHonest RangeFacts RangeProveFacts RangeRun RangeProps SpecLost.
Import ListNotations.
Local Open Scope nat_scope.

(** ** One read that sees another value *)
(** [x] is the result of p when exactly one read sees n, at a time when the variable is t before and after it *)
Fixpoint dip {X} (n t : Z) (p : gprog X) (m : Z) (x : X) : Prop :=
  match p with
  | GRet _ => False
  | GGet k => (m = t /\ grun (k n) t = (x, t)) \/ dip n t (k m) m x
  | GSet m' k => dip n t k m' x
  end.
Lemma dip_bind {X Y} n t {p : gprog X} {m x m'} (E : grun p m = (x, m')) (f : X -> gprog Y) y : dip n t (f x) m' y -> dip n t (gbind p f) m y.
Proof.
  revert m E. induction p as [z|k IH|m2 k IH]; cbn [grun gbind dip]; intros m E H.
  - injection E as <- <-. exact H.
  - right. apply IH; assumption.
  - apply IH; assumption.
Qed.
Lemma dip_left {X Y} n t (p : gprog X) m x (f : X -> gprog Y) y : grun (f x) t = (y, t) -> dip n t p m x -> dip n t (gbind p f) m y.
Proof.
  intros E. revert m. induction p as [z|k IH|m2 k IH]; cbn [gbind dip]; intros m H.
  - contradiction.
  - destruct H as [[-> H]|H]; [left; split; [reflexivity|]; rewrite (run_bind H); exact E|right; apply IH; exact H].
  - apply IH. exact H.
Qed.
Lemma dip_get {Y} n t (f : res Z -> gprog Y) m y : dip n t (f (Ok m)) m y -> dip n t (gbind getM f) m y.
Proof. intros H. right. exact H. Qed.
Lemma dip_lift {A Y} n t (r : res A) (f : res A -> gprog Y) m y : dip n t (f r) m y -> dip n t (gbind (glift r) f) m y.
Proof. exact (fun H => H). Qed.
Ltac ds := repeat (match goal with |- dip _ _ (gbind getM _) _ _ => apply dip_get | |- dip _ _ (gbind (glift _) _) _ _ => apply dip_lift end; cbv beta iota zeta).

Section Loops.
Context {S : Type} (cond : nat -> Z -> bool) (body : nat -> S -> gres S).
Context (n t : Z) (b : nat -> S -> res S) (HB : forall i st, grun (body i st) t = (b i st, t)).
Lemma once_dip i st : cond i n = false -> dip n t (gonce cond body i st) t (Ok (false, (i, st))).
Proof. intros H. left. split; [reflexivity|]. cbn [gbind]. rewrite H. reflexivity. Qed.
Lemma while_dip p : forall k i st i' st', k < Pos.to_nat p -> tests cond t b k i st = Ok (true, (i', st')) -> cond i' n = false ->
  dip n t (gwhile p cond body i st) t (Ok (false, (i', st'))).
Proof.
  assert (HALF : forall p, (forall k i st i' st', k < Pos.to_nat p -> tests cond t b k i st = Ok (true, (i', st')) -> cond i' n = false ->
      dip n t (gwhile p cond body i st) t (Ok (false, (i', st')))) ->
    forall k i st i' st', k < Pos.to_nat p + Pos.to_nat p -> tests cond t b k i st = Ok (true, (i', st')) -> cond i' n = false ->
      dip n t (gwhile (xO p) cond body i st) t (Ok (false, (i', st')))).
  { intros q IH k i st i' st' L E C. cbn [gwhile].
    destruct (Nat.lt_ge_cases k (Pos.to_nat q)) as [D|D].
    - apply (dip_left _ _ _ _ (Ok (false, (i', st')))); [reflexivity|]. apply (IH k); assumption.
    - replace k with (Pos.to_nat q + (k - Pos.to_nat q)) in E by lia. rewrite tests_add in E.
      apply (dip_bind _ _ (while_run cond body t b HB q i st)).
      destruct (tests cond t b (Pos.to_nat q) i st) as [[[] [i1 st1]]|e|]; cbn [bind] in E; try discriminate.
      cbv beta iota. apply (IH (k - Pos.to_nat q)); [lia|exact E|exact C]. }
  induction p as [p IH|p IH|]; intros k i st i' st' L E C.
  - cbn [gwhile]. destruct k as [|k].
    + cbn [tests] in E. injection E as <- <-. apply (dip_left _ _ _ _ (Ok (false, (i, st)))); [reflexivity|]. apply once_dip. exact C.
    + apply (dip_bind _ _ (once_run cond body t b HB i st)).
      change (Datatypes.S k) with (1 + k) in E. rewrite tests_add in E.
      destruct (tests cond t b 1 i st) as [[[] [i1 st1]]|e|]; cbn [bind] in E; try discriminate.
      cbv beta iota. apply (HALF p IH k); [rewrite Pos2Nat.inj_xI in L; lia|exact E|exact C].
  - apply (HALF p IH k); [rewrite Pos2Nat.inj_xO in L; lia|exact E|exact C].
  - rewrite Pos2Nat.inj_1 in L. replace k with 0 in E by lia. cbn [tests] in E. injection E as <- <-. apply once_dip. exact C.
Qed.
Lemma tests_true cnt : forall i st st', (forall j, i <= j < i + cnt -> cond j t = true) -> for_loop i cnt b st = Ok st' ->
  tests cond t b cnt i st = Ok (true, (i + cnt, st')).
Proof.
  induction cnt as [|cnt IH]; intros i st st' C E; cbn [tests for_loop] in *.
  - injection E as <-. rewrite Nat.add_0_r. reflexivity.
  - rewrite C by lia. destruct (b i st) as [s1|e|]; cbn [bind] in *; try discriminate.
    replace (i + 1) with (Datatypes.S i) by lia. rewrite (IH _ _ st'); [|intros j Hj; apply C; lia|exact E]. do 3 f_equal. lia.
Qed.
Lemma for_dip lo cnt st st' : (Z.of_nat cnt < 2 ^ 63)%Z -> (forall j, lo <= j < lo + cnt -> cond j t = true) -> cond (lo + cnt) n = false ->
  for_loop lo cnt b st = Ok st' -> dip n t (gfor lo cond body st) t (Ok st').
Proof.
  intros L C1 C2 E. unfold gfor. apply (dip_left _ _ _ _ (Ok (false, (lo + cnt, st')))); [reflexivity|].
  apply (while_dip (2 ^ 63) cnt).
  - apply Nat2Z.inj_lt. rewrite positive_nat_Z. exact L.
  - apply tests_true; assumption.
  - exact C2.
Qed.
End Loops.

(** the schedule: the other goroutine writes n, one read sees it, and the other goroutine goes on until the variable is t *)
Lemma dip_sched {X} n t (k k' : gprog X) (x : X) l :
  (forall pool, nth_error pool 1 = Some k -> sched_run pool n (repeat 1 l) = (upd pool 1 k', t)) ->
  forall p m, dip n t p m x ->
  exists schedule, sched_run [p; GSet n k] m schedule = ([GRet x; GRet (fst (grun k' t))], snd (grun k' t)).
Proof.
  intros HK. induction p as [y|f IH|m' f IH]; cbn [dip]; intros m H.
  - contradiction.
  - destruct H as [[-> H]|H].
    + destruct (sched_alone (f n) 0 [f n; k'] t eq_refl) as [a EA]. rewrite H in EA. cbn [fst snd upd] in EA.
      destruct (sched_alone k' 1 [GRet x; k'] t eq_refl) as [c EC]. cbn [upd] in EC.
      exists ([1; 0] ++ repeat 1 l ++ repeat 0 a ++ repeat 1 c).
      cbn [app sched_run nth_error gstep upd].
      rewrite sched_app, HK by reflexivity. cbn [upd]. rewrite sched_app, EA. exact EC.
    + destruct (IH m m H) as [s E]. exists (0 :: s). cbn [sched_run nth_error gstep upd]. exact E.
  - destruct (IH m' H) as [s E]. exists (0 :: s). cbn [sched_run nth_error gstep upd]. exact E.
Qed.

(** ** sumZMTwoN *)
Lemma z_part_length z n m : n <= m -> length (z_part z n m) = 64 * m.
Proof. intros L. unfold z_part. rewrite app_length, z_two_length, repeat_length. lia. Qed.
Lemma z_two_split z n m : n <= m -> z_two z m = z_two z n ++ z_lost z n m.
Proof.
  intros L. unfold z_two, z_lost. replace m with (n + (m - n)) at 1 by lia. rewrite seq_app, map_app, concat_app. reflexivity.
Qed.
Lemma z_lost_length z n m : length (z_lost z n m) = 64 * (m - n).
Proof.
  unfold z_lost. generalize n at 1. induction (m - n) as [|d IH]; intros lo; cbn [seq map concat]; [reflexivity|].
  rewrite app_length, IH, vscale_length, powers_length. lia.
Qed.
Lemma sum_loop z n m : n <= m ->
  for_loop 0 (64 * n) (fun i res => let! res := set_idx res i f0 in for_loop 1 m (fun j res =>
      if andb (Nat.leb ((j - 1) * 64) i) (Nat.ltb i (j * 64)) then
        let! zj := idx (cpowers z (m + 3)) (j + 1) in
        let! t := idx (powers two 64) (i - (j - 1) * 64) in
        let! r := idx res i in
        set_idx res i (fadd (fmul zj t) r)
      else Ok res) res) (make_scalars (64 * m)) = Ok (z_part z n m).
Proof.
  intros LNM.
  edestruct (for_loop_inv (fun i r => length r = 64 * m /\ (forall j, j < i -> nth_error r j = nth_error (z_two z m) j) /\
    (forall j, i <= j < 64 * m -> nth_error r j = Some f0))) as [r [E [LR [P P0]]]]; cycle 2.
  - rewrite E. f_equal. apply nth_error_ext. intros j. cbn [Nat.add] in P, P0. unfold z_part. destruct (Nat.lt_ge_cases j (64 * n)) as [C|C].
    + rewrite P by lia. rewrite (z_two_split z n m LNM). rewrite !nth_error_app1 by (rewrite z_two_length; exact C). reflexivity.
    + rewrite nth_error_app2 by (rewrite z_two_length; exact C). rewrite z_two_length. destruct (Nat.lt_ge_cases j (64 * m)) as [D|D].
      * rewrite P0 by lia. symmetry. apply nth_error_repeat. lia.
      * rewrite !(proj2 (nth_error_None _ _)); [reflexivity|rewrite repeat_length; lia|lia].
  - split; [apply repeat_length|]. split; [intros j Hj; lia|]. intros j Hj. apply nth_error_repeat. lia.
  - intros i r Hi [LR [P P0]]. rewrite set_idx_ok by lia. cbn [bind].
    set (val := fmul (fpow z (i / 64 + 2)) (fpow two (i mod 64))).
    edestruct (for_loop_inv (fun j r' => r' = upd r i (if Nat.ltb (i / 64 + 1) j then val else f0))) as [r' [E' P']]; cycle 2.
    + rewrite E'. eexists. split; [reflexivity|]. subst r'. split; [rewrite upd_length; exact LR|].
      assert (Q : i / 64 < m) by (apply Nat.div_lt_upper_bound; lia).
      destruct (Nat.ltb_spec (i / 64 + 1) (1 + m)); [|lia]. split.
      * intros j Hj. destruct (Nat.eq_dec j i) as [->|D].
        -- rewrite upd_same by lia. rewrite z_two_nth by lia. reflexivity.
        -- rewrite upd_other by congruence. apply P. lia.
      * intros j Hj. rewrite upd_other by lia. apply P0. lia.
    + destruct (Nat.ltb_spec (i / 64 + 1) 1); [lia|]. reflexivity.
    + intros j r' Hj ->. pose proof (Nat.div_mod i 64 ltac:(lia)) as DM. pose proof (Nat.mod_upper_bound i 64 ltac:(lia)) as MB.
      destruct (Nat.eq_dec j (i / 64 + 1)) as [->|D].
      * destruct (Nat.leb_spec ((i / 64 + 1 - 1) * 64) i); [|lia].
        destruct (Nat.ltb_spec i ((i / 64 + 1) * 64)); [|lia]. cbn [andb].
        rewrite (idx_some _ _ (fpow z (i / 64 + 1 + 1))) by (apply nth_error_cpowers; lia). cbn [bind].
        replace (i - (i / 64 + 1 - 1) * 64) with (i mod 64) by lia.
        rewrite (idx_some _ _ (fpow two (i mod 64))) by (apply nth_error_powers; lia). cbn [bind].
        destruct (Nat.ltb_spec (i / 64 + 1) (i / 64 + 1)); [lia|].
        rewrite (idx_some _ _ f0) by (apply upd_same; lia). cbn [bind].
        rewrite set_idx_ok by (rewrite upd_length; lia). eexists. split; [reflexivity|].
        rewrite upd_upd. destruct (Nat.ltb_spec (i / 64 + 1) (1 + (i / 64 + 1))); [|lia].
        f_equal. unfold val. rewrite <- Nat.add_assoc. cbn [Nat.add]. ring.
      * assert (B : (Nat.leb ((j - 1) * 64) i && Nat.ltb i (j * 64))%bool = false).
        { destruct (Nat.leb_spec ((j - 1) * 64) i); [|reflexivity]. destruct (Nat.ltb_spec i (j * 64)); [|reflexivity]. lia. }
        rewrite B. eexists. split; [reflexivity|]. f_equal.
        destruct (Nat.ltb_spec (i / 64 + 1) j), (Nat.ltb_spec (i / 64 + 1) (1 + j)); try reflexivity; lia.
Qed.
Lemma sumZMTwoN_dip z n m : n < m -> (64 * Z.of_nat m < 2 ^ 32)%Z ->
  dip (Z.of_nat n) (Z.of_nat m) (sumZMTwoN z) (Z.of_nat m) (Ok (z_part z n m)).
Proof.
  intros LN HM. unfold sumZMTwoN. ds. rewrite make_n_ok. cbv beta iota. ds. rewrite ScalarPowers_c. cbv beta iota. ds. rewrite ScalarPowers_c. cbv beta iota. ds.
  unfold u32. rewrite Z.mod_small by lia.
  replace (Z.to_nat (Z.of_nat m + 3)) with (m + 3) by lia.
  change (Z.to_nat rN) with 64.
  fold two. rewrite (cpowers_nz two) by (intros E; apply (f_equal to_Z) in E; revert E; vm_compute; discriminate).
  apply (for_dip _ _ _ _ (fun i res => let! res := set_idx res i f0 in for_loop 1 m (fun j res =>
      if andb (Nat.leb ((j - 1) * 64) i) (Nat.ltb i (j * 64)) then
        let! zj := idx (cpowers z (m + 3)) (j + 1) in
        let! t := idx (powers two 64) (i - (j - 1) * 64) in
        let! r := idx res i in
        set_idx res i (fadd (fmul zj t) r)
      else Ok res) res)) with (cnt := 64 * n);
    [|lia|intros j Hj; apply Z.ltb_lt; unfold rN; lia|apply Z.ltb_ge; unfold rN; lia|].
  { intros i res. rewrite run_lift. destruct (set_idx res i f0) as [res'|e|]; cbn [bind]; try reflexivity. cbv beta iota.
    apply for_run; [reflexivity|lia|intros j Hj; apply Z.leb_le; lia|apply Z.leb_gt; lia]. }
  apply sum_loop. lia.
Qed.

(** ** computePoly and the rest of Prove *)
Lemma computePoly_dip aL aR sL sR y z n m : n < m -> (64 * Z.of_nat m < 2 ^ 32)%Z ->
  length aL = 64 * m -> length aR = 64 * m -> length sL = 64 * m -> length sR = 64 * m ->
  let l0 := map (fun x => fsub x z) aL in
  let yp := cpowers y (64 * m) in
  let r0 := vadd (zipw fmul (map (fun x => fadd x z) aR) yp) (z_part z n m) in
  let r1 := zipw fmul yp sR in
  dip (Z.of_nat n) (Z.of_nat m) (computePoly aL aR sL sR y z) (Z.of_nat m)
   (Ok (mkPoly l0 sL r0 r1 (dot l0 r0) (fadd (dot sL r0) (dot l0 r1)) (dot sL r1))).
Proof.
  intros LN HM L1 L2 L3 L4. cbv zeta. unfold computePoly. ds. rewrite SubScalar_ok. cbv beta iota zeta. ds.
  rewrite ScalarPowers_c. cbv beta iota. rewrite NM_eq by exact HM.
  eapply dip_left; [|apply sumZMTwoN_dip; assumption]. cbv beta iota. gs.
  rewrite AddScalar_ok. cbv beta iota. gs.
  rewrite Hadamard_ok by (rewrite map_length, cpowers_length; exact L2). cbv beta iota. gs.
  assert (LR0 : length (zipw fmul (map (fun x => fadd x z) aR) (cpowers y (64 * m))) = 64 * m)
    by (rewrite zipw_length; rewrite map_length, ?cpowers_length; exact L2).
  rewrite Add_ok by (rewrite LR0, z_part_length by lia; reflexivity). cbv beta iota. gs.
  rewrite Hadamard_ok by (rewrite cpowers_length; auto). cbv beta iota. gs.
  assert (LR1 : length (zipw fmul (cpowers y (64 * m)) sR) = 64 * m) by (rewrite zipw_length; rewrite cpowers_length; auto).
  assert (LV : length (vadd (zipw fmul (map (fun x => fadd x z) aR) (cpowers y (64 * m))) (z_part z n m)) = 64 * m)
    by (rewrite vadd_length; rewrite LR0, ?z_part_length by lia; reflexivity).
  rewrite InnerProduct_ok by (rewrite map_length, LV; exact L1). cbv beta iota. gs.
  rewrite InnerProduct_ok by (rewrite LV; exact L3). cbv beta iota. gs.
  rewrite InnerProduct_ok by (rewrite map_length, LR1; exact L1). cbv beta iota zeta. gs.
  rewrite InnerProduct_ok by (rewrite LR1; exact L3). cbv beta iota. reflexivity.
Qed.

Section Lost.
Context {R : rist} (OK : rist_ok R).
Local Notation "p [+] q" := (padd R p q) (at level 50, left associativity).
Local Notation "p [-] q" := (psub R p q) (at level 50, left associativity).
Local Notation "s [*] p" := (smul R s p) (at level 40, left associativity).

Definition lip (h : hp_in R) n := Generate R (rp_G R (64 * hm h)) (rp_H R (64 * hm h)) (ll h n) (lr h n) (hfs h) (lQ h n).
Definition lpoly (h : hp_in R) n := mkPoly (hl0 h) (h_sL h) (lr0 h n) (hr1 h) (lt0 h n) (lt1 h n) (ht2 h).
Lemma lr0_len (h : hp_in R) n : n <= hm h -> length (lr0 h n) = 64 * hm h.
Proof. intros L. unfold lr0. rewrite vadd_length; rewrite zipw_length; rewrite ?map_length, ?hyp_len, ?z_part_length by lia; apply haR_len. Qed.
Lemma ll_len (h : hp_in R) n : hp_wf h -> length (ll h n) = 64 * hm h.
Proof. intros [_ [W _]]. unfold ll. rewrite vadd_length; rewrite hl0_len; auto. rewrite vscale_length. auto. Qed.
Lemma lr_len (h : hp_in R) n : hp_wf h -> n <= hm h -> length (lr h n) = 64 * hm h.
Proof. intros W L. unfold lr. rewrite vadd_length; rewrite lr0_len; auto. rewrite vscale_length, hr1_len; auto. Qed.

Lemma prove_padded_dip v rs n : n < length v -> (64 * Z.of_nat (length v) < 2 ^ 32)%Z ->
  let h := hin R v rs in
  let m := Z.of_nat (length v) in
  dip (Z.of_nat n) m (prove_padded R v false rs) m
   (if lzero_challenge h n then
      Err "[Prove] - One of the challenge scalars, x, y, or z was equal to zero. Generate proof again"%string
    else let! ip := wrap "[Prove] -  ipproof"%string (lip h n) in Ok (lproof h n ip)).
Proof.
  intros LN HM. assert (H0 : 0 < length v) by lia. cbv zeta. set (h := hin R v rs). set (m := length v) in *.
  assert (WF : hp_wf h) by (apply hin_wf; assumption).
  unfold prove_padded. ds. rewrite NM_eq by exact HM. rewrite ped_computed_the. cbv beta iota. ds.
  rewrite commit_loop_V. cbv beta iota. ds. rewrite bits_loop. cbv beta iota. ds.
  rewrite (CommitToVectors_the OK); [|rewrite allbits_length; fold m; lia|rewrite map_length, allbits_length; fold m; lia|lia].
  cbv beta iota. fold m.
  apply (dip_bind _ _ (drawS_run (fun i => rs (m + 1 + i)) m HM)). cbv beta iota.
  rewrite !map_length, !seq_length. ds.
  rewrite (CommitToVectors_the OK); [|rewrite map_length, seq_length; lia|rewrite map_length, seq_length; lia|lia].
  cbv beta iota. cbn [c_val c_blind].
  (* fold the names of the honest proof *)
  change (allbits v) with (haL h). change (map (fun a => fsub a f1) (haL h)) with (haR h).
  change (map (fun i => rs (m + 1 + 2 * i)) (seq 0 (64 * m))) with (h_sL h).
  change (map (fun i => rs (m + 1 + (2 * i + 1))) (seq 0 (64 * m))) with (h_sR h).
  change (rs (m + 1 + (64 * m + 64 * m))) with (h_rho h).
  change (rs m) with (h_alpha h).
  change (vec_commit R low_byte genData (h_alpha h) [haL h; haR h]) with (hA h).
  change (vec_commit R low_byte genData (h_rho h) [h_sL h; h_sR h]) with (hS h).
  assert (EV : zipw com v (map rs (seq 0 m)) = hV h) by (unfold hV; cbn [hin hv hbl hextra h]; rewrite app_nil_r; reflexivity).
  rewrite EV. unfold computeYAndZ, hc_Result. rewrite !hc_Append_concat. cbn [concat]. rewrite !app_nil_r.
  change (sderive R (concat (map (pbytes R) (vals (hV h))) ++ pbytes R (hA h) ++ pbytes R (hS h))) with (hy h).
  change (sderive R (sbytes R (hy h))) with (hz h). cbv beta iota zeta.
  pose proof WF as [W0 [W1 [W2 _]]].
  pose proof (computePoly_dip (haL h) (haR h) (h_sL h) (h_sR h) (hy h) (hz h) n m LN HM (haL_len h) (haR_len h) W1 W2) as CP.
  cbv zeta in CP. change (mkPoly _ _ _ _ _ _ _) with (lpoly h n) in CP.
  apply (dip_left _ _ _ _ (Ok (lpoly h n))); [|unfold gwrap; apply (dip_left _ _ _ _ (Ok (lpoly h n))); [reflexivity|exact CP]].
  clear CP. cbv beta iota. cbn [lpoly t1 t2]. cbv zeta.
  change (rs (m + 1 + (64 * m + 64 * m) + 1)) with (h_tau1 h).
  change (rs (m + 1 + (64 * m + 64 * m) + 2)) with (h_tau2 h).
  cbn [CommitToScalar c_val c_blind].
  change (padd R (smul R (lt1 h n) (p_base R (the_ped genData (64 * m)))) (smul R (h_tau1 h) (p_blind R (the_ped genData (64 * m))))) with (lT1 h n).
  change (padd R (smul R (ht2 h) (p_base R (the_ped genData (64 * m)))) (smul R (h_tau2 h) (p_blind R (the_ped genData (64 * m))))) with (hT2 h).
  unfold computeX, hc_Result.
  match goal with |- context [hc_Append ?a [sbytes R (hz h); ?b; ?c]] => set (HS := hc_Append a [sbytes R (hz h); b; c]) end.
  assert (EHS : HS = concat (map (pbytes R) (vals (hV h))) ++ pbytes R (hA h) ++ pbytes R (hS h) ++ sbytes R (hz h) ++ pbytes R (lT1 h n) ++ pbytes R (hT2 h)).
  { unfold HS. rewrite hc_Append_concat. cbn [concat]. rewrite app_nil_r, <- !app_assoc. reflexivity. }
  assert (EX : sderive R HS = lx h n) by (rewrite EHS; reflexivity).
  rewrite EX.
  gs. replace (computeTaux R (lx h n) (hz h) (h_tau1 h) (h_tau2 h) (hV h)) with (Ok (ltaux h n)).
  2:{ rewrite <- EV. rewrite computeTaux_ok; [reflexivity|]. rewrite map_length, seq_length. reflexivity. }
  cbv beta iota. gs.
  change (computeMu (lx h n) (h_alpha h) (h_rho h)) with (lmu h n).
  assert (LN' : n <= hm h) by (change (hm h) with m; lia).
  assert (EL : computeL (lpoly h n) (lx h n) = Ok (ll h n)).
  { unfold computeL. cbn [lpoly l1 l0]. rewrite MulScalar_vscale. cbn [bind]. rewrite Add_ok; [reflexivity|].
    rewrite hl0_len, vscale_length. auto. }
  assert (ER : computeR (lpoly h n) (lx h n) = Ok (lr h n)).
  { unfold computeR. cbn [lpoly r1 r0]. rewrite MulScalar_vscale. cbn [bind]. rewrite Add_ok; [reflexivity|].
    rewrite lr0_len, vscale_length, hr1_len; auto. }
  rewrite EL. cbv beta iota. gs. rewrite ER. cbv beta iota. gs.
  rewrite InnerProduct_ok by (rewrite (ll_len h n WF), (lr_len h n WF LN'); reflexivity). cbv beta iota. fold (lt h n). gs.
  fold (lzero_challenge h n). destruct (lzero_challenge h n); [reflexivity|].
  gs. rewrite ScalarPowers_c. cbv beta iota. gs. rewrite NM_eq by exact HM. rewrite ped_computed_the. cbv beta iota. gs.
  cbn [the_ped g_bases p_gens p_base].
  unfold hc_Derive. rewrite hc_Append_concat, EHS. cbn [concat]. rewrite app_nil_r, <- !app_assoc.
  match goal with |- context [Generate R ?g ?hh ?a ?b ?f ?q] => change (Generate R g hh a b f q) with (lip h n) end.
  destruct (lip h n) as [ip|e|]; cbv beta iota; reflexivity.
Qed.

Lemma allbits_app a b : allbits (a ++ b) = allbits a ++ allbits b.
Proof. unfold allbits. rewrite map_app, concat_app. reflexivity. Qed.
Lemma lost_blocks z u : forall lo,
  let L := concat (map (fun j => vscale (fpow z (j + 2)) (powers two 64)) (seq lo (length u))) in
  fsub (dot (allbits u) L) (fmul z (fsum L))
  = fsum (zipw (fun j a => fmul (fpow z (j + 2)) (fsub (of_Z (low64 (to_Z a))) (fmul z (fsum (powers two 64))))) (seq lo (length u)) u).
Proof.
  induction u as [|a u IH]; intros lo; cbv zeta; cbn [length seq map concat zipw allbits].
  - unfold fsum, dot, fsum. cbn [zipw map concat allbits fold_right]. ring.
  - specialize (IH (S lo)). cbv zeta in IH.
    rewrite dot_app by (rewrite bits64_length, vscale_length, powers_length; reflexivity). rewrite fsum_app, fsum_cons, <- IH. fold (allbits u).
    rewrite dot_vscale_r, bits_dot, fsum_vscale by apply to_Z_range. ring.
Qed.
Lemma dot_lost z n v : n <= length v ->
  fsub (fsub (dot (allbits v) (z_two z (length v))) (dot (allbits v) (z_part z n (length v))))
       (fmul z (fsub (fsum (z_two z (length v))) (fsum (z_part z n (length v))))) = lost_t z n v.
Proof.
  intros L. rewrite (z_two_split z n (length v) L). unfold z_part. rewrite !fsum_app.
  rewrite <- (firstn_skipn n v) at 1 3. rewrite allbits_app.
  assert (LF : length (allbits (firstn n v)) = 64 * n) by (rewrite allbits_length, firstn_length; lia).
  rewrite !dot_app by (rewrite LF, z_two_length; reflexivity). rewrite dot_zeros.
  assert (Z0 : forall k, fsum (repeat f0 k) = f0).
  { induction k as [|k IH]; [reflexivity|]. cbn [repeat]. rewrite fsum_cons, IH. ring. }
  rewrite Z0. unfold lost_t. pose proof (lost_blocks z (skipn n v) n) as B. cbv zeta in B. rewrite skipn_length in B. rewrite <- B.
  unfold z_lost. ring.
Qed.

Context (h : hp_in R) (n : nat) (WF : hp_wf h) (LN : n <= hm h).
Lemma lt_poly : lt h n = fadd (fadd (fmul (lx h n) (lt1 h n)) (fmul (fmul (lx h n) (lx h n)) (ht2 h))) (lt0 h n).
Proof.
  destruct WF as [_ [W1 [W2 _]]].
  unfold lt, ll, lr. rewrite dot_vadd_l by (rewrite hl0_len, vscale_length; auto).
  rewrite !dot_vadd_r by (rewrite lr0_len, vscale_length, hr1_len; auto).
  rewrite !dot_vscale_l, !dot_vscale_r. unfold lt0, lt1, ht2. ring.
Qed.
Lemma lt0_delta : hy h <> f0 -> lt0 h n = fsub (fadd (delta (hy h) (hz h) (hm h)) (z_dot (hz h) (lowv (hv h)))) (lost_t (hz h) n (hv h)).
Proof.
  intros N. rewrite <- (ht0_delta h N). unfold lt0, ht0, hl0, lr0, hr0, haR.
  rewrite !dot_t0 by (try apply allbits_01; rewrite ?hyp_len, ?z_two_length, ?z_part_length, ?haL_len by exact LN; reflexivity).
  unfold haL, hm in *. rewrite <- (dot_lost (hz h) n (hv h) LN). ring.
Qed.
Lemma l_poly : hy h <> f0 ->
  rp_poly_lhs R (lt h n) (ltaux h n) [-] rp_poly_rhs R (hm h) (vals (hV h)) (lT1 h n) (hT2 h) (lx h n) (hy h) (hz h)
  = fsub (fsub (z_dot (hz h) (lowv (hv h))) (z_dot (hz h) (hv h))) (lost_t (hz h) n (hv h)) [*] rp_Base R.
Proof.
  intros N. destruct WF as [W0 _]. unfold rp_poly_lhs, rp_poly_rhs, hV. unfold hm at 2. rewrite (z_msm_coms OK) by exact W0.
  rewrite lt_poly, lt0_delta by exact N. unfold ltaux, lT1, hT2. cbn [com c_val]. lin OK.
Qed.
Lemma msm_lost (fs : list F) (H : list (pt R)) z m : n <= m -> length fs = 64 * m -> length H = 64 * m ->
  msm R (zipw fmul (z_two z m) fs) H
  = msm R (zipw fmul (z_part z n m) fs) H [+] msm R (zipw fmul (z_lost z n m) (skipn (64 * n) fs)) (skipn (64 * n) H).
Proof.
  intros L LF LH. rewrite (z_two_split z n m L). unfold z_part.
  rewrite <- (firstn_skipn (64 * n) fs) at 1 2. rewrite <- (firstn_skipn (64 * n) H) at 1 2.
  assert (L1 : length (firstn (64 * n) fs) = 64 * n) by (rewrite firstn_length; lia).
  assert (L2 : length (firstn (64 * n) H) = 64 * n) by (rewrite firstn_length; lia).
  rewrite !zipw_app by (rewrite z_two_length, L1; reflexivity).
  rewrite !(msm_app OK) by (rewrite zipw_length by (rewrite z_two_length, L1; reflexivity); rewrite z_two_length, L2; reflexivity).
  assert (E0 : forall k (g : list F), length g = k -> zipw fmul (repeat f0 k) g = repeat f0 k).
  { induction k as [|k IH]; intros [|x g] E; try discriminate; [reflexivity|]. cbn [repeat zipw]. rewrite IH by (cbn in E; lia). f_equal; ring. }
  rewrite E0 by (rewrite skipn_length; lia).
  assert (Z0 : forall k (P : list (pt R)), msm R (repeat f0 k) P = pt0 R).
  { induction k as [|k IH]; intros [|q P]; try reflexivity. cbn [repeat]. rewrite msm_cons, IH, (smul_0_l OK). apply (padd_0_r OK). }
  rewrite Z0, (padd_0_r OK). reflexivity.
Qed.
Lemma l_stmt : hy h <> f0 ->
  ipp_stmt R (ll h n) (lr h n) (hfs h) (rp_G R (64 * hm h)) (rp_H R (64 * hm h)) (lQ h n) [+] lost_H (hy h) (hz h) n (hm h)
  = rp_P R (hm h) (hA h) (hS h) (lx h n) (hy h) (hz h) (lmu h n) (lt h n) (lQ h n).
Proof.
  intros N. pose proof WF as [_ [W1 [W2 _]]]. unfold ipp_stmt, rp_P. fold (lt h n).
  unfold hA, hS. rewrite !(vec_commit2 OK) by (rewrite ?haR_len, ?haL_len; congruence).
  rewrite haL_len, haR_len, W1, W2. fold (hfs h).
  assert (NI : finv (hy h) <> f0) by (apply finv_neq0; exact N).
  unfold lost_H, lost_coef. fold (hfs h).
  set (G := rp_G R (64 * hm h)). set (H := rp_H R (64 * hm h)).
  assert (LG : length G = 64 * hm h) by (apply chain_length).
  assert (LH : length H = 64 * hm h) by (apply chain_length).
  rewrite (msm_lost (hfs h) H (hz h) (hm h)) by (rewrite ?hfs_len; auto).
  assert (E : zipw fmul (lr h n) (hfs h) =
    vadd (vadd (map (fun a => fadd a (hz h)) (haR h)) (vscale (lx h n) (h_sR h))) (zipw fmul (z_part (hz h) n (hm h)) (hfs h))).
  { unfold lr, lr0, hr1. apply r_factors; rewrite ?hyp_len, ?hfs_len, ?haR_len, ?z_part_length by exact LN; auto.
    unfold hyp, hfs. rewrite !cpowers_nz by assumption. apply powers_inv. exact N. }
  rewrite E. unfold ll. rewrite !(msm_vadd OK); rewrite ?vadd_length; rewrite ?map_length, ?vscale_length, ?zipw_length, ?haR_len, ?hl0_len, ?z_part_length, ?hfs_len by exact LN; auto.
  rewrite !(msm_vscale OK). unfold hl0. rewrite (map_ext (fun x0 => fsub x0 (hz h)) (fun x0 => fadd x0 (fneg (hz h)))) by (intros; ring).
  rewrite !(msm_map_add OK) by (rewrite ?haL_len, ?haR_len, ?LG, ?LH; reflexivity).
  unfold lmu. lin OK. rewrite zipw_length; rewrite z_part_length, ?hfs_len by exact LN; reflexivity.
Qed.
Lemma l_check c ip : hy h <> f0 ->
  ipp_equation R (ip_L R ip) (ip_R R ip) (ip_A R ip) (ip_B R ip) (rp_G R (64 * hm h)) (rp_H R (64 * hm h)) (hfs h) (lQ h n)
    (ipp_stmt R (ll h n) (lr h n) (hfs h) (rp_G R (64 * hm h)) (rp_H R (64 * hm h)) (lQ h n)) ->
  rp_check (hm h) c (lproof h n ip) ip =
  fsub (fsub (z_dot (hz h) (lowv (hv h))) (z_dot (hz h) (hv h))) (lost_t (hz h) n (hv h)) [*] rp_Base R [-] c [*] lost_H (hy h) (hz h) n (hm h).
Proof.
  intros N E. unfold rp_check. change (chals (lproof h n ip)) with (hy h, hz h, lx h n, lw h n). cbn [lproof pf_V pf_A pf_S pf_T1 pf_T2 pf_mu pf_t pf_taux].
  rewrite l_poly by exact N. unfold ipp_equation in E. unfold rp_ip_defect.
  fold (lQ h n). fold (hfs h). rewrite <- E, <- (l_stmt N). lin OK.
Qed.
Lemma lip_ok k : k < 32 -> 64 * hm h = 2 ^ k ->
  exists ip, lip h n = Ok ip /\ length (ip_L R ip) = k /\ length (ip_R R ip) = k /\
   (Forall (fun u => u <> f0) (challenges R [] (ip_L R ip) (ip_R R ip)) ->
    ipp_equation R (ip_L R ip) (ip_R R ip) (ip_A R ip) (ip_B R ip) (rp_G R (64 * hm h)) (rp_H R (64 * hm h)) (hfs h) (lQ h n)
    (ipp_stmt R (ll h n) (lr h n) (hfs h) (rp_G R (64 * hm h)) (rp_H R (64 * hm h)) (lQ h n))).
Proof.
  intros HK E. unfold lip.
  destruct (Generate_ok OK (rp_G R (64 * hm h)) (rp_H R (64 * hm h)) (ll h n) (lr h n) (hfs h) (lQ h n) k) as [ip H]; try assumption;
    rewrite <- ?E, ?ll_len, ?lr_len, ?hfs_len; auto; try (apply chain_length); try lia.
  exists ip. exact H.
Qed.
Lemma l_verify k ip c : k < 32 -> 64 * hm h = 2 ^ k -> lip h n = Ok ip -> hy h <> f0 ->
  Forall (fun u => u <> f0) (challenges R [] (ip_L R ip) (ip_R R ip)) ->
  grun (Verify R c (lproof h n ip)) (Z.of_nat (hm h)) =
  (if peqb R (pt0 R) (fsub (fsub (z_dot (hz h) (lowv (hv h))) (z_dot (hz h) (hv h))) (lost_t (hz h) n (hv h)) [*] rp_Base R [-] c [*] lost_H (hy h) (hz h) n (hm h)) then Ok true
   else Err "megacheck failed"%string, Z.of_nat (hm h)).
Proof.
  intros HK E HI N HF. pose proof WF as [W0 [_ [_ [WP WB]]]]. destruct (lip_ok k HK E) as [ip' [E1 [L1 [L2 EQ]]]].
  rewrite HI in E1. injection E1 as <-.
  rewrite (Verify_run OK c (lproof h n ip) ip (hm h)); [|reflexivity|exact WP|exact WB|].
  - rewrite l_check by auto. cbn [lproof pf_V]. destruct (Nat.ltb_spec (length (hV h)) (hm h)) as [C|C]; [|reflexivity].
    exfalso. unfold hV in C. rewrite app_length, zipw_length in C by auto. unfold hm in C. lia.
  - unfold sizes_ok. rewrite L1, L2. auto.
Qed.
End Lost.
