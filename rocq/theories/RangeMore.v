(** Facts behind the range proof properties, continued *)
From Coq Require Import String ZArith List Lia Bool Arith Field.
From Coq Require Import Init.Byte Strings.Byte.
From Verif Require Import GoModel GoFacts ReadModel ReadFacts GlobModel GlobFacts Fld Rist RistFacts SpecVector VectorModel VectorFacts
  SpecPedersen PedersenModel PedersenFacts PedersenProps SpecIPP InnerProductModel InnerProductFacts IPPVerifyFacts IPPProps
  SpecRange RangeProofModel SpecHonest RangeFacts RangeProveFacts RangeRun RangeProps.
Import ListNotations.
Local Open Scope nat_scope.

Lemma bit_commit_spec v : (0 <= v)%Z -> exists aL aR, BitCommit v = Ok (aL, aR) /\
  length aL = 64 /\ length aR = 64 /\ Forall (fun a => a = f0 \/ a = f1) aL /\
  (forall i a b, nth_error aL i = Some a -> nth_error aR i = Some b -> b = fsub a f1 /\ fmul a b = f0) /\
  dot aL (powers (of_Z 2) 64) = of_Z (v mod 2 ^ 64).
Proof.
  intros H. rewrite BitCommit_ok, Z.abs_eq by exact H. do 2 eexists. split; [reflexivity|].
  split; [apply bits64_length|]. split; [rewrite map_length; apply bits64_length|]. split; [apply bits64_01|].
  split; [|apply bits_dot; exact H].
  intros i a b Ea Eb. rewrite nth_error_map, Ea in Eb. cbn in Eb. injection Eb as <-. split; [reflexivity|].
  pose proof (bits64_01 v) as B. rewrite Forall_forall in B. destruct (B a (nth_error_In _ _ Ea)) as [-> | ->]; ring.
Qed.

Lemma bit_debug_loop w : (0 <= w)%Z -> 
  for_loop 0 64 (fun i '(testAL, testAR) =>
    let basePow := (2 ^ Z.of_nat i)%Z in
    let! al := idx (bits64 w) i in
    let testAL := if feqb al f1 then (testAL + basePow)%Z else testAL in
    let! ar := idx (map (fun a => fsub a f1) (bits64 w)) i in
    let testAR := if feqb ar f0 then (testAR + basePow)%Z else testAR in
    Ok (testAL, testAR)) (0%Z, 0%Z) = Ok (w mod 2 ^ 64, w mod 2 ^ 64)%Z.
Proof.
  intros H.
  edestruct (for_loop_inv (fun i '(a, b) => a = w mod 2 ^ Z.of_nat i /\ b = w mod 2 ^ Z.of_nat i)%Z) as [[a b] [E P]]; cycle 2.
  - rewrite E. destruct P as [-> ->]. reflexivity.
  - cbn. rewrite Z.mod_1_r. auto.
  - intros i [a b] Hi [-> ->]. cbn [Nat.add] in *.
    assert (N : nth_error (bits64 w) i = Some (if Z.testbit w (Z.of_nat i) then f1 else f0)).
    { unfold bits64. apply nth_error_map_seq. lia. }
    rewrite (idx_some _ _ _ N). cbn [bind]. unfold idx. rewrite nth_error_map, N. cbn [option_map bind].
    eexists. split; [reflexivity|]. cbv beta iota.
    assert (E : (w mod 2 ^ Z.of_nat (S i) = w mod 2 ^ Z.of_nat i + Z.b2z (Z.testbit w (Z.of_nat i)) * 2 ^ Z.of_nat i)%Z).
    { rewrite Nat2Z.inj_succ. pose proof (Z.testbit_spec' w (Z.of_nat i) ltac:(lia)) as B. rewrite B.
      rewrite Z.pow_succ_r by lia. rewrite (Z.mul_comm 2 (2 ^ _)).
      rewrite Z.rem_mul_r by (try apply Z.pow_nonzero; lia). ring. }
    rewrite E. destruct (Z.testbit w (Z.of_nat i)); cbn [Z.b2z].
    + rewrite feqb_refl. replace (fsub f1 f1) with f0 by ring. rewrite feqb_refl. lia.
    + destruct (feqb_spec f0 f1) as [C|_]; [exfalso; apply f1_neq_f0; auto|].
      destruct (feqb_spec (fsub f0 f1) f0) as [C|_]; [|lia].
      exfalso. apply f1_neq_f0. transitivity (fsub f0 (fsub f0 f1)); [ring|]. rewrite C. ring.
Qed.
Lemma bit_debug_spec v aL aR : BitCommit v = Ok (aL, aR) -> (BitDebug aL aR v = Ok tt <-> (0 <= v < 2 ^ 64)%Z).
Proof.
  rewrite BitCommit_ok. intros E. injection E as <- <-. unfold BitDebug.
  change (Z.to_nat rN) with 64. rewrite bit_debug_loop by lia. cbn [bind].
  pose proof (Z.mod_pos_bound (Z.abs v) (2 ^ 64) ltac:(lia)) as B.
  destruct (Z.eqb_spec (Z.abs v mod 2 ^ 64) v) as [E|E]; cbn [negb].
  - split; [intros _; lia|reflexivity].
  - split; [discriminate|]. intros H. exfalso. apply E. rewrite Z.abs_eq by lia. apply Z.mod_small. lia.
Qed.

(** Debug on arbitrary vectors *)
Fixpoint bsum (b : nat -> bool) (n : nat) : Z := match n with O => 0 | S n' => bsum b n' + (if b n' then 2 ^ Z.of_nat n' else 0) end%Z.
Lemma bsum_bound b n : (0 <= bsum b n < 2 ^ Z.of_nat n)%Z.
Proof. induction n as [|n IH]; cbn [bsum]; [lia|]. rewrite Nat2Z.inj_succ, Z.pow_succ_r by lia. destruct (b n); lia. Qed.
Lemma bsum_bit b n i : i < n -> Z.testbit (bsum b n) (Z.of_nat i) = b i.
Proof.
  induction n as [|n IH]; intros H; [lia|]. cbn [bsum]. pose proof (bsum_bound b n) as B.
  destruct (Nat.eq_dec i n) as [->|N].
  - rewrite Z.testbit_odd, Z.shiftr_div_pow2 by lia. destruct (b n).
    + replace ((bsum b n + 2 ^ Z.of_nat n) / 2 ^ Z.of_nat n)%Z with 1%Z; [reflexivity|]. apply Z.div_unique with (bsum b n); lia.
    + rewrite Z.add_0_r, Z.div_small by lia. reflexivity.
  - rewrite <- IH by lia. destruct (b n); [|rewrite Z.add_0_r; reflexivity].
    rewrite <- (Z.mod_pow2_bits_low (bsum b n + 2 ^ Z.of_nat n) (Z.of_nat n)) by lia.
    replace (2 ^ Z.of_nat n)%Z with (1 * 2 ^ Z.of_nat n)%Z at 1 by lia. rewrite Z_mod_plus_full, Z.mod_small by lia. reflexivity.
Qed.
Lemma bsum_eq b n v : bsum b n = v <-> (0 <= v < 2 ^ Z.of_nat n)%Z /\ forall i, i < n -> b i = Z.testbit v (Z.of_nat i).
Proof.
  split.
  - intros <-. split; [apply bsum_bound|]. intros i H. symmetry. apply bsum_bit, H.
  - intros [B E]. apply Z.bits_inj'. intros k K. pose proof (bsum_bound b n) as B'.
    destruct (Z.lt_ge_cases k (Z.of_nat n)) as [L|L].
    + replace k with (Z.of_nat (Z.to_nat k)) by lia. rewrite bsum_bit, E by lia. reflexivity.
    + rewrite <- (Z.mod_small (bsum b n) (2 ^ Z.of_nat n)), <- (Z.mod_small v (2 ^ Z.of_nat n)) by lia. rewrite !Z.mod_pow2_bits_high by lia. reflexivity.
Qed.
Lemma debug_loop (AL AR : list F) n : n <= length AL -> n <= length AR ->
  for_loop 0 n (fun i '(testAL, testAR) =>
    let basePow := (2 ^ Z.of_nat i)%Z in
    let! al := idx AL i in
    let testAL := if feqb al f1 then (testAL + basePow)%Z else testAL in
    let! ar := idx AR i in
    let testAR := if feqb ar f0 then (testAR + basePow)%Z else testAR in
    Ok (testAL, testAR)) (0%Z, 0%Z) = Ok (bsum (fun i => feqb (nth i AL f0) f1) n, bsum (fun i => feqb (nth i AR f0) f0) n).
Proof.
  intros HL HR.
  edestruct (for_loop_inv (fun i '(a, b) => a = bsum (fun i => feqb (nth i AL f0) f1) i /\ b = bsum (fun i => feqb (nth i AR f0) f0) i)%Z) as [[a b] [E P]]; cycle 2.
  - rewrite E. destruct P as [-> ->]. reflexivity.
  - split; reflexivity.
  - intros i [a b] Hi [-> ->]. cbn [Nat.add] in *.
    rewrite (idx_some AL i (nth i AL f0)) by (apply nth_error_nth'; lia). cbn [bind].
    rewrite (idx_some AR i (nth i AR f0)) by (apply nth_error_nth'; lia). cbn [bind].
    eexists. split; [reflexivity|]. cbn [bsum]. destruct (feqb (nth i AL f0) f1), (feqb (nth i AR f0) f0); split; lia.
Qed.
Lemma bit_debug_any AL AR v :
  (length AL < 64 \/ length AR < 64 -> BitDebug AL AR v = Panic) /\
  (64 <= length AL -> 64 <= length AR ->
    (BitDebug AL AR v = Ok tt <-> (0 <= v < 2 ^ 64)%Z /\ forall i, i < 64 ->
       (nth i AL f0 = f1 <-> Z.testbit v (Z.of_nat i) = true) /\ (nth i AR f0 = f0 <-> Z.testbit v (Z.of_nat i) = true)) /\
    (BitDebug AL AR v = Ok tt \/ BitDebug AL AR v = Err "[BitCommit(Debug)]: Wrong Value for AL")).
Proof.
  assert (FB : forall x y b, feqb x y = b <-> (x = y <-> b = true)).
  { intros x y b. destruct (feqb_spec x y) as [E|N]; destruct b; intuition congruence. }
  split.
  - intros H. unfold BitDebug. change (Z.to_nat rN) with 64. 
    set (j := Nat.min (length AL) (length AR)). assert (J : j < 64) by (unfold j; lia).
    replace 64 with (j + S (63 - j)) by lia. rewrite for_loop_app, debug_loop by (unfold j; lia). cbn [bind]. cbn [for_loop].
    cbn [Nat.add]. destruct (le_lt_dec (length AL) j) as [L|L].
    + unfold idx at 1. rewrite (proj2 (nth_error_None AL j)) by exact L. reflexivity.
    + rewrite (idx_some AL j (nth j AL f0)) by (apply nth_error_nth'; lia). cbn [bind]. unfold idx. rewrite (proj2 (nth_error_None AR j)) by (unfold j in *; lia). reflexivity.
  - intros HL HR. unfold BitDebug. change (Z.to_nat rN) with 64. rewrite debug_loop by assumption. cbn [bind].
    destruct (Z.eqb_spec (bsum (fun i => feqb (nth i AL f0) f1) 64) v) as [E1|E1]; cbn [negb].
    + apply bsum_eq in E1. destruct E1 as [B E1].
      destruct (Z.eqb_spec (bsum (fun i => feqb (nth i AR f0) f0) 64) v) as [E2|E2]; cbn [negb].
      * apply bsum_eq in E2. split; [|left; reflexivity]. split; [intros _|reflexivity]. split; [exact B|]. intros i Hi. split; apply FB; [apply E1|apply E2]; exact Hi.
      * split; [|right; reflexivity]. split; [discriminate|]. intros [_ C]. exfalso. apply E2, bsum_eq. split; [exact B|]. intros i Hi. apply FB, C, Hi.
    + split; [|right; reflexivity]. split; [discriminate|]. intros [B C]. exfalso. apply E1, bsum_eq. split; [exact B|]. intros i Hi. apply FB, C, Hi.
Qed.

Lemma pad_size_pow n : (exists k, n = 2 ^ k) -> pad_size n = n.
Proof. intros [k ->]. unfold pad_size. rewrite Nat.log2_up_pow2 by lia. reflexivity. Qed.

Section More.
Context {R : rist} (OK : rist_ok R).
Local Notation "p [+] q" := (padd R p q) (at level 50, left associativity).
Local Notation "p [-] q" := (psub R p q) (at level 50, left associativity).
Local Notation "s [*] p" := (smul R s p) (at level 40, left associativity).

Definition ip_nz (p : proof R) : Prop :=
  forall ip, pf_ip R p = Some ip -> Forall (fun u => u <> f0) (challenges R [] (ip_L R ip) (ip_R R ip)).

Lemma prove_verify_in v debug rs m p m' c :
  grun (Prove R v debug rs) m = (Ok p, m') -> Forall (fun a => (to_Z a < 2 ^ 64)%Z) v -> ip_nz p ->
  grun (Verify R c p) m' = (Ok true, m').
Proof.
  intros E HV HF. destruct (Prove_Ok OK _ _ _ _ _ _ E) as [_ [_ [_ [ip [_ EP]]]]].
  assert (EI : pf_ip R p = Some ip) by (rewrite EP; reflexivity).
  pose proof (prove_verify OK v debug rs m p m' c ip E EI (HF ip EI)) as PV. cbv zeta in PV.
  rewrite PV, lowv_in by exact HV.
  replace (peqb R (pt0 R) _) with true; [reflexivity|]. symmetry. apply (peqb_ok R OK).
  replace (fsub _ _) with f0 by ring. symmetry. apply (smul_0_l OK).
Qed.

Lemma prove_succeeds v rs m : 1 <= length v <= 16 ->
  let h := hin R (padded v) rs in hx h <> f0 -> hy h <> f0 -> hz h <> f0 ->
  exists p, fst (grun (Prove R v false rs) m) = Ok p.
Proof.
  intros H h X Y Z. destruct (Prove_run OK v rs m H) as [ip [_ E]]. fold h in E. rewrite E.
  destruct (zero_challenge h) eqn:D; [apply zc_true in D; tauto|]. eexists. reflexivity.
Qed.
Lemma prove_outcome v rs m :
  let r := fst (grun (Prove R v false rs) m) in
  (exists p, r = Ok p) \/ (exists e, r = Err e) /\
    (v = [] \/ 16 < length v \/
     (1 <= length v <= 16 /\ let h := hin R (padded v) rs in hx h = f0 \/ hy h = f0 \/ hz h = f0)).
Proof.
  cbv zeta. destruct v as [|a v]; [right; split; [eexists; reflexivity|auto]|].
  destruct (Nat.lt_ge_cases 16 (length (a :: v))) as [C|C].
  - right. rewrite Prove_long by exact C. split; [eexists; reflexivity|auto].
  - assert (H : 1 <= length (a :: v) <= 16) by (cbn [length] in *; lia).
    destruct (Prove_run OK (a :: v) rs m H) as [ip [_ E]]. rewrite E. cbn [fst].
    destruct (zero_challenge _) eqn:D; [right|left; eexists; reflexivity].
    split; [eexists; reflexivity|]. right. right. split; [exact H|]. apply zc_true. exact D.
Qed.
Lemma prove_no_panic v debug rs m : fst (grun (Prove R v debug rs) m) <> Panic.
Proof.
  destruct debug.
  - destruct v as [|a v]; [discriminate|]. destruct (Nat.lt_ge_cases 16 (length (a :: v))) as [C|C].
    + rewrite Prove_long by exact C. discriminate.
    + destruct (Prove_run_debug OK (a :: v) rs m) as [ip [_ [r [NP [E _]]]]]; [cbn [length] in *; lia|]. rewrite E. cbn [fst].
      destruct r as [u|e|]; cbn [bind]; [|discriminate|congruence]. destruct (zero_challenge _); discriminate.
  - destruct (prove_outcome v rs m) as [[p E]|[[e E] _]]; rewrite E; discriminate.
Qed.

Lemma z_dot_sub z a b : length a = length b -> fsub (z_dot z a) (z_dot z b) = z_dot z (zipw fsub a b).
Proof.
  intros L. unfold z_dot. rewrite zipw_length by exact L. rewrite <- L. generalize (map (fun j => fpow z (j + 2)) (seq 0 (length a))).
  revert b L. induction a as [|x a IH]; intros [|y b] L l; try discriminate; cbn [zipw].
  - rewrite !dot_nil_r. ring.
  - destruct l as [|u l]; [rewrite !dot_nil_l; ring|]. rewrite !dot_cons, <- IH by (cbn in L; lia). ring.
Qed.
Definition excess (v : list F) : list F := map (fun a => of_Z (to_Z a - to_Z a mod 2 ^ 64)) v.
Lemma excess_eq v : excess v = zipw fsub v (lowv v).
Proof.
  unfold excess, lowv. induction v as [|a v IH]; [reflexivity|]. cbn [map zipw]. rewrite IH. f_equal.
  rewrite of_Z_sub, of_Z_to_Z. reflexivity.
Qed.
Lemma lowv_length v : length (lowv v) = length v. Proof. apply map_length. Qed.
Lemma excess_iff v debug rs m p m' c : rp_Base R <> pt0 R ->
  grun (Prove R v debug rs) m = (Ok p, m') -> ip_nz p ->
  let z := rp_z R (rp_y R (vals (pf_V R p)) (pf_A R p) (pf_S R p)) in
  (grun (Verify R c p) m' = (Ok true, m') <-> z_dot z (excess v) = f0) /\
  (grun (Verify R c p) m' = (Ok true, m') \/ grun (Verify R c p) m' = (Err "megacheck failed"%string, m')).
Proof.
  intros HB E HF z. destruct (Prove_Ok OK _ _ _ _ _ _ E) as [_ [_ [_ [ip [_ EP]]]]].
  assert (EI : pf_ip R p = Some ip) by (rewrite EP; reflexivity).
  pose proof (prove_verify OK v debug rs m p m' c ip E EI (HF ip EI)) as PV. cbv zeta in PV.
  replace (hz (hin R (padded v) rs)) with z in PV by (unfold z; rewrite EP; reflexivity).
  rewrite PV. rewrite excess_eq, <- z_dot_sub by (symmetry; apply lowv_length).
  destruct (peqb R (pt0 R) _) eqn:D.
  - split; [|left; reflexivity]. split; [|reflexivity]. intros _. apply (peqb_ok R OK) in D. symmetry in D.
    apply (smul_integral OK) in D. destruct D as [D|D]; [|contradiction].
    transitivity (fneg (fsub (z_dot z (lowv v)) (z_dot z v))); [ring|]. rewrite D. ring.
  - split; [|right; reflexivity]. split; [discriminate|]. intros Z. exfalso. apply (peqb_neq OK) in D. apply D.
    replace (fsub (z_dot z (lowv v)) (z_dot z v)) with (fneg (fsub (z_dot z v) (z_dot z (lowv v)))) by ring.
    rewrite Z. replace (fneg f0) with f0 by ring. symmetry. apply (smul_0_l OK).
Qed.
Lemma single_out_of_range a debug rs m p m' c : rp_Base R <> pt0 R ->
  grun (Prove R [a] debug rs) m = (Ok p, m') -> ip_nz p ->
  (2 ^ 64 <= to_Z a)%Z -> grun (Verify R c p) m' = (Err "megacheck failed"%string, m').
Proof.
  intros HB E HF HA. destruct (excess_iff [a] debug rs m p m' c HB E HF) as [I [D|D]]; [|exact D].
  exfalso. apply I in D. clear I. destruct (Prove_Ok OK _ _ _ _ _ _ E) as [_ [_ [Z [ip [_ EP]]]]].
  apply zc_false in Z. destruct Z as [_ [_ Z]].
  replace (rp_z R (rp_y R (vals (pf_V R p)) (pf_A R p) (pf_S R p))) with (hz (hin R (padded [a]) rs)) in D by (rewrite EP; reflexivity).
  set (z := hz (hin R (padded [a]) rs)) in *.
  unfold excess, z_dot in D. cbn [length seq map Nat.add] in D. rewrite dot_cons, dot_nil_l in D. cbn [fpow] in D.
  assert (P : fmul (fmul z z) (of_Z (to_Z a - to_Z a mod 2 ^ 64)) = f0).
  { transitivity (fadd (fmul (fmul z (fmul z f1)) (of_Z (to_Z a - to_Z a mod 2 ^ 64))) f0); [ring|]. exact D. }
  apply fmul_integral in P. destruct P as [P|P].
  - apply fmul_integral in P. tauto.
  - apply (f_equal to_Z) in P. rewrite to_Z_of_Z in P. change (to_Z f0) with 0%Z in P.
    pose proof (to_Z_range a). pose proof (Z.mod_pos_bound (to_Z a) (2 ^ 64) ltac:(lia)).
    pose proof (Z.mod_le (to_Z a) (2 ^ 64) ltac:(lia) ltac:(lia)).
    rewrite Z.mod_small in P by lia. lia.
Qed.

(** ** C33 *)
Lemma verify_iff c p ip m : pf_ip R p = Some ip -> 0 < m -> (64 * Z.of_nat m < 2 ^ 32)%Z ->
  sizes_ok m ip -> m <= length (pf_V R p) ->
  (fst (grun (Verify R c p) (Z.of_nat m)) = Ok true <-> rp_check m c p ip = pt0 R) /\
  (fst (grun (Verify R c p) (Z.of_nat m)) = Ok true \/ fst (grun (Verify R c p) (Z.of_nat m)) = Err "megacheck failed"%string).
Proof.
  intros EI H0 HM HS HV. rewrite (Verify_run OK c p ip m EI H0 HM HS). cbn [fst].
  destruct (Nat.ltb_spec (length (pf_V R p)) m) as [C|C]; [lia|].
  destruct (peqb R (pt0 R) (rp_check m c p ip)) eqn:D.
  - apply (peqb_ok R OK) in D. split; [split; auto|auto].
  - apply (peqb_neq OK) in D. split; [split; [discriminate|intros E; congruence]|auto].
Qed.
Lemma affine_two (E1 E2 : pt R) c c' : c <> c' -> c [*] E1 [+] E2 = pt0 R -> c' [*] E1 [+] E2 = pt0 R -> E1 = pt0 R /\ E2 = pt0 R.
Proof.
  intros N A B.
  assert (D : fsub c c' [*] E1 = pt0 R).
  { transitivity ((c [*] E1 [+] E2) [-] (c' [*] E1 [+] E2)); [lin OK|]. rewrite A, B. lin OK. }
  apply (smul_integral OK) in D. destruct D as [D|D].
  - exfalso. apply N. transitivity (fadd (fsub c c') c'); [ring|]. rewrite D. ring.
  - split; [exact D|]. rewrite D in A. rewrite (smul_0_r OK) in A. rewrite (padd_0_l R OK) in A. exact A.
Qed.
Lemma rp_check_split m c p ip : exists E1 E2, (forall c, rp_check m c p ip = c [*] E1 [+] E2) /\
   c [*] E1 [+] E2 = rp_check m c p ip.
Proof. unfold rp_check. destruct (chals p) as [[[y z] x] w]. do 2 eexists. split; [intros c'; reflexivity|reflexivity]. Qed.
Lemma E1_ipp m L Rs a b A S x y z w mu t :
  rp_ip_defect R m L Rs a b A S x y z w mu t = pt0 R <->
  ipp_equation R L Rs a b (rp_G R (64 * m)) (rp_H R (64 * m)) (cpowers (finv y) (64 * m)) (w [*] rp_Base R)
    (rp_P R m A S x y z mu t (w [*] rp_Base R)).
Proof. unfold rp_ip_defect, ipp_equation. rewrite (psub_eq0 OK). split; intros E; symmetry; exact E. Qed.

(** ** C34 *)
Lemma forallb_dbg v : sizes_dbg v = true <-> Forall (fun a => (to_Z a < 2 ^ 64 - 1)%Z) v.
Proof.
  unfold sizes_dbg. rewrite forallb_forall, Forall_forall. unfold debugsizeOfV, rN. split; intros H a Ha; specialize (H a Ha); cbv beta in *.
  - apply Z.ltb_lt in H. exact H.
  - apply Z.ltb_lt. exact H.
Qed.
Lemma dbg_padded v : sizes_dbg (padded v) = sizes_dbg v.
Proof.
  unfold padded, sizes_dbg. rewrite forallb_app. replace (forallb _ (repeat f0 _)) with true; [apply andb_true_r|].
  symmetry. apply forallb_forall. intros a Ha. apply repeat_spec in Ha. subst a. reflexivity.
Qed.
Lemma debug_iff v rs m p :
  fst (grun (Prove R v true rs) m) = Ok p <->
  fst (grun (Prove R v false rs) m) = Ok p /\ Forall (fun a => (to_Z a < 2 ^ 64 - 1)%Z) v.
Proof.
  rewrite <- forallb_dbg.
  destruct v as [|a v]; [split; [discriminate|intros [H _]; discriminate]|].
  destruct (Nat.lt_ge_cases 16 (length (a :: v))) as [C|C].
  - rewrite !Prove_long by exact C. split; [discriminate|intros [H _]; discriminate].
  - assert (H : 1 <= length (a :: v) <= 16) by (cbn [length] in *; lia).
    destruct (Prove_run OK (a :: v) rs m H) as [ip [E1 E2]].
    destruct (Prove_run_debug OK (a :: v) rs m H) as [ip' [E1' [r [NP [E2' HY]]]]].
    rewrite E1 in E1'. injection E1' as <-. rewrite E2, E2'. cbn [fst]. rewrite dbg_padded in HY.
    destruct (zero_challenge _) eqn:Z.
    + split; [destruct r; discriminate|intros [X _]; discriminate].
    + apply zc_false in Z. rewrite HY by tauto. destruct (sizes_dbg (a :: v)); cbn [bind]; split; intuition congruence.
Qed.
(** where a proof exists, debug mode fails in no other way *)
Lemma debug_text v rs m p : fst (grun (Prove R v false rs) m) = Ok p -> ~ Forall (fun a => (to_Z a < 2 ^ 64 - 1)%Z) v ->
  fst (grun (Prove R v true rs) m) = Err "[Prove] - debugProve: [DEBUG]: Value v is more than 2^N - 1"%string.
Proof.
  rewrite <- forallb_dbg.
  destruct v as [|a v]; [discriminate|].
  destruct (Nat.lt_ge_cases 16 (length (a :: v))) as [C|C].
  - rewrite !Prove_long by exact C. discriminate.
  - assert (H : 1 <= length (a :: v) <= 16) by (cbn [length] in *; lia).
    destruct (Prove_run OK (a :: v) rs m H) as [ip [E1 E2]].
    destruct (Prove_run_debug OK (a :: v) rs m H) as [ip' [E1' [r [NP [E2' HY]]]]].
    rewrite E1 in E1'. injection E1' as <-. rewrite E2, E2'. cbn [fst]. rewrite dbg_padded in HY.
    destruct (zero_challenge _) eqn:Z; [discriminate|].
    apply zc_false in Z. rewrite HY by tauto. destruct (sizes_dbg (a :: v)); [intros _ N; destruct (N eq_refl)|reflexivity].
Qed.
Lemma debug_max rs m p m' c : grun (Prove R [of_Z (2 ^ 64 - 1)] false rs) m = (Ok p, m') -> ip_nz p ->
  fst (grun (Prove R [of_Z (2 ^ 64 - 1)] true rs) m) = Err "[Prove] - debugProve: [DEBUG]: Value v is more than 2^N - 1"%string /\ grun (Verify R c p) m' = (Ok true, m').
Proof.
  intros E HF. split.
  - apply (debug_text _ rs m p); [rewrite E; reflexivity|].
    intros D. inversion D as [|x l X _]. rewrite to_Z_of_Z in X. rewrite Z.mod_small in X by (split; [lia|reflexivity]). lia.
  - apply (prove_verify_in _ false rs m p m' c E); [|exact HF]. repeat constructor.
Qed.

(** ** C35 *)
Lemma prove_breaks c c' p m v debug rs : 0 < m -> (64 * Z.of_nat m < 2 ^ 32)%Z ->
  fst (grun (Verify R c p) (Z.of_nat m)) = Ok true -> 1 <= length v -> (64 * Z.of_nat (length v) < 2 ^ 32)%Z ->
  m <> (if Nat.ltb 16 (length v) then length v else pad_size (length v)) ->
  fst (grun (Verify R c' p) (snd (grun (Prove R v debug rs) (Z.of_nat m)))) = Err "length of slice of scalars a does not equal length of slices of points b".
Proof.
  intros H0 HM E H1 HL N. rewrite Prove_M. destruct (Nat.eqb_spec (length v) 0) as [C|C]; [lia|].
  set (m' := if Nat.ltb 16 (length v) then length v else pad_size (length v)) in *.
  assert (B : 0 < m' /\ (64 * Z.of_nat m' < 2 ^ 32)%Z).
  { unfold m'. destruct (Nat.ltb_spec 16 (length v)) as [D|D]; [lia|]. destruct (pad_cases (length v)) as [_ [P _]]; lia. }
  rewrite (Verify_other_M c p m m' c' true H0 HM (proj1 B) (proj2 B) N E). reflexivity.
Qed.
Lemma initial_rejects v debug rs m p m' c : grun (Prove R v debug rs) m = (Ok p, m') -> 2 <= length v ->
  grun (Verify R c p) 1 = (Err "length of slice of scalars a does not equal length of slices of points b", 1%Z).
Proof.
  intros E H2. destruct (Prove_Ok OK _ _ _ _ _ _ E) as [H [_ [_ [ip [EH EP]]]]].
  destruct (pad_pow _ H) as [k [Hk EK]]. pose proof (hin_padded_wf (R := R) v rs H) as WF.
  destruct (hip_ok OK _ WF k Hk) as [ip' [E1 [L1 [L2 _]]]]. { rewrite hm_hin, padded_length by exact H. exact EK. }
  rewrite EH in E1. injection E1 as <-. apply (Verify_sizes_err c p ip 1); [rewrite EP; reflexivity|lia|lia|].
  intros [_ [_ S]]. rewrite L1, <- EK in S. destruct (pad_cases _ H) as [_ [P _]]. lia.
Qed.

(** ** C36 *)
Lemma interference_ok v w dv dw rv rw m pv pw :
  fst (grun (Prove R v dv rv) m) = Ok pv -> fst (grun (Prove R w dw rw) m) = Ok pw ->
  ~ (length v = length w /\ exists k, length v = 2 ^ k) ->
  exists schedule i, i < 2 /\
    nth_error (fst (sched_run [Prove R v dv rv; Prove R w dw rw] m schedule)) i = Some (GRet (Err "[Prove] - poly: [ComputePoly] - r0 (1): Length of a does not equal length of b"%string)).
Proof.
  intros E1 E2 N.
  destruct (grun (Prove R v dv rv) m) as [r1 m1] eqn:G1. destruct (grun (Prove R w dw rw) m) as [r2 m2] eqn:G2. cbn [fst] in *. subst.
  destruct (Prove_Ok OK _ _ _ _ _ _ G1) as [H1 _]. destruct (Prove_Ok OK _ _ _ _ _ _ G2) as [H2 _].
  destruct (interference OK v w dv dw rv rw m H1 H2) as [[s E]|[s E]].
  - intros [A B]. apply N. split; [exact A|]. exists (Nat.log2_up (length v)). symmetry. exact B.
  - exists s, 0. split; [lia|exact E].
  - exists s, 1. split; [lia|exact E].
Qed.
Lemma same_power n calls m schedule i v debug rs r : (exists k, n = 2 ^ k) ->
  Forall (fun '(v, debug, rs) => length (v : list F) = n) calls ->
  nth_error calls i = Some (v, debug, rs) ->
  nth_error (fst (sched_run (map (fun '(v, debug, rs) => Prove R v debug rs) calls) m schedule)) i = Some (GRet r) ->
  r = fst (grun (Prove R v debug rs) m).
Proof.
  intros HP HC EC ER.
  apply (setfirst_results (Z.of_nat n) schedule (map (fun '(v, debug, rs) => Prove R v debug rs) calls)) with (i := i);
    [|rewrite nth_error_map, EC; reflexivity|exact ER].
  apply Forall_map. revert HC. apply Forall_impl. intros [[v' d'] rs'] HL.
  apply (Prove_stable v' d' rs' n HL); [intros _; apply pad_size_pow; exact HP|].
  destruct HP as [j ->]. pose proof (Nat.pow_nonzero 2 j). lia.
Qed.

(** ** C37, C38 *)
Lemma surplus (h : hp_in R) k c : hp_wf h -> k < 32 -> 64 * hm h = 2 ^ k ->
  Forall (fun a => (to_Z a < 2 ^ 64)%Z) (hv h) -> hy h <> f0 ->
  exists ip, pf_V R (hproof h ip) = zipw com (hv h) (hbl h) ++ hextra h /\ length (zipw (@com R) (hv h) (hbl h)) = hm h /\
    (Forall (fun u => u <> f0) (challenges R [] (ip_L R ip) (ip_R R ip)) ->
     grun (Verify R c (hproof h ip)) (Z.of_nat (hm h)) = (Ok true, Z.of_nat (hm h))).
Proof.
  intros WF Hk E HV HY. destruct (hip_ok OK h WF k Hk E) as [ip [EI _]]. exists ip. split; [reflexivity|].
  split; [apply zipw_length; destruct WF as [W0 _]; auto|]. intros HF.
  rewrite (h_verify OK h WF k ip c Hk E EI HY HF). rewrite lowv_in by exact HV.
  replace (peqb R (pt0 R) _) with true; [reflexivity|]. symmetry. apply (peqb_ok R OK).
  replace (fsub _ _) with f0 by ring. symmetry. apply (smul_0_l OK).
Qed.
Lemma verify_panic_iff c p m : 0 < m -> (64 * Z.of_nat m < 2 ^ 32)%Z ->
  (fst (grun (Verify R c p) (Z.of_nat m)) = Panic <->
   pf_ip R p = None \/ exists ip, pf_ip R p = Some ip /\ sizes_ok m ip /\ length (pf_V R p) < m).
Proof.
  intros H0 HM. destruct (pf_ip R p) as [ip|] eqn:EI.
  - assert (D : sizes_ok m ip \/ ~ sizes_ok m ip).
    { unfold sizes_ok. destruct (Nat.eq_dec (length (ip_L R ip)) (length (ip_R R ip))) as [A|A]; [|right; tauto].
      destruct (Nat.lt_ge_cases (length (ip_L R ip)) 32) as [B|B]; [|right; lia].
      destruct (Nat.eq_dec (2 ^ length (ip_L R ip)) (64 * m)); [left|right]; tauto. }
    destruct D as [D|D].
    + rewrite (Verify_run OK c p ip m EI H0 HM D). cbn [fst]. destruct (Nat.ltb_spec (length (pf_V R p)) m) as [C|C].
      * split; [|reflexivity]. intros _. right. exists ip. auto.
      * split; [destruct (peqb R _ _); discriminate|]. intros [X|[ip' [_ [_ X]]]]; [discriminate|lia].
    + rewrite (Verify_sizes_err c p ip m EI H0 HM D). cbn [fst].
      split; [discriminate|]. intros [X|[ip' [X [Y _]]]]; [discriminate|]. injection X as <-. contradiction.
  - split; [auto|]. intros _. unfold Verify. gs. rewrite ped_computed_ok. cbv beta iota. gs. rewrite ped_computed_ok. cbv beta iota.
    destruct (verify_challenges R p) as [[[y z] x] w]. unfold megacheckWithC. rewrite EI. reflexivity.
Qed.
Lemma pf_encode_nil (p : proof R) b w : pf_ip R p = None -> no_fault w -> fst (pf_Encode R p b w) = Panic.
Proof.
  intros E W. unfold pf_Encode, w_seq. rewrite E.
  match goal with |- context [w_each w_write ?cs w] =>
    pose proof (write_chunks_ok cs w W) as [A _]; unfold write_chunks in A; destruct (w_each w_write cs w) as [r w'] end.
  cbn [fst] in A. subst r. reflexivity.
Qed.

Lemma verify_two c c' p ip m : pf_ip R p = Some ip -> 0 < m -> (64 * Z.of_nat m < 2 ^ 32)%Z ->
  sizes_ok m ip -> m <= length (pf_V R p) -> c <> c' ->
  fst (grun (Verify R c p) (Z.of_nat m)) = Ok true -> fst (grun (Verify R c' p) (Z.of_nat m)) = Ok true ->
  (let '(y, z, x, w) := chals p in
   rp_ip_defect R m (ip_L R ip) (ip_R R ip) (ip_A R ip) (ip_B R ip) (pf_A R p) (pf_S R p) x y z w (pf_mu R p) (pf_t R p)) = pt0 R /\
  (let '(y, z, x, w) := chals p in
   rp_poly_lhs R (pf_t R p) (pf_taux R p) [-] rp_poly_rhs R m (vals (pf_V R p)) (pf_T1 R p) (pf_T2 R p) x y z) = pt0 R.
Proof.
  intros EI H0 HM HS HV N A B.
  apply (verify_iff c p ip m EI H0 HM HS HV) in A. apply (verify_iff c' p ip m EI H0 HM HS HV) in B.
  unfold rp_check in A, B. destruct (chals p) as [[[y z] x] w]. apply (affine_two _ _ c c' N A B).
Qed.
Lemma verify_one c c' p ip m : pf_ip R p = Some ip -> 0 < m -> (64 * Z.of_nat m < 2 ^ 32)%Z ->
  sizes_ok m ip -> m <= length (pf_V R p) ->
  (let '(y, z, x, w) := chals p in
   rp_ip_defect R m (ip_L R ip) (ip_R R ip) (ip_A R ip) (ip_B R ip) (pf_A R p) (pf_S R p) x y z w (pf_mu R p) (pf_t R p)) <> pt0 R \/
  (let '(y, z, x, w) := chals p in
   rp_poly_lhs R (pf_t R p) (pf_taux R p) [-] rp_poly_rhs R m (vals (pf_V R p)) (pf_T1 R p) (pf_T2 R p) x y z) <> pt0 R ->
  fst (grun (Verify R c p) (Z.of_nat m)) = Ok true -> fst (grun (Verify R c' p) (Z.of_nat m)) = Ok true -> c = c'.
Proof.
  intros EI H0 HM HS HV D A B. destruct (F_eq_dec c c') as [E|N]; [exact E|].
  destruct (verify_two c c' p ip m EI H0 HM HS HV N A B) as [X Y]. tauto.
Qed.
End More.
