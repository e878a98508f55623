(** Verify for values of M that Prove never sets: negative, zero, or too large for the 32-bit sizes *)
From Coq Require Import String ZArith List Lia Bool Arith.
From Verif Require Import GoModel GoFacts ReadModel GlobModel GlobFacts Fld Rist RistFacts SpecVector VectorModel VectorFacts
  SpecPedersen PedersenModel PedersenFacts PedersenProps SpecIPP InnerProductModel InnerProductFacts IPPVerifyFacts
  SpecRange RangeProofModel SpecHonest RangeFacts RangeProps RangeMore.
Import ListNotations.
Local Open Scope nat_scope.

Lemma set_idx_len {A} (l l' : list A) i a : set_idx l i a = Ok l' -> length l' = length l.
Proof. unfold set_idx. destruct (Nat.ltb i (length l)); [|discriminate]. intros E. injection E as <-. apply upd_length. Qed.

Lemma sum_readonly z : readonly (sumZMTwoN z).
Proof. ro. Qed.

Lemma sum_len z m l : fst (grun (sumZMTwoN z) m) = Ok l -> (0 <= m)%Z /\ length l = Z.to_nat (64 * m).
Proof.
  unfold sumZMTwoN. gs. unfold make_n. destruct (Z.ltb_spec (rN * m) 0) as [C|C]; [discriminate|]. cbv beta iota. gs.
  rewrite ScalarPowers_c. cbv beta iota. gs. rewrite ScalarPowers_c. cbv beta iota. intros E. split; [unfold rN in C; lia|]. revert E.
  match goal with |- fst (grun (gfor _ _ ?body _) _) = _ -> _ =>
    apply (for_keep _ body m (fun i st => fst (grun (body i st) m))) with (P := fun r => length r = Z.to_nat (64 * m)) end.
  - intros i st. rewrite (surjective_pairing (grun _ m)) at 1. f_equal. apply readonly_run. ro.
  - intros i st st' H. cbv beta. rewrite run_lift. destruct (set_idx st i f0) as [x|e|] eqn:S; try discriminate. cbv beta iota.
    apply set_idx_len in S.
    match goal with |- fst (grun (gfor _ _ ?body _) _) = _ -> _ =>
      apply (for_keep _ body m (fun j st => fst (grun (body j st) m))) with (P := fun r => length r = Z.to_nat (64 * m)) end; [reflexivity| |lia].
    intros j r r' HR. cbn [grun glift fst]. destruct (_ && _)%bool; [|intros E; injection E as <-; exact HR].
    destruct (idx (cpowers z _) _) as [zj|e|]; cbn [bind]; try discriminate.
    destruct (idx (cpowers _ _) _) as [t|e|]; cbn [bind]; try discriminate.
    destruct (idx r i) as [a|e|]; cbn [bind]; try discriminate.
    intros E. apply set_idx_len in E. lia.
  - unfold make_scalars. rewrite repeat_length. reflexivity.
Qed.

Lemma list_eq_dec_nil {A} (l : list A) : {l = []} + {l <> []}.
Proof. destruct l; [left; reflexivity|right; discriminate]. Qed.

Section Any.
Context {R : rist} (OK : rist_ok R).

Lemma scalars_shape ip : exists a b s, VerifScalars R ip = Ok (a, b, s) /\
  (s = [] -> a = [] /\ b = [] /\ (ip_L R ip <> [] \/ ip_R R ip <> [])).
Proof.
  destruct (Nat.eq_dec (length (ip_L R ip)) (length (ip_R R ip))) as [E|E].
  - destruct (Nat.lt_ge_cases (length (ip_L R ip)) 32) as [C|C].
    + pose proof (VerifScalars_ok ip E C) as V. cbn zeta in V. do 3 eexists. split; [exact V|].
      intros X. apply (f_equal (@length F)) in X. rewrite svec_length in X. cbn [length] in X.
      exfalso. revert X. apply Nat.pow_nonzero. lia.
    + destruct (VerifScalars_wrap ip E C) as [a [b [s V]]]. exists a, b, [s]. split; [exact V|]. discriminate.
  - rewrite VerifScalars_neq by exact E. exists [], [], []. split; [reflexivity|]. intros _. split; [reflexivity|]. split; [reflexivity|].
    destruct (ip_L R ip); [right|left; discriminate]. intros X. rewrite X in E. apply E. reflexivity.
Qed.

Lemma Exp_nil_neq (l : list (pt R)) N M : l <> [] -> Exp R [] l N M = Err "length of slice of scalars a does not equal length of slices of points b".
Proof. intros H. apply Exp_err_len. destruct l; [contradiction|discriminate]. Qed.

(** how many scalars VerifScalars returns *)
Definition scalars_len (ip : ipproof R) : Z :=
  if Nat.eqb (length (ip_L R ip)) (length (ip_R R ip)) then
    if Nat.ltb (length (ip_L R ip)) 32 then 2 ^ Z.of_nat (length (ip_L R ip)) else 1
  else 0.
Lemma scalars_count ip : exists a b s, VerifScalars R ip = Ok (a, b, s) /\ Z.of_nat (length s) = scalars_len ip.
Proof.
  unfold scalars_len. destruct (Nat.eqb_spec (length (ip_L R ip)) (length (ip_R R ip))) as [E|E].
  - destruct (Nat.ltb_spec (length (ip_L R ip)) 32) as [C|C].
    + pose proof (VerifScalars_ok ip E C) as V. cbn zeta in V. do 3 eexists. split; [exact V|].
      rewrite svec_length, challenges_length by exact E. rewrite Nat2Z.inj_pow. reflexivity.
    + destruct (VerifScalars_wrap ip E C) as [a [b [s V]]]. exists a, b, [s]. split; [exact V|]. reflexivity.
  - rewrite VerifScalars_neq by exact E. exists [], [], []. split; reflexivity.
Qed.

Lemma verify_neg c p ip m : pf_ip R p = Some ip -> (m < 0)%Z ->
  if Z.eqb (scalars_len ip) ((64 * m) mod 2 ^ 32) then fst (grun (Verify R c p) m) = Panic
  else fst (grun (Verify R c p) m) = Err "length of slice of scalars a does not equal length of slices of points b".
Proof.
  intros HI NEG. unfold Verify. gs. rewrite ped_computed_ok. cbv beta iota. gs. rewrite ped_computed_ok. cbv beta iota.
  destruct (verify_challenges R p) as [[[y z] x] w]. unfold megacheckWithC. rewrite HI. cbn [g_bases p_gens p_base p_blind]. gs.
  destruct (scalars_count ip) as [a [b' [s [V VS]]]]. rewrite V, <- VS. cbv beta iota. gs. rewrite reverse_ok. cbv beta iota. gs.
  rewrite MulScalar_ok. cbv beta iota. gs. rewrite AddScalar_ok. cbv beta iota. gs. rewrite MulScalar_ok. cbv beta iota. gs.
  assert (NME : Z.of_nat (NM m) = ((64 * m) mod 2 ^ 32)%Z).
  { unfold NM, u32, rN. apply Z2Nat.id. apply Z.mod_pos_bound. lia. }
  rewrite <- NME. destruct (Z.eqb_spec (Z.of_nat (length s)) (Z.of_nat (NM m))) as [LS|LS].
  - apply Nat2Z.inj in LS. rewrite (Exp_ok OK).
    + cbv beta iota. gs. rewrite MulScalar_ok. cbv beta iota. rewrite grun_bind.
      assert (Z0 : fst (grun (sumZMTwoN z) m) = Panic) by (unfold sumZMTwoN; gs; rewrite make_n_neg by (unfold rN; lia); reflexivity).
      rewrite Z0. reflexivity.
    + rewrite !map_length, chain_length. exact LS.
    + rewrite !map_length, chain_length, LS, NME, Z.mul_1_r. pose proof (Z.mod_pos_bound (64 * m) (2 ^ 32) ltac:(lia)).
      rewrite i64_small by lia. lia.
  - rewrite Exp_err_len by (rewrite !map_length, chain_length; intros X; apply LS; rewrite X; reflexivity). reflexivity.
Qed.
Lemma verify_none c p m : pf_ip R p = None -> fst (grun (Verify R c p) m) = Panic.
Proof.
  intros EI. unfold Verify. gs. rewrite ped_computed_ok. cbv beta iota. gs. rewrite ped_computed_ok. cbv beta iota.
  destruct (verify_challenges R p) as [[[y z] x] w]. unfold megacheckWithC. rewrite EI. reflexivity.
Qed.
Lemma verify_zero c p ip : pf_ip R p = Some ip -> fst (grun (Verify R c p) 0) = Err "length of slice of scalars a does not equal length of slices of points b".
Proof.
  intros HI. unfold Verify. gs. rewrite ped_computed_ok. cbv beta iota. gs. rewrite ped_computed_ok. cbv beta iota.
  destruct (verify_challenges R p) as [[[y z] x] w]. unfold megacheckWithC. rewrite HI. cbn [g_bases p_gens p_base p_blind]. gs.
  destruct (scalars_shape ip) as [a [b' [s [V VS]]]]. rewrite V. cbv beta iota. gs. rewrite reverse_ok. cbv beta iota. gs.
  rewrite MulScalar_ok. cbv beta iota. gs. rewrite AddScalar_ok. cbv beta iota. gs. rewrite MulScalar_ok. cbv beta iota. gs.
  change (NM 0) with 0. destruct s as [|s0 s].
  2:{ rewrite Exp_err_len by (rewrite !map_length, chain_length; discriminate). reflexivity. }
  destruct (VS eq_refl) as [-> [-> NE]]. cbn [map rev chain length].
  assert (E0 : forall N, (i64 (N * 1) <= 0)%Z -> Exp R [] [] N 1 = Ok (msm R [] [])) by (intros N HN; apply (Exp_ok OK); [reflexivity|exact HN]).
  rewrite E0 by (rewrite i64_small; lia). cbv beta iota. gs. rewrite MulScalar_ok. cbv beta iota.
  rewrite (run_bind (sumZMTwoN_run z 0 ltac:(lia) : grun (sumZMTwoN z) 0 = _)). change (Z.of_nat 0) with 0%Z. cbv beta iota. gs.
  change (z_two z 0) with (@nil F). cbn [map].
  rewrite Sub_ok by reflexivity. cbn [zipw]. cbv beta iota. gs. rewrite ScalarPowers_c. cbv beta iota. gs.
  change (NM 0) with 0. destruct (cpowers (finv y) 0) eqn:EP; [|apply (f_equal (@length F)) in EP; rewrite cpowers_length in EP; discriminate].
  rewrite Hadamard_ok by reflexivity. cbn [zipw]. cbv beta iota. gs. rewrite SubScalar_ok. cbn [map]. cbv beta iota. gs.
  rewrite MulScalar_ok. cbn [map]. cbv beta iota. gs.
  rewrite E0 by (rewrite i64_small; lia). cbv beta iota. gs.
  rewrite (computeDelta_ok y z 0 ltac:(lia) : computeDelta y z rN (u32 0) = _). cbv beta iota. gs.
  destruct (list_eq_dec_nil (ip_L R ip)) as [NL|NL].
  - destruct NE as [NE|NE]; [contradiction|]. rewrite NL. cbn [length]. rewrite E0 by (rewrite i64_small; lia). cbv beta iota. gs.
    rewrite Exp_nil_neq by exact NE. reflexivity.
  - rewrite Exp_nil_neq by exact NL. reflexivity.
Qed.
Lemma verify_nonpos c p m : (m <= 0)%Z ->
  (fst (grun (Verify R c p) m) = Panic <-> pf_ip R p = None \/
     exists ip, pf_ip R p = Some ip /\ (m < 0)%Z /\ scalars_len ip = ((64 * m) mod 2 ^ 32)%Z) /\
  (fst (grun (Verify R c p) m) = Panic \/ fst (grun (Verify R c p) m) = Err "length of slice of scalars a does not equal length of slices of points b").
Proof.
  intros H. destruct (pf_ip R p) as [ip|] eqn:EI.
  2:{ rewrite (verify_none c p m EI). split; [split; auto|auto]. }
  destruct (Z.eq_dec m 0) as [->|N].
  - rewrite (verify_zero c p ip EI). split; [split; [discriminate|intros [X|[q [_ [X _]]]]; [discriminate|lia]]|right; reflexivity].
  - pose proof (verify_neg c p ip m EI ltac:(lia)) as V.
    destruct (Z.eqb_spec (scalars_len ip) ((64 * m) mod 2 ^ 32)) as [E|E].
    + rewrite V. split; [split; [intros _; right; exists ip; repeat split; [lia|exact E]|reflexivity]|left; reflexivity].
    + rewrite V. split; [split; [discriminate|intros [X|[q [X [_ Y]]]]; [discriminate|injection X as <-; contradiction]]|right; reflexivity].
Qed.

(** the number of scalars is compared with the number of generators before anything else *)
Lemma verify_count c p ip m : pf_ip R p = Some ip -> scalars_len ip <> ((64 * m) mod 2 ^ 32)%Z ->
  fst (grun (Verify R c p) m) = Err "length of slice of scalars a does not equal length of slices of points b".
Proof.
  intros HI NE. unfold Verify. gs. rewrite ped_computed_ok. cbv beta iota. gs. rewrite ped_computed_ok. cbv beta iota.
  destruct (verify_challenges R p) as [[[y z] x] w]. unfold megacheckWithC. rewrite HI. cbn [g_bases p_gens p_base p_blind]. gs.
  destruct (scalars_count ip) as [a [b' [s [V VS]]]]. rewrite V. rewrite <- VS in NE. cbv beta iota. gs. rewrite reverse_ok. cbv beta iota. gs.
  rewrite MulScalar_ok. cbv beta iota. gs. rewrite AddScalar_ok. cbv beta iota. gs. rewrite MulScalar_ok. cbv beta iota. gs.
  rewrite Exp_err_len; [reflexivity|]. rewrite !map_length, chain_length. intros X. apply NE. rewrite X.
  unfold NM, u32, rN. apply Z2Nat.id. apply Z.mod_pos_bound. lia.
Qed.
Lemma verify_any_M c p m b : fst (grun (Verify R c p) m) = Ok b -> (0 < m /\ 64 * m < 2 ^ 32)%Z.
Proof.
  unfold Verify. gs. rewrite ped_computed_ok. cbv beta iota. gs. rewrite ped_computed_ok. cbv beta iota.
  destruct (verify_challenges R p) as [[[y z] x] w]. unfold megacheckWithC. destruct (pf_ip R p) as [ip|]; [|discriminate].
  cbn [g_bases p_gens p_base p_blind]. gs.
  destruct (scalars_shape ip) as [a [b' [s [V VS]]]]. rewrite V. cbv beta iota. gs. rewrite reverse_ok. cbv beta iota. gs.
  rewrite MulScalar_ok. cbv beta iota. gs. rewrite AddScalar_ok. cbv beta iota. gs. rewrite MulScalar_ok. cbv beta iota. gs.
  destruct (Nat.eq_dec (length s) (NM m)) as [LS|LS].
  2:{ match goal with |- context [Exp R ?x ?y ?u ?v] => destruct (Exp_err (R := R) x y u v) as [e E] end.
      { left. rewrite !map_length, chain_length. exact LS. }
      rewrite E. discriminate. }
  match goal with |- context [Exp R ?x ?y ?u ?v] => destruct (Exp R x y u v) as [c1|e|] end; try discriminate.
  cbv beta iota. gs. rewrite MulScalar_ok. cbv beta iota. rewrite grun_bind, (readonly_run _ _ (sum_readonly z)).
  destruct (fst (grun (sumZMTwoN z) m)) as [zt|e|] eqn:EZ; try discriminate. apply sum_len in EZ. destruct EZ as [H0 LZ].
  cbv beta iota. gs.
  destruct (Nat.eq_dec (length s) (length zt)) as [LT|LT].
  2:{ match goal with |- context [Sub ?x ?y] => destruct (Sub_err x y) as [e E] end.
      { rewrite map_length, rev_length. exact LT. }
      rewrite E. discriminate. }
  assert (HB : (64 * m < 2 ^ 32)%Z).
  { rewrite LZ, LS in LT. unfold NM, u32, rN in LT. pose proof (Z.mod_pos_bound (64 * m) (2 ^ 32) ltac:(lia)). lia. }
  destruct (Z.eq_dec m 0) as [M0|M0]; [|intros _; lia].
  intros X. exfalso. revert X. subst m.
  change (NM 0) with 0 in *. destruct s; [|discriminate LS]. destruct (VS eq_refl) as [-> [-> NE]].
  destruct zt; [|discriminate LT]. cbn [rev map].
  rewrite Sub_ok by reflexivity. cbn [zipw]. cbv beta iota. gs. rewrite ScalarPowers_c. cbv beta iota. gs.
  change (NM 0) with 0. destruct (cpowers (finv y) 0) eqn:EP; [|apply (f_equal (@length F)) in EP; rewrite cpowers_length in EP; discriminate].
  rewrite Hadamard_ok by reflexivity. cbn [zipw]. cbv beta iota. gs. rewrite SubScalar_ok. cbn [map]. cbv beta iota. gs.
  rewrite MulScalar_ok. cbn [map]. cbv beta iota. gs. cbn [chain].
  match goal with |- context [Exp R ?x ?y ?u ?v] => destruct (Exp R x y u v) as [c2|e|] end; [|discriminate|discriminate]. cbv beta iota. gs.
  destruct (computeDelta y z rN (u32 0)) as [d|e|]; [|discriminate|discriminate]. cbv beta iota. gs.
  destruct NE as [NE|NE].
  - rewrite Exp_nil_neq by exact NE. discriminate.
  - match goal with |- context [Exp R ?x ?y ?u ?v] => destruct (Exp R x y u v) as [c7|e|] end; [|discriminate|discriminate]. cbv beta iota. gs.
    rewrite Exp_nil_neq by exact NE. discriminate.
Qed.
Lemma verify_exact c p m : fst (grun (Verify R c p) m) = Ok true <->
  exists k ip, m = Z.of_nat k /\ pf_ip R p = Some ip /\ 0 < k /\ (64 * Z.of_nat k < 2 ^ 32)%Z /\ sizes_ok k ip /\ k <= length (pf_V R p) /\
    rp_check k c p ip = pt0 R.
Proof.
  split.
  - intros E. pose proof (verify_any_M c p m true E) as [H0 HB].
    rewrite <- (Z2Nat.id m) in * by lia. set (k := Z.to_nat m) in *. assert (K : 0 < k) by lia.
    destruct (grun (Verify R c p) (Z.of_nat k)) as [r q] eqn:EG. cbn [fst] in E. subst r.
    destruct (Verify_Ok_sizes c p k true q K HB EG) as [ip [EI SZ]]. exists k, ip.
    rewrite (Verify_run OK c p ip k EI K HB SZ) in EG. injection EG as EG _.
    destruct (Nat.ltb_spec (length (pf_V R p)) k) as [C|C]; [discriminate|].
    pose proof (verify_iff OK c p ip k EI K HB SZ C) as [I _]. rewrite (Verify_run OK c p ip k EI K HB SZ) in I. cbn [fst] in I.
    destruct (Nat.ltb_spec (length (pf_V R p)) k) as [C'|_]; [lia|].
    repeat split; try assumption; try apply SZ. apply I. exact EG.
  - intros [k [ip [-> [EI [H0 [HB [SZ [HV E]]]]]]]]. apply (verify_iff OK c p ip k EI H0 HB SZ HV). exact E.
Qed.
Lemma verify_unique_M c c' p m m' b b' : fst (grun (Verify R c p) m) = Ok b -> fst (grun (Verify R c' p) m') = Ok b' -> m = m'.
Proof.
  intros E E'. destruct (verify_any_M c p m b E) as [H HB]. destruct (verify_any_M c' p m' b' E') as [H' HB'].
  rewrite <- (Z2Nat.id m), <- (Z2Nat.id m') in * by lia. destruct (Nat.eq_dec (Z.to_nat m) (Z.to_nat m')) as [->|N]; [reflexivity|].
  rewrite (Verify_other_M c p (Z.to_nat m) (Z.to_nat m') c' b ltac:(lia) HB ltac:(lia) HB' N E) in E'. discriminate E'.
Qed.
End Any.
