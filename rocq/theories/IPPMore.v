(** Verify of inner-product proofs for all sizes; Encode for all numbers of L and R *)
From Coq Require Import String ZArith List Lia Bool Arith Field.
From Verif Require Import GoModel GoFacts ReadModel ReadFacts Fld Rist RistFacts SpecVector VectorModel VectorFacts
  PedersenModel PedersenFacts InnerProductModel SpecIPP InnerProductFacts IPPVerifyFacts IPPProps.
Import ListNotations.
Local Open Scope nat_scope.

Section More.
Context {R : rist}.
Notation "p [+] q" := (padd R p q) (at level 50, left associativity).
Notation "x [*] p" := (smul R x p) (at level 40, left associativity).

(** the two generator slices are only used one after the other *)
Lemma Verify_joined p G H G' H' fs Q P n : G ++ H = G' ++ H' -> ipp_Verify R p G H fs Q P n = ipp_Verify R p G' H' fs Q P n.
Proof. intros E. unfold ipp_Verify. rewrite (app_assoc G), (app_assoc G'), E. reflexivity. Qed.

Definition scal_s (us s : list F) (p : ipproof R) : Prop :=
  VerifScalars R p = Ok (map (fun u => fmul u u) us, map (fun u => fmul (finv u) (finv u)) us, s).
Lemma scal_low p : length (ip_L R p) = length (ip_R R p) -> length (ip_L R p) < 32 ->
  scal_s (challenges R [] (ip_L R p) (ip_R R p)) (svec (challenges R [] (ip_L R p) (ip_R R p))) p.
Proof. exact (VerifScalars_ok p). Qed.
Lemma scal_wrap p : length (ip_L R p) = length (ip_R R p) -> 32 <= length (ip_L R p) ->
  scal_s (challenges R [] (ip_L R p) (ip_R R p)) [fprod (map finv (challenges R [] (ip_L R p) (ip_R R p)))] p.
Proof.
  intros H1 H2. unfold scal_s, VerifScalars. rewrite <- H1, Nat.eqb_refl. cbn [negb].
  destruct (chal_loop (ip_L R p) (ip_R R p) [] [] H1) as [hs E]. cbn zeta in E |- *. rewrite E. cbn [bind app].
  pose proof inv_loop as IL. cbn zeta in IL. rewrite IL. cbn [bind app]. rewrite sq_loop by (rewrite map_length; reflexivity). cbn [bind app].
  replace (u32 (2 ^ Z.of_nat (length (ip_L R p)))) with 0%Z.
  - change (Z.to_nat 0 - 1) with 0. cbn [for_loop bind]. rewrite map_map. f_equal. f_equal. f_equal. ring.
  - unfold u32. replace (Z.of_nat (length (ip_L R p))) with (32 + (Z.of_nat (length (ip_L R p)) - 32))%Z by lia.
    rewrite Z.pow_add_r by lia. rewrite Z.mul_comm, Z.mod_mul by lia. reflexivity.
Qed.

Section Core.
Context (p : ipproof R) (us s : list F) (SC : scal_s us s p) (LL : length (ip_L R p) = length us) (LR : length (ip_R R p) = length us) (NE : s <> []).
Lemma core_panic G H fs Q P n : length fs < length s -> ipp_Verify R p G H fs Q P n = Panic.
Proof.
  intros HF. unfold ipp_Verify. rewrite SC. cbn [bind]. rewrite reverse_ok. cbn [bind]. rewrite !MulScalar_vscale. cbn [bind].
  rewrite mul_factors_short; [reflexivity| |]; rewrite vscale_length, rev_length; lia.
Qed.
Lemma core_reject G H fs Q P n : length s <= length fs ->
  length G + length H <> 2 * length s \/ (1 + 2 * Z.of_nat (length s) + 2 * Z.of_nat (length us) < i64 n)%Z ->
  ipp_Verify R p G H fs Q P n = Ok false.
Proof.
  intros HF HN. unfold ipp_Verify. rewrite SC. cbn [bind]. rewrite reverse_ok. cbn [bind]. rewrite !MulScalar_vscale. cbn [bind].
  rewrite mul_factors_ok by (rewrite vscale_length, rev_length; lia). cbn [bind skipn]. rewrite !loop1_map. cbn [bind].
  match goal with |- context [Exp R ?x ?y ?u ?v] => destruct (Exp_err (R := R) x y u v) as [e E]; [|rewrite E; reflexivity] end.
  rewrite Z.mul_1_r. cbn [length]. rewrite !app_length, !map_length, vscale_length, zipw_length_min, vscale_length, rev_length. lia.
Qed.
Lemma core_accept (OK : rist_ok R) G H fs Q P n : length s <= length fs -> length G = length s -> length H = length s ->
  (i64 n <= 1 + 2 * Z.of_nat (length s) + 2 * Z.of_nat (length us))%Z ->
  exists b, ipp_Verify R p G H fs Q P n = Ok b /\
  (b = true <-> P [+] lr_sum R us (ip_L R p) (ip_R R p) =
     ip_A R p [*] msm R s G [+] ip_B R p [*] msm R (zipw fmul (rev s) fs) H [+] fmul (ip_A R p) (ip_B R p) [*] Q).
Proof.
  intros HF HG HH Hn. unfold ipp_Verify. rewrite SC. cbn [bind]. rewrite reverse_ok. cbn [bind]. rewrite !MulScalar_vscale. cbn [bind].
  rewrite mul_factors_ok by (rewrite vscale_length, rev_length; lia). cbn [bind skipn]. rewrite !loop1_map. cbn [bind].
  set (sc := _ :: _ ++ _ ++ _ ++ _). set (ps := _ :: _ ++ _ ++ _ ++ _).
  assert (ZL : length (zipw fmul (vscale (ip_B R p) (rev s)) fs) = length s) by (rewrite zipw_length_min, vscale_length, rev_length; lia).
  assert (LSc : length sc = 1 + 2 * length s + 2 * length us) by (unfold sc; cbn [length]; rewrite !app_length, !map_length, vscale_length, ZL; lia).
  assert (LS : length sc = length ps) by (rewrite LSc; unfold ps; cbn [length]; rewrite !app_length; lia).
  rewrite (Exp_ok OK) by (exact LS || (rewrite Z.mul_1_r, LSc; lia)).
  eexists. split; [reflexivity|]. rewrite (peqb_ok R OK).
  assert (EQ : msm R sc ps [+] lr_sum R us (ip_L R p) (ip_R R p) =
    ip_A R p [*] msm R s G [+] ip_B R p [*] msm R (zipw fmul (rev s) fs) H [+] fmul (ip_A R p) (ip_B R p) [*] Q).
  { unfold sc, ps. rewrite msm_cons.
    rewrite (msm_app OK) by (rewrite vscale_length; lia).
    rewrite (msm_app OK) by (rewrite ZL; lia).
    rewrite (msm_app OK) by (rewrite !map_length; lia).
    rewrite (lr_sum_msm OK us) by lia. rewrite !(msm_neg OK). rewrite !(msm_vscale OK).
    replace (zipw fmul (vscale (ip_B R p) (rev s)) fs) with (vscale (ip_B R p) (zipw fmul (rev s) fs)).
    - rewrite (msm_vscale OK). lin OK.
    - generalize (rev s). intros l. clear. revert fs. induction l as [|x l IH]; intros [|y fs]; cbn; try reflexivity.
      f_equal; [ring|apply IH]. }
  split; intros E.
  - rewrite <- E. exact EQ.
  - apply (padd_cancel_r OK (lr_sum R us (ip_L R p) (ip_R R p))). rewrite EQ. symmetry. exact E.
Qed.
End Core.

(** ** Encode *)
Definition pairs_enc (Ls Rs : list (pt R)) : bytes := concat (map (fun lr => pbytes R (fst lr) ++ pbytes R (snd lr)) (combine Ls Rs)).
Lemma lr_chunks_enc Ls : forall Rs, concat (lr_chunks R Ls Rs) = pairs_enc Ls Rs.
Proof. induction Ls as [|l Ls IH]; intros [|r Rs]; try reflexivity. cbn [lr_chunks concat]. rewrite IH. unfold pairs_enc. cbn [combine map concat fst snd]. rewrite <- app_assoc. reflexivity. Qed.
Lemma encode_all p w : no_fault w -> 
  fst (ipp_Encode R p w) = (if Nat.leb (length (ip_L R p)) (length (ip_R R p)) then Ok tt else Panic) /\
  w_out (snd (ipp_Encode R p w)) = w_out w ++ sbytes R (ip_A R p) ++ sbytes R (ip_B R p) ++ pairs_enc (ip_L R p) (ip_R R p) ++
    match nth_error (ip_L R p) (length (ip_R R p)) with Some l => pbytes R l | None => [] end.
Proof.
  intros W. unfold ipp_Encode. destruct (Nat.leb_spec (length (ip_L R p)) (length (ip_R R p))) as [C|C].
  - rewrite (proj2 (nth_error_None (ip_L R p) (length (ip_R R p))) C). change (w_each w_write (ipp_chunks R p) w) with (write_chunks (ipp_chunks R p) w).
    destruct (write_chunks_ok (ipp_chunks R p) w W) as [A _]. split; [exact A|].
    destruct (write_chunks_spec (ipp_chunks R p) w) as [pre [P1 [_ [P3 _]]]]. rewrite P1, (P3 A). unfold ipp_chunks. cbn [concat].
    rewrite lr_chunks_enc, app_nil_r. reflexivity.
  - unfold w_seq. destruct (nth_error (ip_L R p) (length (ip_R R p))) as [l|] eqn:E; [|apply nth_error_None in E; lia].
    set (cs := ipp_chunks R p ++ [pbytes R l]). change (w_each w_write cs w) with (write_chunks cs w).
    destruct (write_chunks_ok cs w W) as [A _]. destruct (write_chunks_spec cs w) as [pre [P1 [_ [P3 _]]]]. rewrite (P3 A) in P1.
    destruct (write_chunks cs w) as [r w']. cbn [fst snd] in *. subst r. cbn [fst snd]. split; [reflexivity|]. rewrite P1. unfold cs.
    rewrite concat_app. unfold ipp_chunks. cbn [concat]. rewrite lr_chunks_enc, app_nil_r, <- !app_assoc. reflexivity.
Qed.
End More.
