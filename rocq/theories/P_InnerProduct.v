(** Properties C22-C28 (inner-product part): innerproduct.go *)
From Coq Require Import String ZArith List Lia Bool Arith Field.
From Coq Require Import Init.Byte Strings.Byte.
From Verif Require Import GoModel GoFacts ReadModel ReadFacts Fld Rist RistFacts RistInst SpecVector VectorModel
  PedersenModel InnerProductModel SpecIPP InnerProductFacts IPPVerifyFacts IPPProps IPPMore.
Import ListNotations.
Local Open Scope nat_scope.

(** C22.  n + DiffNextPow2(n) is the least power of two that is at least n. *)
Theorem C22_diff_next_pow2 n : (1 <= n < 2 ^ 32)%Z ->
  (0 <= DiffNextPow2 n)%Z /\
  exists k, (0 <= k)%Z /\ (n + DiffNextPow2 n = 2 ^ k)%Z /\ forall j, (0 <= j)%Z -> (n <= 2 ^ j)%Z -> (2 ^ k <= 2 ^ j)%Z.
Proof.
  intros H. split; [unfold DiffNextPow2, u32; apply Z.mod_pos_bound; lia|].
  destruct (Z.eq_dec n 1) as [->|N].
  - exists 0%Z. split; [lia|]. split; [reflexivity|]. intros j Hj _. apply Z.pow_le_mono_r; lia.
  - exists (Z.log2 (n - 1) + 1)%Z. pose proof (Z.log2_nonneg (n - 1)) as L. split; [lia|].
    split; [apply DiffNextPow2_eq; lia|]. intros j Hj Hn. apply Z.pow_le_mono_r; [lia|].
    destruct (Z_le_gt_dec (Z.log2 (n - 1) + 1) j) as [C|C]; [exact C|].
    pose proof (Z.log2_spec (n - 1) ltac:(lia)) as [A B].
    assert (2 ^ j <= 2 ^ Z.log2 (n - 1))%Z by (apply Z.pow_le_mono_r; lia). lia.
Qed.
Print Assumptions C22_diff_next_pow2.
Theorem C22_zero : DiffNextPow2 0 = 0%Z.
Proof. vm_compute. reflexivity. Qed.
Print Assumptions C22_zero.
Example C22_ex : map DiffNextPow2 [1; 2; 3; 5; 8; 100; 2147483649; 4294967295]%Z = [0; 0; 1; 3; 0; 28; 2147483647; 1]%Z.
Proof. vm_compute. reflexivity. Qed.

(** C23.  Completeness. *)
Theorem C23_complete R (OK : rist_ok R) k G H a b fs Q : k < 32 ->
  length a = 2 ^ k -> length b = 2 ^ k -> length G = 2 ^ k -> length H = 2 ^ k -> length fs = 2 ^ k ->
  exists p, Generate R G H a b fs Q = Ok p /\ length (ip_L R p) = k /\ length (ip_R R p) = k /\
    (Forall (fun u => u <> f0) (challenges R [] (ip_L R p) (ip_R R p)) ->
     ipp_Verify R p G H fs Q (ipp_stmt R a b fs G H Q) (Z.of_nat (2 ^ k)) = Ok true).
Proof.
  intros HK Ha Hb HG HH HF.
  destruct (Generate_ok OK G H a b fs Q k) as [p [E [L1 [L2 S]]]]; try assumption; [lia|].
  exists p. split; [exact E|]. split; [exact L1|]. split; [exact L2|]. intros U.
  destruct (Verify_ok OK p G H fs Q (ipp_stmt R a b fs G H Q) (Z.of_nat (2 ^ k)) k) as [v [V1 V2]]; try assumption; try lia.
  rewrite V1. f_equal. apply V2. apply S. exact U.
Qed.
Print Assumptions C23_complete.
Example C23_ex :
  let G := map of_Z [3; 5; 7; 11]%Z in let H := map of_Z [13; 17; 19; 23]%Z in
  let a := map of_Z [1; 2; 3; 4]%Z in let b := map of_Z [5; 6; 7; 8]%Z in let fs := map of_Z [1; 9; 81; 729]%Z in
  let Q := of_Z 29 in
  match Generate tiny G H a b fs Q with
  | Ok p => (forallb (fun u => negb (feqb u f0)) (challenges tiny [] (ip_L tiny p) (ip_R tiny p)),
             ipp_Verify tiny p G H fs Q (ipp_stmt tiny a b fs G H Q) 4,
             ipp_Verify tiny p G H fs Q (ipp_stmt tiny b a fs G H Q) 4)
  | _ => (false, Panic, Panic)
  end = (true, Ok true, Ok false).
Proof. vm_compute. reflexivity. Qed.

(** C24.  Verify accepts exactly the claimed equation, also for adversarial proofs. *)
Theorem C24_verify_iff R (OK : rist_ok R) p G H fs Q P k :
  length (ip_L R p) = k -> length (ip_R R p) = k -> k < 32 ->
  length G = 2 ^ k -> length H = 2 ^ k -> 2 ^ k <= length fs ->
  (ipp_Verify R p G H fs Q P (Z.of_nat (2 ^ k)) = Ok true <->
   ipp_equation R (ip_L R p) (ip_R R p) (ip_A R p) (ip_B R p) G H fs Q P).
Proof.
  intros H1 H2 H3 H4 H5 H6.
  destruct (Verify_ok OK p G H fs Q P (Z.of_nat (2 ^ k)) k) as [v [V1 V2]]; try assumption; try lia.
  rewrite V1. rewrite <- V2. split; [intros E; injection E as ->; reflexivity|intros ->; reflexivity].
Qed.
Print Assumptions C24_verify_iff.
(** Verify never errors or panics on matching sizes, rejects proofs with different numbers of
    L and R and generator slices of the wrong size, and panics when the factors are too few. *)
Theorem C24_other_sizes R p G H fs Q P n :
  (length (ip_L R p) <> length (ip_R R p) -> ipp_Verify R p G H fs Q P n = Ok false) /\
  (forall k, length (ip_L R p) = k -> length (ip_R R p) = k -> k < 32 ->
     (2 ^ k <= length fs -> length G + length H <> 2 ^ k + 2 ^ k -> ipp_Verify R p G H fs Q P n = Ok false) /\
     (length fs < 2 ^ k -> ipp_Verify R p G H fs Q P n = Panic)).
Proof.
  split; [apply Verify_lr_neq|]. intros k H1 H2 H3. split; intros.
  - apply (Verify_sizes p G H fs Q P n k); assumption.
  - apply (Verify_short p G H fs Q P n k); assumption.
Qed.
Print Assumptions C24_other_sizes.
(** All sizes, and every int n: s has 2^k elements for k < 32 rounds and one element from 32 rounds on.
    The two generator slices may be cut anywhere.  Verify panics iff there are fewer factors than elements
    of s; otherwise it checks one equation, after rejecting wrong sizes and an n that is too large. *)
Theorem C24_all_sizes R (OK : rist_ok R) p G H fs Q P n : length (ip_L R p) = length (ip_R R p) ->
  let us := challenges R [] (ip_L R p) (ip_R R p) in
  let s := if length us <? 32 then svec us else [fold_right fmul f1 (map finv us)] in
  let GH := G ++ H in
  (length fs < length s -> ipp_Verify R p G H fs Q P n = Panic) /\
  (length s <= length fs -> exists b, ipp_Verify R p G H fs Q P n = Ok b /\
     (b = true <->
      length GH = 2 * length s /\ (i64 n <= 1 + 2 * Z.of_nat (length s) + 2 * Z.of_nat (length us))%Z /\
      padd R P (lr_sum R us (ip_L R p) (ip_R R p)) =
      padd R (padd R (smul R (ip_A R p) (msm R s (firstn (length s) GH)))
                     (smul R (ip_B R p) (msm R (zipw fmul (rev s) fs) (skipn (length s) GH))))
             (smul R (fmul (ip_A R p) (ip_B R p)) Q))).
Proof.
  intros HL us s GH. assert (LU : length us = length (ip_L R p)) by (unfold us; apply challenges_length; exact HL).
  assert (SC : scal_s us s p).
  { unfold s. destruct (Nat.ltb_spec (length us) 32) as [C|C]; [apply scal_low|apply scal_wrap]; lia || exact HL. }
  assert (NE : 0 < length s).
  { unfold s. destruct (length us <? 32); [|cbn [length]; lia]. rewrite svec_length. apply Nat.neq_0_lt_0, Nat.pow_nonzero. lia. }
  assert (L1 : length (ip_L R p) = length us) by lia. assert (L2 : length (ip_R R p) = length us) by lia.
  clearbody s. split; [apply (core_panic p us s SC L1 L2)|]. intros HF.
  destruct (Nat.eq_dec (length GH) (2 * length s)) as [E|E].
  2:{ exists false. split; [apply (core_reject p us s SC L1 L2); [exact HF|left; unfold GH in E; rewrite app_length in E; exact E]|].
      split; [discriminate|]. intros (C & _). contradiction. }
  destruct (Z_lt_le_dec (1 + 2 * Z.of_nat (length s) + 2 * Z.of_nat (length us)) (i64 n)) as [C|C].
  { exists false. split; [apply (core_reject p us s SC L1 L2); [exact HF|right; exact C]|]. split; [discriminate|]. intros (_ & C' & _). lia. }
  rewrite (Verify_joined p G H (firstn (length s) GH) (skipn (length s) GH)) by (rewrite firstn_skipn; reflexivity).
  destruct (core_accept p us s SC L1 L2 OK (firstn (length s) GH) (skipn (length s) GH) fs Q P n)
    as (b & B1 & B2); [exact HF|rewrite firstn_length; lia|rewrite skipn_length; lia|exact C|].
  exists b. split; [exact B1|]. rewrite B2. tauto.
Qed.
Print Assumptions C24_all_sizes.
(** one round; three generators in the first slice and one in the second *)
Example C24_ex_sizes :
  let p := mkIPP tiny [of_Z 4] [of_Z 6] (of_Z 2) (of_Z 3) in
  length (ip_L tiny p) = length (ip_R tiny p) /\
  ipp_Verify tiny p [f1; f1; f1] [f1] [f1] f1 f1 2 = Panic /\
  ipp_Verify tiny p [f1; f1; f1] [f1] [f1; f1] f1 f1 2 = ipp_Verify tiny p [f1; f1] [f1; f1] [f1; f1] f1 f1 2.
Proof. split; [|split]; vm_compute; reflexivity. Qed.
(** at most one P is accepted for a given proof *)
Theorem C24_unique_statement R (OK : rist_ok R) p G H fs Q P P' k :
  length (ip_L R p) = k -> length (ip_R R p) = k -> k < 32 ->
  length G = 2 ^ k -> length H = 2 ^ k -> 2 ^ k <= length fs ->
  ipp_Verify R p G H fs Q P (Z.of_nat (2 ^ k)) = Ok true ->
  ipp_Verify R p G H fs Q P' (Z.of_nat (2 ^ k)) = Ok true -> P = P'.
Proof.
  intros H1 H2 H3 H4 H5 H6 V V'. apply (C24_verify_iff R OK) in V; try assumption.
  apply (C24_verify_iff R OK) in V'; try assumption. unfold ipp_equation in *. rewrite <- V' in V.
  exact (padd_cancel_r OK _ _ _ V).
Qed.
Print Assumptions C24_unique_statement.

(** C25.  The scalars. *)
Theorem C25_verif_scalars R p k : length (ip_L R p) = k -> length (ip_R R p) = k -> k < 32 ->
  let us := challenges R [] (ip_L R p) (ip_R R p) in
  length us = k /\
  exists s, VerifScalars R p = Ok (map (fun u => fmul u u) us, map (fun u => fmul (finv u) (finv u)) us, s) /\
    length s = 2 ^ k /\
    (forall i, i < 2 ^ k -> nth_error s i = Some (sel_prod us i)) /\
    (Forall (fun u => u <> f0) us -> rev s = map finv s).
Proof.
  intros H1 H2 H3. cbn zeta. split; [rewrite challenges_length; congruence|].
  pose proof (VerifScalars_ok p ltac:(congruence) ltac:(lia)) as V. cbn zeta in V.
  set (us := challenges R [] (ip_L R p) (ip_R R p)) in *.
  assert (UL : length us = k) by (unfold us; rewrite challenges_length; congruence).
  exists (svec us). split; [exact V|]. split; [rewrite svec_length, UL; reflexivity|]. split.
  - intros i Hi. rewrite svec_sel, UL. rewrite nth_error_map. rewrite <- UL in *. 
    rewrite (nth_error_nth' _ 0) by (rewrite seq_length; exact Hi). rewrite seq_nth by exact Hi. reflexivity.
  - intros U. rewrite rev_svec. apply svec_inv. exact U.
Qed.
Print Assumptions C25_verif_scalars.
(** the size is a uint32: from 32 rounds on s has a single element (defect) *)
Theorem C25_wraps R p : length (ip_L R p) = length (ip_R R p) -> 32 <= length (ip_L R p) ->
  exists x y s, VerifScalars R p = Ok (x, y, [s]).
Proof. exact (VerifScalars_wrap p). Qed.
Print Assumptions C25_wraps.
Example C25_ex :
  let p := mkIPP tiny [of_Z 4; of_Z 5] [of_Z 6; of_Z 7] f1 f1 in
  match VerifScalars tiny p with
  | Ok (_, _, s) => (length s, forallb (fun '(x, y) => feqb (fmul x y) f1) (combine s (rev s)))
  | _ => (0, false)
  end = (4, true).
Proof. vm_compute. reflexivity. Qed.

(** C26.  Malformed input. *)
Theorem C26_not_power_of_two R G H a b fs Q : (Z.of_nat (length G) < 2 ^ 32)%Z -> G <> [] ->
  (forall k, length G <> 2 ^ k) -> Generate R G H a b fs Q = Err "[IPProof]: size of n (NM) is not a power of 2"%string.
Proof. exact (Generate_not_pow2 G H a b fs Q). Qed.
Print Assumptions C26_not_power_of_two.
Theorem C26_mismatched_lengths R G H a b fs Q p : 2 <= length G -> (Z.of_nat (length G) < 2 ^ 32)%Z ->
  Generate R G H a b fs Q = Ok p ->
  length a = length G /\ length b = length G /\ length H = length G /\ length G <= length fs.
Proof. exact (Generate_mismatch G H a b fs Q p). Qed.
Print Assumptions C26_mismatched_lengths.
(** all outcomes with at least two generators: success, panic (too few factors) and error; the error tells which
    halves of the vectors do not fit, those of a and b or those of scalars and generators *)
Theorem C26_outcomes R (OK : rist_ok R) k G H a b fs Q : k < 31 -> length G = 2 ^ S k ->
  (Z.of_nat (length a) < 2 ^ 32)%Z -> (Z.of_nat (length b) < 2 ^ 32)%Z -> (Z.of_nat (length H) < 2 ^ 32)%Z ->
  let good := length a = length G /\ length b = length G /\ length H = length G /\ length G <= length fs in
  let bad := length a = length G /\ 2 ^ k < length b /\
    (length fs < length b - 2 ^ k \/ (length b = length G /\ 2 ^ k < length H /\ length fs < length G)) in
  (good -> exists p, Generate R G H a b fs Q = Ok p) /\ (bad -> Generate R G H a b fs Q = Panic) /\
  (~ good -> ~ bad -> Generate R G H a b fs Q =
     Err (if Nat.eqb (length a - 2 ^ k) (if Nat.ltb (2 ^ k) (length b) then 2 ^ k else 0)
          then "length of slice of scalars a does not equal length of slices of points b" else "[Inner Product]:Length of a does not equal length of b")%string).
Proof. exact (Generate_fails OK k G H a b fs Q). Qed.
Print Assumptions C26_outcomes.
Theorem C26_empty_panics R fs Q : Generate R [] [] [] [] fs Q = Panic.
Proof. exact (Generate_empty fs Q). Qed.
Print Assumptions C26_empty_panics.
Theorem C26_single_unchecked R g H a b fs Q : a <> [] -> b <> [] ->
  Generate R [g] H a b fs Q = Ok (mkIPP R [] [] (last a f0) (last b f0)).
Proof. exact (Generate_single g H a b fs Q). Qed.
Print Assumptions C26_single_unchecked.
Example C26_ex :
  match Generate toy (map of_Z [1; 2; 3]%Z) (map of_Z [1; 2; 3]%Z) [f1; f1; f1] [f1; f1; f1] [f1; f1; f1] f1 with
  | Err _ => true | _ => false end = true /\
  match Generate toy (map of_Z [1; 2]%Z) (map of_Z [1; 2]%Z) [f1; f1; f1; f1] [f1; f1; f1; f1] [f1; f1; f1; f1] f1 with
  | Err _ => true | _ => false end = true /\
  match Generate toy (map of_Z [1; 2]%Z) (map of_Z [1; 2]%Z) [f1; f1] [f1; f1] [f1] f1 with
  | Panic => true | _ => false end = true.
Proof. split; [|split]; vm_compute; reflexivity. Qed.

(** C27.  Codec: the receiver's previous contents do not matter; an extra chunk of 32 bytes
    is dropped. *)
Theorem C27_roundtrip R (OK : rist_ok R) p p0 : length (ip_L R p) = length (ip_R R p) ->
  (Z.of_nat (length (ip_L R p)) < 2 ^ 32)%Z ->
  exists w, ipp_Encode R p w_fresh = (Ok tt, w) /\
  (forall r, fault_free r -> rbytes r = w_out w -> exec (ipp_Decode R p0) r = ((p, Ok tt), [])) /\
  (forall r extra, fault_free r -> rbytes r = w_out w ++ extra -> length extra = 32 ->
     exec (ipp_Decode R p0) r = ((p, Ok tt), [])).
Proof.
  intros HL HB. eexists. split; [apply ipp_encode; exact HL|]. cbn [w_out]. split.
  - intros r F E. apply (ipp_decode_ok OK p p0 r []); auto. rewrite app_nil_r. exact E.
  - intros r extra F E X. apply (ipp_decode_ok OK p p0 r extra); auto.
Qed.
Print Assumptions C27_roundtrip.
(** Any 64+32k bytes are accepted: chunks that do not encode a point are accepted too. *)
Theorem C27_accepts_junk R p0 r A B buf : fault_free r -> length A = 32 -> length B = 32 ->
  rbytes r = A ++ B ++ buf -> length buf mod 32 = 0 -> (Z.of_nat (length buf / 64) < 2 ^ 32)%Z ->
  exists p, exec (ipp_Decode R p0) r = ((p, Ok tt), []) /\
    ip_A R p = sset R A /\ ip_B R p = sset R B /\ length (ip_L R p) = length buf / 64 /\ length (ip_R R p) = length buf / 64.
Proof.
  intros F LA LB E M Z. rewrite (ipp_decode_gen p0 r A B buf F LA LB E M Z).
  assert (LD : forall n b, length (fst (lr_decode R n b)) = n /\ length (snd (lr_decode R n b)) = n).
  { induction n as [|n IH]; intros b; cbn [lr_decode]; [auto|]. specialize (IH (skipn 64 b)).
    destruct (lr_decode R n (skipn 64 b)). cbn in *. lia. }
  specialize (LD (length buf / 64) buf). destruct (lr_decode R (length buf / 64) buf) as [Ls Rs]. cbn [fst snd] in LD.
  eexists. split; [reflexivity|]. cbn. tauto.
Qed.
Print Assumptions C27_accepts_junk.
(** Encode panics when R is shorter than L. *)
Theorem C27_encode_panics R p w : length (ip_R R p) < length (ip_L R p) -> no_fault w -> fst (ipp_Encode R p w) = Panic.
Proof. exact (ipp_encode_short p w). Qed.
Print Assumptions C27_encode_panics.
(** What Encode writes, to a writer that does not fail, for all numbers of L and R: the pairs, and, before
    it panics, the left point of the first unpaired round; further points of R are not written. *)
Theorem C27_encode_all R p w : no_fault w ->
  fst (ipp_Encode R p w) = (if length (ip_L R p) <=? length (ip_R R p) then Ok tt else Panic) /\
  w_out (snd (ipp_Encode R p w)) = w_out w ++ sbytes R (ip_A R p) ++ sbytes R (ip_B R p) ++
    concat (map (fun lr => pbytes R (fst lr) ++ pbytes R (snd lr)) (combine (ip_L R p) (ip_R R p))) ++
    match nth_error (ip_L R p) (length (ip_R R p)) with Some l => pbytes R l | None => [] end.
Proof. exact (encode_all p w). Qed.
Print Assumptions C27_encode_all.
Example C27_ex_all :
  let p := mkIPP toy [of_Z 4; of_Z 5] [of_Z 6] (of_Z 8) (of_Z 9) in
  match ipp_Encode toy p w_fresh with (Panic, w) => length (w_out w) = 160 | _ => False end.
Proof. vm_compute. reflexivity. Qed.
Example C27_ex :
  let p := mkIPP toy [of_Z 4; of_Z 5] [of_Z 6; of_Z 7] (of_Z 8) (of_Z 9) in
  match ipp_Encode toy p w_fresh with
  | (Ok _, w) => ipp_Equals toy (fst (fst (exec (ipp_Decode toy (mkIPP toy [] [] f0 f0)) [RChunk (firstn 50 (w_out w)); RChunk (skipn 50 (w_out w))]))) p
  | _ => Panic
  end = Ok true.
Proof. vm_compute. reflexivity. Qed.

(** C28, first part: equality of inner-product proofs. *)
Theorem C28_ipp_prefix R (OK : rist_ok R) p q : length (ip_L R p) = length (ip_R R p) ->
  (ipp_Equals R p q = Ok true <->
   ip_A R p = ip_A R q /\ ip_B R p = ip_B R q /\
   (exists l', ip_L R q = ip_L R p ++ l') /\ (exists r', ip_R R q = ip_R R p ++ r')).
Proof. exact (ipp_equals_true OK p q). Qed.
Print Assumptions C28_ipp_prefix.
Theorem C28_ipp_panics R (OK : rist_ok R) p q l l' : ip_A R p = ip_A R q -> ip_B R p = ip_B R q ->
  length (ip_L R p) = length (ip_R R p) -> length (ip_L R q) = length (ip_R R q) ->
  ip_L R p = ip_L R q ++ l -> l <> [] -> ip_R R p = ip_R R q ++ l' -> ipp_Equals R p q = Panic.
Proof. exact (ipp_equals_panic OK p q l l'). Qed.
Print Assumptions C28_ipp_panics.
(** for any numbers of points: the first position where the proofs differ decides; when a point that is
    needed there is missing, Equals panics *)
Theorem C28_ipp_all R (OK : rist_ok R) p q :
  let same := ip_A R p = ip_A R q /\ ip_B R p = ip_B R q in
  let agree j := exists l r, nth_error (ip_L R p) j = Some l /\ nth_error (ip_L R q) j = Some l /\
    nth_error (ip_R R p) j = Some r /\ nth_error (ip_R R q) j = Some r in
  let missing j := nth_error (ip_L R q) j = None \/
    nth_error (ip_L R q) j = nth_error (ip_L R p) j /\ (nth_error (ip_R R p) j = None \/ nth_error (ip_R R q) j = None) in
  (ipp_Equals R p q = Ok true <-> same /\ forall j, j < length (ip_L R p) -> agree j) /\
  (ipp_Equals R p q = Panic <-> same /\ exists j, j < length (ip_L R p) /\ (forall m, m < j -> agree m) /\ missing j) /\
  (forall e, ipp_Equals R p q <> Err e).
Proof. exact (ipp_equals_any OK p q). Qed.
Print Assumptions C28_ipp_all.
Theorem C28_ipp_symmetric_refuted R (OK : rist_ok R) :
  ~ (forall p q, ipp_Equals R p q = ipp_Equals R q p).
Proof.
  intros H. specialize (H (mkIPP R [] [] f0 f0) (mkIPP R [pt0 R] [pt0 R] f0 f0)).
  unfold ipp_Equals in H. cbn [ip_A ip_B ip_L ip_R length lr_equals] in H.
  rewrite (proj2 (feqb_eq f0 f0) eq_refl) in H. cbn in H. discriminate.
Qed.
Print Assumptions C28_ipp_symmetric_refuted.
