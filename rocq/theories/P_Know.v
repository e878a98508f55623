(** C108: inner-product proofs show knowledge of a witness, by rewinding *)
From Coq Require Import String ZArith List Lia Bool Arith.
From Coq Require Import Init.Byte.
From Verif Require Import GoModel GoFacts Fld Rist RistFacts RistInst SpecVector VectorFacts SpecIPP InnerProductModel InnerProductFacts Poly
  P_InnerProduct SpecRewind RewindIP P_Rewind SpecKnow KnowFacts.
Import ListNotations.
Local Open Scope nat_scope.

Lemma equation_eqn R (OK : rist_ok R) us Ls Rs A B G H fs Q P : length fs = 2 ^ length us ->
  ip_equation R us Ls Rs A B G H fs Q P <-> eqn G (zipw (smul R) fs H) Q P us Ls Rs A B.
Proof.
  intros L. unfold ip_equation, eqn. rewrite (msm_had OK) by (rewrite svec_length, map_length; congruence). reflexivity.
Qed.
(** C108.  The statement P, the generators and the factors are fixed, the prover answers at least four challenges in each
    round.  From its final answers alone vectors a, b, a scalar c and coefficients of relations are computed, for any group
    and whatever points L and R it sends: P = <a, G> + <b o fs, H> + c Q, the relations hold between G, fs o H and Q, and
    c = <a, b> unless one of the relations is nontrivial. *)
Theorem C108_extract k q aa bb : ip_wide k q ->
  exists (a b : list F) (c : F) (gap : list F -> F -> coefs), length a = 2 ^ k /\ length b = 2 ^ k /\
    ((forall us u, length us < k -> path q [] us -> In u (q us) -> co_zero (2 ^ k) (gap us u)) -> c = dot a b) /\
    forall R (OK : rist_ok R) G H fs Q P (Lf Rf : list F -> pt R), length G = 2 ^ k -> length H = 2 ^ k -> length fs = 2 ^ k ->
      (forall us, length us = k -> path q [] us -> ip_equation R us (rounds Lf [] us) (rounds Rf [] us) (aa us) (bb us) G H fs Q P) ->
      P = padd R (padd R (msm R a G) (msm R (zipw fmul b fs) H)) (smul R c Q) /\
      (forall us u, length us < k -> path q [] us -> In u (q us) -> co_eval R (2 ^ k) G (zipw (smul R) fs H) Q (gap us u) = pt0 R).
Proof.
  intros W. set (v := ext k q aa bb). exists (map (cg v) (seq 0 (2 ^ k))), (map (ch v) (seq 0 (2 ^ k))), (cq v), (gap k q aa bb).
  split; [rewrite map_length, seq_length; reflexivity|]. split; [rewrite map_length, seq_length; reflexivity|]. split.
  - intros Z. rewrite dot_Sum. exact (extracted_dot k q aa bb W Z).
  - intros R OK G H fs Q P Lf Rf LG LH LF E.
    destruct (extracted OK k q aa bb G (zipw (smul R) fs H) Q P Lf Rf W LG) as [E1 E2].
    + rewrite zipw_length; congruence.
    + intros us LU PU. apply (equation_eqn R OK); [rewrite LU; exact LF|]. apply E; assumption.
    + split; [|exact E2]. rewrite <- E1. unfold co_eval. fold v. rewrite (msm_had OK) by (rewrite map_length, seq_length; congruence). reflexivity.
Qed.
Print Assumptions C108_extract.
(** The equation is what Verify checks when the hash function gives these challenges; and some hash function does. *)
Theorem C108_verify R (OK : rist_ok R) k us Ls Rs A B G H fs Q P : k < 32 -> length us = k -> length Ls = k -> length Rs = k ->
  length G = 2 ^ k -> length H = 2 ^ k -> length fs = 2 ^ k ->
  (forall h, challenges (with_hash R h) [] Ls Rs = us ->
     (ipp_Verify (with_hash R h) (mkIPP (with_hash R h) Ls Rs A B) G H fs Q P (Z.of_nat (2 ^ k)) = Ok true <-> ip_equation R us Ls Rs A B G H fs Q P)) /\
  exists h, challenges (with_hash R h) [] Ls Rs = us.
Proof.
  intros HK LU LL LR LG LH LF. split.
  - intros h C. rewrite (C24_verify_iff _ (with_hash_ok R h OK) (mkIPP (with_hash R h) Ls Rs A B) G H fs Q P k LL LR HK LG LH) by (rewrite LF; lia).
    unfold ipp_equation, ip_equation. cbn [ip_L ip_R ip_A ip_B]. rewrite C. reflexivity.
  - exists (fun b => nth (length b / 64 - 1) us f0).
    assert (X : forall Ls Rs hs j, length Rs = length Ls -> length hs = 64 * j -> j + length Ls = length us ->
      challenges (with_hash R (fun b => nth (length b / 64 - 1) us f0)) hs Ls Rs = skipn j us).
    { clear Ls Rs LL LR. induction Ls as [|l Ls IH]; intros [|r Rs] hs j E1 E2 E3; cbn [length] in *; try lia.
      - symmetry. apply skipn_all2. lia.
      - cbn [challenges]. assert (LB : length (hs ++ pbytes R l ++ pbytes R r) = 64 * S j) by (rewrite !app_length, !(pbytes_len R OK); lia).
        rewrite (IH Rs _ (S j)); [|lia|exact LB|lia].
        change (sderive (with_hash R (fun b => nth (length b / 64 - 1) us f0)) ?b) with (nth (length b / 64 - 1) us f0).
        change (pbytes (with_hash R (fun b => nth (length b / 64 - 1) us f0))) with (pbytes R). rewrite LB.
        rewrite Nat.mul_comm, Nat.div_mul by lia. replace (S j - 1) with j by lia.
        assert (SK : forall (l : list F) i, i < length l -> nth i l f0 :: skipn (S i) l = skipn i l).
        { clear. induction l as [|a l IHl]; intros [|i] Hl; cbn [length] in Hl; try lia; [reflexivity|]. cbn [nth skipn]. apply IHl. lia. }
        apply SK. lia. }
    apply (X Ls Rs [] 0); [transitivity k; [exact LR|symmetry; exact LL]|reflexivity|transitivity k; [exact LL|symmetry; exact LU]].
Qed.
Print Assumptions C108_verify.
(** Together: whoever makes Verify accept a statement fixed in advance, for all these challenges, knows a witness. *)
Theorem C108_knowledge k q aa bb : k < 32 -> ip_wide k q ->
  exists (a b : list F) (gap : list F -> F -> coefs), length a = 2 ^ k /\ length b = 2 ^ k /\
    forall R (OK : rist_ok R) G H fs Q P (Lf Rf : list F -> pt R), length G = 2 ^ k -> length H = 2 ^ k -> length fs = 2 ^ k ->
      (forall us, length us = k -> path q [] us -> exists h, challenges (with_hash R h) [] (rounds Lf [] us) (rounds Rf [] us) = us /\
         ipp_Verify (with_hash R h) (mkIPP (with_hash R h) (rounds Lf [] us) (rounds Rf [] us) (aa us) (bb us)) G H fs Q P (Z.of_nat (2 ^ k)) = Ok true) ->
      (forall us u, length us < k -> path q [] us -> In u (q us) -> co_eval R (2 ^ k) G (zipw (smul R) fs H) Q (gap us u) = pt0 R) /\
      ((forall us u, length us < k -> path q [] us -> In u (q us) -> co_zero (2 ^ k) (gap us u)) -> P = ipp_stmt R a b fs G H Q).
Proof.
  intros HK W. destruct (C108_extract k q aa bb W) as (a & b & c & gap & La & Lb & D & X). exists a, b, gap. split; [exact La|]. split; [exact Lb|].
  intros R OK G H fs Q P Lf Rf LG LH LF V. destruct (X R OK G H fs Q P Lf Rf LG LH LF) as [E1 E2].
  - intros us LU PU. destruct (V us LU PU) as (h & C & A).
    destruct (C108_verify R OK k us (rounds Lf [] us) (rounds Rf [] us) (aa us) (bb us) G H fs Q P HK LU) as [I _]; try assumption; try (rewrite rounds_length; exact LU).
    apply (I h C). exact A.
  - split; [exact E2|]. intros Z. rewrite E1, (D Z). reflexivity.
Qed.
Print Assumptions C108_knowledge.
(** Whoever has a witness can answer all nonzero challenges. *)
Theorem C108_honest R (OK : rist_ok R) k a b fs G H Q : k < 32 ->
  length a = 2 ^ k -> length b = 2 ^ k -> length G = 2 ^ k -> length H = 2 ^ k -> length fs = 2 ^ k ->
  exists (Lf Rf : list F -> pt R) (aa bb : list F -> F), forall us, length us = k -> Forall (fun u => u <> f0) us ->
    exists h, challenges (with_hash R h) [] (rounds Lf [] us) (rounds Rf [] us) = us /\
      ipp_Verify (with_hash R h) (mkIPP (with_hash R h) (rounds Lf [] us) (rounds Rf [] us) (aa us) (bb us)) G H fs Q (ipp_stmt R a b fs G H Q) (Z.of_nat (2 ^ k)) = Ok true.
Proof.
  intros HK La Lb LG LH LF. set (H' := zipw (smul R) fs H).
  exists (honest_L Q k a b G H'), (honest_R Q k a b G H'), (leaf k a (fun u => u) finv), (leaf k b finv (fun u => u)).
  intros us LU NZ.
  destruct (C108_verify R OK k us (rounds (honest_L Q k a b G H') [] us) (rounds (honest_R Q k a b G H') [] us) (leaf k a (fun u => u) finv us) (leaf k b finv (fun u => u) us)
    G H fs Q (ipp_stmt R a b fs G H Q) HK LU) as [I [h C]]; try assumption; try (rewrite rounds_length; exact LU).
  exists h. split; [exact C|]. apply (I h C). apply (equation_eqn R OK); [rewrite LU; exact LF|]. fold H'.
  assert (E : ipp_stmt R a b fs G H Q = ipp_point R a b G H' Q) by (unfold ipp_stmt, ipp_point, H'; rewrite (msm_had OK) by congruence; reflexivity).
  rewrite E. subst k. apply (honest_eqn OK Q us a b G H' NZ); try assumption. unfold H'. rewrite zipw_length; congruence.
Qed.
Print Assumptions C108_honest.
(** Example: the challenges 1 to 4 in each round *)
Example C108_ex k : ip_wide k (fun _ => small 4) /\ (forall us, path (fun _ => small 4) [] us -> Forall (fun u => u <> f0) us).
Proof.
  split; [|intros us; apply path_small]. intros us _ _. destruct (small_ok 4 ltac:(lia)) as (_ & L & Z & N). rewrite L. auto.
Qed.
