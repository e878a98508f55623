(** Facts about range proofs that end within their last part *)
From Coq Require Import String ZArith List Lia Bool Arith.
From Verif Require Import GoModel GoFacts Fld Rist ReadModel ReadFacts SpecTrunc PedersenModel InnerProductModel RangeProofModel MlsagModel IPPProps StreamFacts DecodeFacts TruncFacts.
Import ListNotations.
Local Open Scope nat_scope.

(** a program that gets all it asks for does not notice that the input is shorter *)
Lemma keep {X} (p : rprog X) : forall r r' tail, bounded p -> fault_free r -> fault_free r' -> rbytes r = rbytes r' ++ tail -> asked p r <= length (rbytes r') ->
  fst (exec p r') = fst (exec p r) /\ fault_free (snd (exec p r)) /\ fault_free (snd (exec p r')) /\ rbytes (snd (exec p r)) = rbytes (snd (exec p r')) ++ tail /\
  length (rbytes r') = asked p r + length (rbytes (snd (exec p r'))).
Proof.
  induction p as [x|n k IH|k IH|n k IH]; intros r r' tail B F F' E L; cbn [asked bounded] in *; [unfold exec; cbn [run fst snd]; auto| |contradiction|rewrite !exec_RAlloc; exact (IH r r' tail B F F' E L)].
  rewrite !exec_RRead. destruct (read_full_split n r' F' ltac:(lia)) as (r1' & X' & B' & F1'). assert (C2 : n <= length (rbytes r)) by (rewrite E, app_length; lia).
  destruct (read_full_split n r F C2) as (r1 & X1 & B1 & F1). rewrite X1 in *. rewrite X'. cbn [fst snd] in *.
  assert (EF : firstn n (rbytes r) = firstn n (rbytes r')) by (rewrite E, firstn_app; replace (n - length (rbytes r')) with 0 by lia; rewrite firstn_O, app_nil_r; reflexivity).
  rewrite EF in *. assert (LB : length (rbytes r1') = length (rbytes r') - n) by (rewrite B', skipn_length; reflexivity).
  assert (E1 : rbytes r1 = rbytes r1' ++ tail) by (rewrite B1, B', E, skipn_app; replace (n - length (rbytes r')) with 0 by lia; reflexivity).
  destruct (IH (Ok (firstn n (rbytes r'))) r1 r1' tail (B _) F1 F1' E1 ltac:(lia)) as (K1 & K2 & K3 & K4 & K5). repeat (split; [assumption|]). lia.
Qed.

Section Proofs.
Context (R : rist).
Lemma lr_prefix k : forall n buf tail, k <= n -> 64 * k <= length buf ->
  lr_decode R k buf = (firstn k (fst (lr_decode R n (buf ++ tail))), firstn k (snd (lr_decode R n (buf ++ tail)))).
Proof.
  induction k as [|k IH]; intros n buf tail Hn Hb; [reflexivity|]. destruct n as [|n]; [lia|]. cbn [lr_decode].
  assert (S64 : skipn 64 (buf ++ tail) = skipn 64 buf ++ tail) by (rewrite skipn_app; replace (64 - length buf) with 0 by lia; reflexivity).
  assert (L64 : 64 * k <= length (skipn 64 buf)) by (pose proof (skipn_length 64 buf) as SL; rewrite SL; lia).
  assert (HK : k <= n) by lia. rewrite S64, (IH n (skipn 64 buf) tail HK L64). destruct (lr_decode R n (skipn 64 buf ++ tail)) as [Ls Rs]. cbn [fst snd]. rewrite !firstn_cons.
  assert (F32 : firstn 32 (buf ++ tail) = firstn 32 buf) by (rewrite firstn_app; replace (32 - length buf) with 0 by lia; rewrite firstn_O, app_nil_r; reflexivity).
  assert (S32 : firstn 32 (skipn 32 (buf ++ tail)) = firstn 32 (skipn 32 buf)).
  { rewrite skipn_app. replace (32 - length buf) with 0 by lia. change (skipn 0 tail) with tail. rewrite firstn_app, skipn_length. replace (32 - (length buf - 32)) with 0 by lia. rewrite firstn_O, app_nil_r. reflexivity. }
  rewrite F32, S32. reflexivity.
Qed.
Lemma ipp_tail p0 r r' tail p : fault_free r -> fault_free r' -> rbytes r = rbytes r' ++ tail -> (Z.of_nat (length (rbytes r)) < 2 ^ 38)%Z ->
  fst (exec (ipp_Decode R p0) r) = (p, Ok tt) -> 64 <= length (rbytes r') -> let n := length (rbytes r') - 64 in
  fst (exec (ipp_Decode R p0) r') =
    if Nat.eqb (n mod 32) 0 then (mkIPP R (firstn (n / 64) (ip_L R p)) (firstn (n / 64) (ip_R R p)) (ip_A R p) (ip_B R p), Ok tt)
    else (mkIPP R (ip_L R p0) (ip_R R p0) (ip_A R p) (ip_B R p), Err "proof was not formatted correctly"%string).
Proof.
  intros F F' E ZB X L. cbn zeta. destruct (split64 _ L) as (A & B & buf & E' & LA & LB).
  assert (E0 : rbytes r = A ++ B ++ (buf ++ tail)) by (rewrite E, E', <- !app_assoc; reflexivity).
  assert (LE : length (rbytes r') - 64 = length buf) by (rewrite E', !app_length; lia). rewrite LE.
  assert (DB : forall n, (n <= length (rbytes r))%nat -> (Z.of_nat (n / 64) < 2 ^ 32)%Z).
  { intros n Hn. rewrite Nat2Z.inj_div. change (Z.of_nat 64) with 64%Z. change (2 ^ 38)%Z with (64 * 2 ^ 32)%Z in ZB. apply Z.div_lt_upper_bound; [reflexivity|]. lia. }
  assert (LR : length (rbytes r) = 64 + length buf + length tail) by (rewrite E0, !app_length; lia).
  destruct (Nat.eq_dec (length (buf ++ tail) mod 32) 0) as [M|M].
  - rewrite (ipp_decode_gen p0 r A B (buf ++ tail) F LA LB E0 M) in X by (apply DB; rewrite app_length; lia). cbn [fst] in X.
    pose proof (lr_prefix (length buf / 64) (length (buf ++ tail) / 64) buf tail) as P. destruct (lr_decode R (length (buf ++ tail) / 64) (buf ++ tail)) as [Ls Rs]. cbn [fst snd] in P.
    apply (f_equal fst) in X. cbn [fst] in X. subst p. cbn [ip_L ip_R ip_A ip_B]. destruct (Nat.eqb_spec (length buf mod 32) 0) as [M'|M'].
    + rewrite (ipp_decode_gen p0 r' A B buf F' LA LB E' M') by (apply DB; lia). cbn [fst]. rewrite P; [reflexivity| |].
      * apply Nat.div_le_mono; [lia|]. rewrite app_length. lia.
      * pose proof (Nat.div_mod (length buf) 64 ltac:(lia)). lia.
    + exact (ipp_odd R p0 r' A B buf F' LA LB E' M').
  - rewrite (ipp_odd R p0 r A B (buf ++ tail) F LA LB E0 M) in X. apply (f_equal (fun x => match snd x with Ok _ => true | _ => false end)) in X. cbn in X. discriminate X.
Qed.

(** what is made of a range proof of which only the rounds are incomplete *)
Definition cut_proof (q : proof R) (n : nat) : res (proof R) :=
  if Nat.eqb (n mod 32) 0 then
    Ok (mkProof R (pf_V R q) (pf_A R q) (pf_S R q) (pf_T1 R q) (pf_T2 R q) (pf_taux R q) (pf_mu R q) (pf_t R q)
      match pf_ip R q with Some ip => Some (mkIPP R (firstn (n / 64) (ip_L R ip)) (firstn (n / 64) (ip_R R ip)) (ip_A R ip) (ip_B R ip)) | None => None end)
  else Err "proof was not formatted correctly"%string.
Lemma bind_keep {A B} (p : rprog (res A)) (f : A -> rprog (res B)) (k : nat) r r' tail q :
  bounded p -> (forall a, fst (exec p r) = Ok a -> asked p r = k) -> fault_free r -> fault_free r' -> rbytes r = rbytes r' ++ tail -> k <= length (rbytes r') ->
  fst (exec (let? x := p in f x) r) = Ok q ->
  exists a r1 r1', fst (exec p r) = Ok a /\ fst (exec (f a) r1) = Ok q /\ fst (exec (let? x := p in f x) r') = fst (exec (f a) r1') /\ fault_free r1 /\ fault_free r1' /\ rbytes r1 = rbytes r1' ++ tail /\ length (rbytes r') = k + length (rbytes r1').
Proof.
  intros B0 K F F' E L X. rewrite exec_rbind in X. rewrite exec_rbind. destruct (exec p r) as [[a|e|] r1] eqn:EP; cbn [fst] in *; try discriminate X.
  specialize (K a eq_refl). destruct (keep p r r' tail B0 F F' E ltac:(lia)) as (K1 & K2 & K3 & K4 & K5). rewrite EP in *. cbn [fst snd] in *.
  destruct (exec p r') as [x r1'] eqn:EP'. cbn [fst snd] in *. subst x. exists a, r1, r1'. rewrite K in K5. auto 10.
Qed.
Lemma rest_tail V r r' tail q : fault_free r -> fault_free r' -> rbytes r = rbytes r' ++ tail -> (Z.of_nat (length (rbytes r)) < 2 ^ 38)%Z ->
  fst (exec (pf_rest R V) r) = Ok q -> 288 <= length (rbytes r') -> fst (exec (pf_rest R V) r') = cut_proof q (length (rbytes r') - 288).
Proof.
  intros F F' E ZB X L. unfold pf_rest in *.
  do 4 (match goal with X : fst (exec (rbind (readerToPoint R) _) ?r) = Ok _ |- fst (exec _ ?r') = _ =>
    destruct (bind_keep (readerToPoint R) _ 32 r r' tail q (point_bounded R) (fun a => point_asked R r a) F F' E ltac:(lia) X) as (? & r1 & r1' & _ & X1 & -> & F1 & F1' & E1 & L1);
    assert (ZB1 : (Z.of_nat (length (rbytes r1)) < 2 ^ 38)%Z) by (rewrite E1, app_length; rewrite E, app_length in ZB; lia);
    rewrite L1 in *; clear X F F' E L1 ZB; rename r1 into r2, r1' into r2', X1 into X, F1 into F, F1' into F', E1 into E, ZB1 into ZB; try clear r; try clear r'; rename r2 into r, r2' into r' end).
  do 3 (match goal with X : fst (exec (rbind (readerToScalar R) _) ?r) = Ok _ |- fst (exec _ ?r') = _ =>
    destruct (bind_keep (readerToScalar R) _ 32 r r' tail q (scalar_bounded R) (fun a => scalar_asked R r a) F F' E ltac:(lia) X) as (? & r1 & r1' & _ & X1 & -> & F1 & F1' & E1 & L1);
    assert (ZB1 : (Z.of_nat (length (rbytes r1)) < 2 ^ 38)%Z) by (rewrite E1, app_length; rewrite E, app_length in ZB; lia);
    rewrite L1 in *; clear X F F' E L1 ZB; rename r1 into r2, r1' into r2', X1 into X, F1 into F, F1' into F', E1 into E, ZB1 into ZB; try clear r; try clear r'; rename r2 into r, r2' into r' end).
  rewrite exec_rbind in X. rewrite exec_rbind. pose proof (ipp_tail (mkIPP R [] [] f0 f0) r r' tail) as T.
  destruct (exec (ipp_Decode R (mkIPP R [] [] f0 f0)) r) as [[ip [[]|e|]] r1]; cbn [fst] in *; [|discriminate X|discriminate X].
  specialize (T ip F F' E ZB eq_refl ltac:(lia)). cbn zeta in T. destruct (exec (ipp_Decode R (mkIPP R [] [] f0 f0)) r') as [[ip' res'] r1']. cbn [fst] in T.
  unfold rret in X. rewrite exec_RRet in X. cbn [fst] in X. apply (f_equal (fun x => match x with Ok q0 => q0 | _ => q end)) in X. subst q. unfold cut_proof. cbn [pf_V pf_A pf_S pf_T1 pf_T2 pf_taux pf_mu pf_t pf_ip].
  replace (_ - 288) with (length (rbytes r') - 64) by lia.
  destruct (Nat.eqb _ 0); apply pair_equal_spec in T; destruct T as [-> ->]; reflexivity.
Qed.
Lemma pf_tail p b r r' tail q : fault_free r -> fault_free r' -> rbytes r = rbytes r' ++ tail -> (Z.of_nat (length (rbytes r)) < 2 ^ 38)%Z ->
  fst (exec (pf_Decode R p b) r) = Ok q -> let k := (if b then 4 + 32 * length (pf_V R q) else 0) + 288 in k <= length (rbytes r') ->
  fst (exec (pf_Decode R p b) r') = cut_proof q (length (rbytes r') - k).
Proof.
  intros F F' E ZB X. cbn zeta. rewrite pf_Decode_rest in *. destruct b.
  - intros L. assert (VQ : exists V, fst (exec (DecodeCommitments R) r) = Ok V /\ pf_V R q = V).
    { pose proof X as X0. rewrite exec_rbind in X0. destruct (exec (DecodeCommitments R) r) as [[V|e|] r1]; cbn [fst] in X0; try discriminate X0. exists V. split; [reflexivity|]. exact (proj2 (rest_asked R V r1 q X0)). }
    destruct VQ as (V & EV & QV). rewrite QV in *.
    destruct (bind_keep (DecodeCommitments R) (pf_rest R) (4 + 32 * length V) r r' tail q (coms_bounded R)) as (V' & r1 & r1' & EV' & X1 & -> & F1 & F1' & E1 & L1); try assumption; [|lia|].
    + intros V' EV'. rewrite EV in EV'. apply (f_equal (fun x => match x with Ok v => v | _ => V end)) in EV'. subst V'. exact (coms_asked R r V EV).
    + rewrite (rest_tail V' r1 r1' tail q F1 F1' E1); [f_equal; lia| |exact X1|lia]. rewrite E1, app_length. rewrite E, app_length in ZB. lia.
  - unfold rret in *. cbn [rbind] in *. intros L. exact (rest_tail _ r r' tail q F F' E ZB X L).
Qed.
End Proofs.
