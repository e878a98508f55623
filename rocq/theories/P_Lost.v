(** Property C117: two concurrent calls of Prove that both return a proof without an error, one of which Verify
    refuses. *)
From Coq Require Import String ZArith List Lia Bool Arith Field.
From Coq Require Import Init.Byte.
From Verif Require Import GoModel GoFacts Fld Rist RistFacts RistInst SpecVector SpecIPP SpecRange VectorModel VectorFacts PedersenModel PedersenFacts SpecPedersen
  InnerProductModel InnerProductFacts IPPVerifyFacts GlobModel GlobFacts RangeProofModel SpecHonest RangeFacts RangeRun RangeProps RangeProveFacts P_RangeProof SpecLost LostFacts.
Import ListNotations.
Local Open Scope nat_scope.

Lemma Prove_dip R (OK : rist_ok R) v rs m n : 1 <= length v <= 16 -> n < pad_size (length v) ->
  let h := hin R (padded v) rs in
  exists ip, lip h n = Ok ip /\
  dip (Z.of_nat n) (Z.of_nat (pad_size (length v))) (Prove R v false rs) m (if lzero_challenge h n then Err msg0 else Ok (lproof h n ip)).
Proof.
  intros H L h. destruct (pad_cases _ H) as [EP [HL _]]. destruct (pad_pow _ H) as [k [Hk E]].
  pose proof (hin_padded_wf (R := R) v rs H) as WF. destruct (lip_ok OK h n WF) with (k := k) as [ip [E1 _]]; [|exact Hk| |].
  { unfold h. rewrite hm_hin, padded_length by exact H. lia. }
  { unfold h. rewrite hm_hin, padded_length by exact H. exact E. }
  exists ip. split; [exact E1|]. rewrite Prove_tree by lia. cbn [dip]. right.
  destruct (Z.ltb_spec maxM (Z.of_nat (length v))) as [D|D]; [unfold maxM in D; lia|]. cbn [dip]. right. right.
  rewrite EP. replace (Z.of_nat (length v) + Z.of_nat (pad_size (length v) - length v))%Z with (Z.of_nat (pad_size (length v))) by lia.
  rewrite Nat2Z.id. fold (padded v).
  pose proof (prove_padded_dip OK (padded v) rs n) as P. cbv zeta in P. rewrite padded_length in P by exact H. fold h in P. rewrite E1 in P.
  cbn [bind] in P. apply P; lia.
Qed.

(** C117.  Prove for the values v, and at the same time Prove for n values w that are padded to the same number m
    of values, n < m.  There is a schedule in which both return, without an error (unless a challenge is zero):
    the call for w with the proof that it makes alone, the call for v with the proof [lproof], in which the terms
    of the values from n on are missing in r(X).  M is m at the end. *)
Theorem C117_schedule R (OK : rist_ok R) v rs w dw rw m0 : 1 <= length v <= 16 -> 1 <= length w ->
  pad_size (length w) = pad_size (length v) -> length w < pad_size (length v) ->
  let h := hin R (padded v) rs in
  exists ip schedule, lip h (length w) = Ok ip /\
  sched_run (map (call_prog R) [CProve v false rs; CProve w dw rw]) m0 schedule =
   ([GRet (inl (if lzero_challenge h (length w)
                then Err "[Prove] - One of the challenge scalars, x, y, or z was equal to zero. Generate proof again"%string
                else Ok (lproof h (length w) ip)));
     GRet (inl (fst (grun (Prove R w dw rw) m0)))], Z.of_nat (pad_size (length v))).
Proof.
  intros HV HW EPW LW h. destruct (pad_cases _ HV) as [EP [HL _]].
  assert (HW' : 1 <= length w <= 16) by lia. destruct (pad_cases _ HW') as [EQ [HL' _]].
  destruct (Prove_dip R OK v rs m0 (length w) HV LW) as [ip [E D]]. fold h in E, D.
  exists ip.
  set (fin := fun r : res (proof R) => GRet (inl r : res (proof R) + res bool)).
  destruct (dip_sched (Z.of_nat (length w)) (Z.of_nat (pad_size (length v)))
    (gbind (GGet (fun m => if Z.ltb maxM m then GRet (Err "maximum amount of values must be less than 16"%string) else
      GGet (fun m1 => GGet (fun m2 => GSet (m2 + DiffNextPow2 (u32 m1))%Z
        (prove_padded R (w ++ repeat f0 (Z.to_nat (DiffNextPow2 (u32 m1)))) dw rw))))) fin)
    (gbind (prove_padded R (padded w) dw rw) fin) (inl (if lzero_challenge h (length w) then Err msg0 else Ok (lproof h (length w) ip))) 4)
    with (p := gbind (Prove R v false rs) fin) (m := m0) as [s ES].
  - intros pool EK. cbn [repeat sched_run]. rewrite EK. cbn [gbind gstep].
    destruct (Z.ltb_spec maxM (Z.of_nat (length w))) as [C|C]; [unfold maxM in C; lia|]. cbn [gbind].
    assert (LP : 1 < length pool) by (apply nth_error_Some; congruence).
    rewrite upd_same by exact LP. cbn [gstep]. rewrite upd_same by (rewrite upd_length; exact LP). cbn [gstep].
    rewrite upd_same by (rewrite !upd_length; exact LP). cbn [gstep]. rewrite !upd_upd. rewrite EQ, Nat2Z.id. f_equal. lia.
  - apply (dip_left _ _ _ _ (if lzero_challenge h (length w) then Err msg0 else Ok (lproof h (length w) ip))); [reflexivity|exact D].
  - exists s. split; [exact E|]. cbn [map].
    match type of ES with sched_run [_; ?q] _ _ = _ => assert (EC : call_prog R (CProve w dw rw) = q) by (cbn [call_prog]; rewrite Prove_tree by exact HW; reflexivity) end.
    rewrite EC. cbn [call_prog]. fold fin. rewrite ES.
    assert (RW : grun (Prove R w dw rw) m0 = grun (prove_padded R (padded w) dw rw) (Z.of_nat (pad_size (length v)))).
    { rewrite (Prove_pad w dw rw m0 HW'), EPW. reflexivity. }
    rewrite RW.
    assert (RO : snd (grun (prove_padded R (padded w) dw rw) (Z.of_nat (pad_size (length v)))) = Z.of_nat (pad_size (length v))).
    { apply readonly_run. apply prove_padded_readonly. }
    rewrite grun_bind. rewrite RO. reflexivity.
Qed.
Print Assumptions C117_schedule.
(** Verify of this proof, with M = m as the calls leave it, and values below 2^64: the terms that are missing have
    to cancel by accident. *)
Theorem C117_check R (OK : rist_ok R) v rs n ip c : 1 <= length v <= 16 -> n < pad_size (length v) ->
  let h := hin R (padded v) rs in
  let m := pad_size (length v) in
  let D := padd R (smul R c (lost_H (hy h) (hz h) n m)) (smul R (lost_t (hz h) n (padded v)) (rp_Base R)) in
  lip h n = Ok ip -> lzero_challenge h n = false ->
  Forall (fun u => u <> f0) (challenges R [] (ip_L R ip) (ip_R R ip)) ->
  Forall (fun a => (to_Z a < 2 ^ 64)%Z) v ->
  (D = pt0 R /\ grun (Verify R c (lproof h n ip)) (Z.of_nat m) = (Ok true, Z.of_nat m)) \/
  (D <> pt0 R /\ grun (Verify R c (lproof h n ip)) (Z.of_nat m) = (Err "megacheck failed"%string, Z.of_nat m)).
Proof.
  intros H L h m D EI NZ HC HV. destruct (pad_pow _ H) as [k [Hk E]].
  pose proof (hin_padded_wf (R := R) v rs H) as WF. fold h in WF.
  assert (HM : hm h = m) by (unfold h; rewrite hm_hin, padded_length by exact H; reflexivity).
  assert (NY : hy h <> f0).
  { unfold lzero_challenge in NZ. apply orb_false_iff in NZ. destruct NZ as [NZ _]. apply orb_false_iff in NZ. destruct NZ as [_ NZ].
    intros X. rewrite X, feqb_refl in NZ. discriminate. }
  pose proof (l_verify OK h n WF ltac:(lia) k ip c Hk ltac:(rewrite HM; exact E) EI NY HC) as V. rewrite HM in V. rewrite V.
  change (hv h) with (padded v). rewrite lowv_padded, (lowv_in v HV).
  assert (EP : forall P Q, psub R (smul R (fsub (fsub P P) Q) (rp_Base R)) (smul R c (lost_H (hy h) (hz h) n m)) = pneg R (padd R (smul R c (lost_H (hy h) (hz h) n m)) (smul R Q (rp_Base R)))).
  { intros P Q. lin OK. }
  rewrite EP. fold D.
  assert (ND : D = pt0 R <-> pt0 R = pneg R D).
  { split; intros X; [rewrite X; lin OK|]. assert (PP : D = pneg R (pneg R D)) by lin OK. rewrite PP, <- X. lin OK. }
  destruct (peqb R (pt0 R) (pneg R D)) eqn:B.
  - left. apply (peqb_ok R OK) in B. split; [apply ND; exact B|reflexivity].
  - right. apply (peqb_neq OK) in B. split; [intros X; apply B; apply ND; exact X|reflexivity].
Qed.
Print Assumptions C117_check.

(** It is accepted for at most one factor c, unless the missing terms are a relation between the bases H_i (all
    of whose coefficients are nonzero). *)
Theorem C117_one_factor R (OK : rist_ok R) v rs n ip c c' : 1 <= length v <= 16 -> n < pad_size (length v) ->
  let h := hin R (padded v) rs in
  let m := pad_size (length v) in
  lip h n = Ok ip -> lzero_challenge h n = false ->
  Forall (fun u => u <> f0) (challenges R [] (ip_L R ip) (ip_R R ip)) ->
  Forall (fun a => (to_Z a < 2 ^ 64)%Z) v -> c <> c' ->
  fst (grun (Verify R c (lproof h n ip)) (Z.of_nat m)) = Ok true ->
  fst (grun (Verify R c' (lproof h n ip)) (Z.of_nat m)) = Ok true ->
  lost_H (R := R) (hy h) (hz h) n m = pt0 R.
Proof.
  intros H L h m EI NZ HC HV NE A A'.
  assert (X : forall c, fst (grun (Verify R c (lproof h n ip)) (Z.of_nat m)) = Ok true ->
    padd R (smul R c (lost_H (hy h) (hz h) n m)) (smul R (lost_t (hz h) n (padded v)) (rp_Base R)) = pt0 R).
  { intros d B. destruct (C117_check R OK v rs n ip d H L EI NZ HC HV) as [[D _]|[_ D]]; [exact D|]. fold h m in D. rewrite D in B. discriminate. }
  apply X in A. apply X in A'. set (P := lost_H (hy h) (hz h) n m) in *. set (B := smul R (lost_t (hz h) n (padded v)) (rp_Base R)) in *.
  assert (E : smul R (fsub c c') P = pt0 R).
  { transitivity (psub R (padd R (smul R c P) B) (padd R (smul R c' P) B)); [lin OK|]. rewrite A, A'. lin OK. }
  assert (ND : fsub c c' <> f0) by (intros Y; apply NE; transitivity (fadd (fsub c c') c'); [ring|rewrite Y; ring]).
  apply (smul_inj_r OK (fsub c c') _ _ ND). rewrite E. lin OK.
Qed.
Print Assumptions C117_one_factor.
Theorem C117_coef y z n m : y <> f0 -> z <> f0 -> n <= m ->
  length (lost_coef y z n m) = 64 * (m - n) /\ Forall (fun a => a <> f0) (lost_coef y z n m).
Proof.
  intros NY NZ L. unfold lost_coef. assert (NI : finv y <> f0) by (apply finv_neq0; exact NY). rewrite cpowers_nz by exact NI.
  split; [rewrite zipw_length; rewrite z_lost_length, ?skipn_length, ?powers_length; lia|].
  assert (NM : forall a b, a <> f0 -> b <> f0 -> fmul a b <> f0) by (intros a b N1 N2 E; apply fmul_integral in E; tauto).
  assert (NP : forall a i, a <> f0 -> fpow a i <> f0).
  { intros a i NA. apply fpow_neq0. exact NA. }
  assert (F2 : Forall (fun a => a <> f0) (skipn (64 * n) (powers (finv y) (64 * m)))).
  { apply Forall_forall. intros a Ha. assert (HI : In a (powers (finv y) (64 * m))) by (rewrite <- (firstn_skipn (64 * n)); apply in_or_app; right; exact Ha).
    unfold powers in HI. apply in_map_iff in HI. destruct HI as [i [<- _]]. apply NP. exact NI. }
  assert (F1 : Forall (fun a => a <> f0) (z_lost z n m)).
  { unfold z_lost. apply Forall_concat. apply Forall_forall. intros l Hl. apply in_map_iff in Hl. destruct Hl as [j [<- _]].
    apply Forall_forall. intros a Ha. unfold vscale, powers in Ha. apply in_map_iff in Ha. destruct Ha as [b [<- Hb]].
    apply in_map_iff in Hb. destruct Hb as [i [<- _]]. apply NM; apply NP; [exact NZ|].
    intros E; apply (f_equal to_Z) in E; revert E; vm_compute; discriminate. }
  revert F1 F2. generalize (z_lost z n m) (skipn (64 * n) (powers (finv y) (64 * m))). intros a.
  induction a as [|x a IH]; intros [|b l] Fa Fl; cbn [zipw]; constructor; inversion Fa; inversion Fl; subst; [apply NM; assumption|apply IH; assumption].
Qed.
Print Assumptions C117_coef.

(** an instance with all hashes 1: Prove for 5, 6, 7 and Prove for 1, 2, 3 return, and Verify refuses the first proof *)
Lemma tiny_challenges : forall (L Rs : list (pt tiny)) hs, Forall (fun u => u <> f0) (challenges tiny hs L Rs).
Proof.
  assert (N : f1 <> f0) by (intros E; apply (f_equal to_Z) in E; revert E; vm_compute; discriminate).
  induction L as [|l L IH]; intros [|r Rs] hs; cbn [challenges]; constructor; [exact N|apply IH].
Qed.
Example C117_ex : exists p q schedule,
  sched_run (map (call_prog tiny) [CProve [of_Z 5; of_Z 6; of_Z 7] false (fun _ => f1); CProve [of_Z 1; of_Z 2; of_Z 3] false (fun _ => f1)]) 0%Z schedule
    = ([GRet (inl (Ok p)); GRet (inl (Ok q))], 4%Z) /\
  grun (Verify tiny two p) 4%Z = (Err "megacheck failed"%string, 4%Z) /\ grun (Verify tiny two q) 4%Z = (Ok true, 4%Z).
Proof.
  set (v := [of_Z 5; of_Z 6; of_Z 7]). set (w := [of_Z 1; of_Z 2; of_Z 3]). set (rs := fun _ : nat => f1).
  assert (TOK : rist_ok tiny) by apply fin_rist_ok.
  destruct (C117_schedule tiny TOK v rs w false rs 0 ltac:(cbn; lia) ltac:(cbn; lia) eq_refl ltac:(vm_compute; lia)) as [ip [s [EI ES]]].
  destruct (Prove_run TOK w rs 0 ltac:(cbn; lia)) as [iq [_ EQ]].
  assert (Z1 : zero_challenge (hin tiny (padded w) rs) = false) by reflexivity.
  assert (Z2 : lzero_challenge (hin tiny (padded v) rs) (length w) = false) by reflexivity.
  rewrite Z1 in EQ. rewrite Z2, EQ in ES. do 3 eexists. split; [exact ES|]. split.
  - destruct (C117_check tiny TOK v rs (length w) ip two ltac:(cbn; lia) ltac:(vm_compute; lia) EI Z2 (tiny_challenges _ _ _)) as [[D _]|[_ D]].
    + repeat constructor.
    + exfalso. revert D. vm_compute. discriminate.
    + exact D.
  - change 4%Z with (Z.of_nat (pad_size (length w))).
    apply (C30_complete tiny TOK w false rs 0); [exact EQ|repeat constructor|]. intros ip' _. apply tiny_challenges.
Qed.
