(** Property C119: two concurrent calls of Prove that both return a valid proof, one of which leaves values unblinded. *)
From Coq Require Import String ZArith List Lia Bool Arith.
From Coq Require Import Init.Byte.
From Verif Require Import GoModel GoFacts Fld Rist RistFacts RistInst SpecVector SpecIPP SpecRange VectorModel VectorFacts PedersenModel PedersenFacts SpecPedersen
  InnerProductModel InnerProductFacts IPPVerifyFacts GlobModel GlobFacts RangeProofModel SpecHonest RangeFacts RangeRun RangeProps RangeProveFacts P_RangeProof LostFacts P_Lost SpecBare BareFacts.
Import ListNotations.
Local Open Scope nat_scope.

Lemma Prove_bare R (OK : rist_ok R) v debug rs m n : 1 <= length v <= 16 -> n < pad_size (length v) ->
  dip (Z.of_nat n) (Z.of_nat (pad_size (length v))) (Prove R v debug rs) m (fst (grun (Prove R v debug (bare n (pad_size (length v)) rs)) m)).
Proof.
  intros H L. destruct (pad_cases _ H) as [EP [HL _]]. rewrite (Prove_pad v debug _ m H). rewrite Prove_tree by lia. cbn [dip]. right.
  destruct (Z.ltb_spec maxM (Z.of_nat (length v))) as [D|D]; [unfold maxM in D; lia|]. cbn [dip]. right. right.
  rewrite EP. replace (Z.of_nat (length v) + Z.of_nat (pad_size (length v) - length v))%Z with (Z.of_nat (pad_size (length v))) by lia.
  rewrite Nat2Z.id. fold (padded v).
  pose proof (prove_padded_bare OK (padded v) debug rs n) as P. cbv zeta in P. rewrite padded_length in P by exact H. apply P; lia.
Qed.

(** C119.  Prove for the values v, and at the same time Prove for n values w that are padded to the same number m
    of values, n < m.  There is a schedule in which both return: the call for w with the proof that it makes alone,
    the call for v with the one that it makes alone when the entries of sL and sR from 64 n on are all zero,
    whatever random scalars it is given for them.  M is m at the end. *)
Theorem C119_schedule R (OK : rist_ok R) v dv rs w dw rw m0 : 1 <= length v <= 16 -> 1 <= length w ->
  pad_size (length w) = pad_size (length v) -> length w < pad_size (length v) ->
  exists schedule,
  sched_run (map (call_prog R) [CProve v dv rs; CProve w dw rw]) m0 schedule =
   ([GRet (inl (fst (grun (Prove R v dv (bare (length w) (pad_size (length v)) rs)) m0)));
     GRet (inl (fst (grun (Prove R w dw rw) m0)))], Z.of_nat (pad_size (length v))).
Proof.
  intros HV HW EPW LW. destruct (pad_cases _ HV) as [EP [HL _]].
  assert (HW' : 1 <= length w <= 16) by lia. destruct (pad_cases _ HW') as [EQ [HL' _]].
  pose proof (Prove_bare R OK v dv rs m0 (length w) HV LW) as D.
  set (r := fst (grun (Prove R v dv (bare (length w) (pad_size (length v)) rs)) m0)) in *. clearbody r.
  set (fin := fun r : res (proof R) => GRet (inl r : res (proof R) + res bool)).
  destruct (dip_sched (Z.of_nat (length w)) (Z.of_nat (pad_size (length v)))
    (gbind (GGet (fun m => if Z.ltb maxM m then GRet (Err "maximum amount of values must be less than 16"%string) else
      GGet (fun m1 => GGet (fun m2 => GSet (m2 + DiffNextPow2 (u32 m1))%Z
        (prove_padded R (w ++ repeat f0 (Z.to_nat (DiffNextPow2 (u32 m1)))) dw rw))))) fin)
    (gbind (prove_padded R (padded w) dw rw) fin) (inl r) 4)
    with (p := gbind (Prove R v dv rs) fin) (m := m0) as [s ES].
  - intros pool EK. cbn [repeat sched_run]. rewrite EK. cbn [gbind gstep].
    destruct (Z.ltb_spec maxM (Z.of_nat (length w))) as [C|C]; [unfold maxM in C; lia|]. cbn [gbind].
    assert (LP : 1 < length pool) by (apply nth_error_Some; congruence).
    rewrite upd_same by exact LP. cbn [gstep]. rewrite upd_same by (rewrite upd_length; exact LP). cbn [gstep].
    rewrite upd_same by (rewrite !upd_length; exact LP). cbn [gstep]. rewrite !upd_upd. rewrite EQ, Nat2Z.id. f_equal. lia.
  - apply (dip_left _ _ _ _ r); [reflexivity|exact D].
  - exists s. cbn [map].
    match type of ES with sched_run [_; ?q] _ _ = _ => assert (EC : call_prog R (CProve w dw rw) = q) by (cbn [call_prog]; rewrite Prove_tree by exact HW; reflexivity) end.
    rewrite EC. cbn [call_prog]. fold fin. rewrite ES.
    assert (RW : grun (Prove R w dw rw) m0 = grun (prove_padded R (padded w) dw rw) (Z.of_nat (pad_size (length v)))).
    { rewrite (Prove_pad w dw rw m0 HW'), EPW. reflexivity. }
    rewrite RW.
    assert (RO : snd (grun (prove_padded R (padded w) dw rw) (Z.of_nat (pad_size (length v)))) = Z.of_nat (pad_size (length v))).
    { apply readonly_run. apply prove_padded_readonly. }
    rewrite grun_bind. rewrite RO. reflexivity.
Qed.
Print Assumptions C119_schedule.
(** Verify, with M as the calls leave it, accepts that proof (as C30). *)
Theorem C119_accepted R (OK : rist_ok R) v dv rs n m0 p c : 1 <= length v <= 16 ->
  let m := pad_size (length v) in
  fst (grun (Prove R v dv (bare n m rs)) m0) = Ok p -> Forall (fun a => (to_Z a < 2 ^ 64)%Z) v ->
  (forall ip, pf_ip R p = Some ip -> Forall (fun u => u <> f0) (challenges R [] (ip_L R ip) (ip_R R ip))) ->
  grun (Verify R c p) (Z.of_nat m) = (Ok true, Z.of_nat m).
Proof.
  intros H m E HV HC. apply (C30_complete R OK v dv (bare n m rs) m0); [|exact HV|exact HC].
  rewrite <- E. rewrite (Prove_pad v dv _ m0 H). fold m.
  rewrite <- (readonly_run (prove_padded R (padded v) dv (bare n m rs)) (Z.of_nat m)) at 3 by apply prove_padded_readonly. apply surjective_pairing.
Qed.
Print Assumptions C119_accepted.
(** In it the entries of l(x) and r(x) for the bits b of the values from n on are b - z and
    (b - 1 + z) y^i + z^(j+2) 2^k: they do not depend on the random scalars, but for the challenges. *)
Theorem C119_plain R v rs n i b : 1 <= length v <= 16 ->
  let m := pad_size (length v) in
  let h := hin R (padded v) (bare n m rs) in
  64 * n <= i -> nth_error (allbits (padded v)) i = Some b -> hy h <> f0 ->
  nth_error (hl h) i = Some (fsub b (hz h)) /\
  nth_error (hr h) i = Some (fadd (fmul (fadd (fsub b f1) (hz h)) (fpow (hy h) i)) (fmul (fpow (hz h) (i / 64 + 2)) (fpow two (i mod 64)))).
Proof.
  intros H m h LI EB NY.
  assert (HM : hm h = m) by (unfold h; rewrite hm_hin; apply padded_length; exact H).
  assert (LB : i < 64 * m).
  { assert (X : i < length (allbits (padded v))) by (apply nth_error_Some; congruence). rewrite allbits_length, padded_length in X by exact H. exact X. }
  assert (LP : length (padded v) = m) by (apply padded_length; exact H).
  assert (EL : nth_error (h_sL h) i = Some f0).
  { unfold h, hin. cbn [h_sL]. rewrite LP. rewrite nth_error_map_seq by exact LB. f_equal. apply bare_zero. lia. }
  assert (ER : nth_error (h_sR h) i = Some f0).
  { unfold h, hin. cbn [h_sR]. rewrite LP. rewrite nth_error_map_seq by exact LB. f_equal. apply bare_zero. lia. }
  assert (EA : nth_error (haL h) i = Some b) by exact EB.
  assert (EY : nth_error (hyp h) i = Some (fpow (hy h) i)).
  { unfold hyp. rewrite HM, cpowers_nz by exact NY. apply nth_error_powers. exact LB. }
  assert (E1 : nth_error (hr1 h) i = Some (fmul (fpow (hy h) i) f0)) by (apply zipw_nth; assumption).
  unfold hl, hr, vadd. split.
  - rewrite (zipw_nth fadd _ _ i (fsub b (hz h)) (fmul (hx h) f0)).
    + f_equal. ring.
    + unfold hl0. rewrite nth_error_map, EA. reflexivity.
    + unfold vscale. rewrite nth_error_map, EL. reflexivity.
  - rewrite (zipw_nth fadd _ _ i (fadd (fmul (fadd (fsub b f1) (hz h)) (fpow (hy h) i)) (fmul (fpow (hz h) (i / 64 + 2)) (fpow two (i mod 64))))
      (fmul (hx h) (fmul (fpow (hy h) i) f0))).
    + f_equal. ring.
    + unfold hr0, vadd. apply zipw_nth; [|rewrite HM; apply z_two_nth; exact LB].
      apply zipw_nth; [|exact EY]. unfold haR. rewrite !nth_error_map, EA. reflexivity.
    + unfold vscale. rewrite nth_error_map, E1. reflexivity.
Qed.
Print Assumptions C119_plain.

(** an instance with all hashes 1: Prove for 5, 6, 7, 8 and Prove for 1, 2, 3; both proofs are accepted, and the first
    has no blinding at the bits of 8 *)
Example C119_ex : exists p q schedule,
  sched_run (map (call_prog tiny) [CProve [of_Z 5; of_Z 6; of_Z 7; of_Z 8] false (fun _ => f1); CProve [of_Z 1; of_Z 2; of_Z 3] false (fun _ => f1)]) 0%Z schedule
    = ([GRet (inl (Ok p)); GRet (inl (Ok q))], 4%Z) /\
  grun (Verify tiny two p) 4%Z = (Ok true, 4%Z) /\ grun (Verify tiny two q) 4%Z = (Ok true, 4%Z) /\
  nth_error (allbits (padded [of_Z 5; of_Z 6; of_Z 7; of_Z 8])) 195 = Some f1.
Proof.
  set (v := [of_Z 5; of_Z 6; of_Z 7; of_Z 8]). set (w := [of_Z 1; of_Z 2; of_Z 3]). set (rs := fun _ : nat => f1).
  assert (TOK : rist_ok tiny) by apply fin_rist_ok.
  destruct (C119_schedule tiny TOK v false rs w false rs 0 ltac:(cbn; lia) ltac:(cbn; lia) eq_refl ltac:(vm_compute; lia)) as [s ES].
  destruct (Prove_run TOK w rs 0 ltac:(cbn; lia)) as [iq [_ EQ]].
  destruct (Prove_run TOK v (bare (length w) (pad_size (length v)) rs) 0 ltac:(cbn; lia)) as [ip [_ EP]].
  assert (Z1 : zero_challenge (hin tiny (padded w) rs) = false) by reflexivity.
  assert (Z2 : zero_challenge (hin tiny (padded v) (bare (length w) (pad_size (length v)) rs)) = false) by reflexivity.
  rewrite Z1 in EQ. rewrite Z2 in EP. rewrite EP, EQ in ES. do 3 eexists. split; [exact ES|]. split; [|split].
  - change 4%Z with (Z.of_nat (pad_size (length v))).
    apply (C119_accepted tiny TOK v false rs (length w) 0%Z); [cbn; lia|rewrite EP; reflexivity|repeat constructor|]. intros ip' _. apply tiny_challenges.
  - change 4%Z with (Z.of_nat (pad_size (length w))).
    apply (C30_complete tiny TOK w false rs 0); [exact EQ|repeat constructor|]. intros ip' _. apply tiny_challenges.
  - vm_compute. reflexivity.
Qed.
