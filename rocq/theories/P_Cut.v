(** Property C122: encoded range proofs with bytes missing at or added to the end *)
From Coq Require Import String ZArith List Lia Bool Arith.
From Coq Require Import Init.Byte.
From Verif Require Import GoModel GoFacts ReadModel ReadFacts GlobModel GlobFacts Fld Rist RistFacts RistInst SpecTrunc
  PedersenModel InnerProductModel SpecRange RangeProofModel SpecDecode DecodeFacts StreamFacts TruncFacts TruncTail AnyMFacts P_RangeProof P_Decode P_Trunc P_Work P_RangeSim.
Import ListNotations.
Local Open Scope nat_scope.

Lemma scalars_differ R ip ip' m : length (ip_L R ip) = length (ip_R R ip) -> length (ip_L R ip') = length (ip_R R ip') -> length (ip_L R ip') <> length (ip_L R ip) ->
  ip_scalars R ip = ((64 * m) mod 2 ^ 32)%Z -> ip_scalars R ip' <> ((64 * m) mod 2 ^ 32)%Z.
Proof.
  intros E E' N S S'. rewrite <- S in S'. assert (D : ((64 * m) mod 2 ^ 32 = 64 * (m mod 2 ^ 26))%Z) by (change (2 ^ 32)%Z with (64 * 2 ^ 26)%Z; apply Z.mul_mod_distr_l; discriminate).
  rewrite D in S. assert (NE1 : ip_scalars R ip <> 1%Z) by lia. unfold ip_scalars in *. rewrite E, E', !Nat.eqb_refl, <- E, <- E' in *.
  destruct (Nat.ltb_spec (length (ip_L R ip)) 32); [|contradiction]. destruct (Nat.ltb_spec (length (ip_L R ip')) 32).
  - apply N. apply Nat2Z.inj. apply (Z.pow_inj_r 2); lia.
  - rewrite <- S' in NE1. contradiction.
Qed.
Lemma count_of_verify R (OK : rist_ok R) c p ip m v : pf_ip R p = Some ip -> fst (grun (Verify R c p) m) = Ok v -> ip_scalars R ip = ((64 * m) mod 2 ^ 32)%Z.
Proof.
  intros EI V. destruct (Z.eq_dec (ip_scalars R ip) ((64 * m) mod 2 ^ 32)%Z) as [E|E]; [exact E|]. rewrite (C112_checked_later R OK c p ip m EI E) in V. discriminate V.
Qed.
Lemma rounds_small R ip m : length (ip_L R ip) = length (ip_R R ip) -> ip_scalars R ip = ((64 * m) mod 2 ^ 32)%Z -> length (ip_L R ip) < 32.
Proof.
  intros E S. assert (D : ((64 * m) mod 2 ^ 32 = 64 * (m mod 2 ^ 26))%Z) by (change (2 ^ 32)%Z with (64 * 2 ^ 26)%Z; apply Z.mul_mod_distr_l; discriminate).
  rewrite D in S. unfold ip_scalars in S. rewrite E, Nat.eqb_refl, <- E in S. destruct (Nat.ltb_spec (length (ip_L R ip)) 32); [assumption|lia].
Qed.

(** ** C122.  A proof for which Verify has a result, encoded and cut anywhere: Decode refuses it, or Verify refuses what Decode
    returns, whatever scalar c it draws *)
Theorem C122_shorter R (OK : rist_ok R) p ip p0 b m c v : pf_ip R p = Some ip -> length (ip_L R ip) = length (ip_R R ip) ->
  (Z.of_nat (length (pf_V R p)) < 2 ^ 32)%Z -> fst (grun (Verify R c p) m) = Ok v ->
  exists w, pf_Encode R p b w_fresh = (Ok tt, w) /\
  forall r tail, (forall e, ~ In (RFault e) r) -> delivers r ++ tail = w_out w -> tail <> [] ->
    (exists e, fst (exec (pf_Decode R p0 b) r) = Err e) \/
    exists q, fst (exec (pf_Decode R p0 b) r) = Ok q /\ forall c', fst (grun (Verify R c' q) m) = Err wrong_lengths.
Proof.
  intros EI LL BV V. pose proof (count_of_verify R OK c p ip m v EI V) as S. pose proof (rounds_small R ip m LL S) as K.
  destruct (C39_roundtrip R OK p ip p0 b EI LL ltac:(lia) BV) as (w & EW & LW & D). exists w. split; [exact EW|]. intros r tail F E T.
  rewrite (delivers_rbytes r F) in E. set (r0 := [RChunk (w_out w)]). assert (F0 : fault_free r0) by (intros e [X|[]]; discriminate X).
  assert (B0 : rbytes r0 = w_out w) by (unfold r0; cbn [rbytes]; apply app_nil_r). specialize (D r0 F0 B0). pose proof (f_equal fst D) as D1. cbn [fst] in D1.
  set (q0 := mkProof R _ _ _ _ _ _ _ _ _) in *. assert (E0 : rbytes r0 = rbytes r ++ tail) by (rewrite B0; symmetry; exact E).
  assert (VQ : (if b then 4 + 32 * length (pf_V R q0) else 0) = if b then 4 + 32 * length (pf_V R p) else 0) by (destruct b; [cbn [q0 pf_V]; rewrite map_length|]; reflexivity).
  assert (LR : length (rbytes r) < length (w_out w)) by (rewrite <- E, app_length; destruct tail; [contradiction|cbn [length]; lia]).
  destruct (Nat.lt_ge_cases (length (rbytes r)) ((if b then 4 + 32 * length (pf_V R q0) else 0) + 288)) as [C|C].
  - left. eexists. exact (pf_cut R p0 b r0 r tail q0 F0 F E0 D1 C).
  - assert (ZB : (Z.of_nat (length (rbytes r0)) < 2 ^ 38)%Z) by (rewrite B0, LW; destruct b; lia).
    pose proof (pf_tail R p0 b r0 r tail q0 F0 F E0 ZB D1) as P. cbn zeta in P. specialize (P C). rewrite P. clear P. rewrite VQ in *. unfold cut_proof.
    destruct (Nat.eqb _ 0); [right|left; eexists; reflexivity]. eexists. split; [reflexivity|]. intros c'.
    eapply (C112_checked_later R OK c'); [cbn [pf_ip q0]; reflexivity|]. set (n := length (rbytes r) - _) in *.
    assert (N : n / 64 < length (ip_L R ip)) by (apply Nat.div_lt_upper_bound; [lia|]; unfold n; destruct b; lia).
    apply (scalars_differ R ip); cbn [ip_L ip_R]; rewrite ?firstn_length; [exact LL|rewrite LL; reflexivity|lia|exact S].
Qed.
Print Assumptions C122_shorter.

(** the number of rounds of a decoded proof from the length of the input *)
Lemma coms_len R l : forall b, seq_of (is_commitment R f0) b l -> length b = 32 * length l.
Proof.
  induction l as [|x l IH]; intros b H; [apply seq_nil in H; subst; reflexivity|]. apply seq_cons in H. destruct H as (e & b' & -> & [[L _] _] & H). rewrite app_length, L, (IH b' H). cbn [length]. lia.
Qed.
Lemma pf_rounds R p0 b r q : fault_free r -> (Z.of_nat (length (rbytes r)) < 2 ^ 38)%Z -> fst (exec (pf_Decode R p0 b) r) = Ok q ->
  exists ip x, pf_ip R q = Some ip /\ length (ip_L R ip) = length (ip_R R ip) /\
    length (rbytes r) = (if b then 4 + 32 * length (pf_V R q) else 0) + 288 + 64 * length (ip_L R ip) + x /\ (x = 0 \/ x = 32).
Proof.
  intros F Z X. destruct (C73_range_proof R p0 b r F) as (D & _ & D3); [rewrite (rbytes_concat r F); exact Z|]. rewrite (rbytes_concat r F) in D.
  destruct (exec (pf_Decode R p0 b) r) as [x r'] eqn:EX. cbn [fst] in X. subst x. rewrite (D3 q r' eq_refl) in D. apply (proj1 (D q)) in EX || (pose proof (proj1 (D q) eq_refl) as EX').
  match goal with H : is_proof _ _ _ _ _ |- _ => destruct H as (bV & bA & bS & b1 & b2 & b3 & b4 & b5 & bip & ip & EB & HV & [LA _] & [LS _] & [L1 _] & [L2 _] & [L3 _] & [L4 _] & [L5 _] & EI & I) end.
  destruct I as (ba & bb & blr & extra & -> & [La _] & [Lb _] & LL & SQ & HX). destruct (lr_decode_inv R _ _ blr extra LL SQ) as [N _].
  exists ip, (length extra). split; [exact EI|]. split; [exact LL|]. split; [|exact HX]. rewrite EB, !app_length.
  assert (LV : length bV = if b then 4 + 32 * length (pf_V R q) else 0).
  { destruct b; [|destruct HV as [-> _]; reflexivity]. destruct HV as (n & b' & -> & [_ ->] & HS). rewrite app_length, (coms_len R _ _ HS). reflexivity. }
  rewrite LV. lia.
Qed.

(** With bytes added: the same, except that 32 added bytes (and, of course, none) make no difference *)
Theorem C122_longer R (OK : rist_ok R) p ip p0 b m c v : pf_ip R p = Some ip -> length (ip_L R ip) = length (ip_R R ip) ->
  (Z.of_nat (length (pf_V R p)) < 2 ^ 32)%Z -> fst (grun (Verify R c p) m) = Ok v ->
  exists w, pf_Encode R p b w_fresh = (Ok tt, w) /\
  forall r extra, (forall e, ~ In (RFault e) r) -> delivers r = w_out w ++ extra -> (Z.of_nat (length (delivers r)) < 2 ^ 38)%Z -> extra <> [] ->
    (exists e, fst (exec (pf_Decode R p0 b) r) = Err e) \/
    (exists q, fst (exec (pf_Decode R p0 b) r) = Ok q /\ forall c', fst (grun (Verify R c' q) m) = Err wrong_lengths) \/
    (length extra = 32 /\ fst (exec (pf_Decode R p0 b) r) = fst (exec (pf_Decode R p0 b) [RChunk (w_out w)])).
Proof.
  intros EI LL BV V. pose proof (count_of_verify R OK c p ip m v EI V) as S. pose proof (rounds_small R ip m LL S) as K.
  destruct (C39_roundtrip R OK p ip p0 b EI LL ltac:(lia) BV) as (w & EW & LW & D). exists w. split; [exact EW|]. intros r extra F E ZB T.
  rewrite (delivers_rbytes r F) in *. set (r0 := [RChunk (w_out w)]). assert (F0 : fault_free r0) by (intros e [X|[]]; discriminate X).
  assert (B0 : rbytes r0 = w_out w) by (unfold r0; cbn [rbytes]; apply app_nil_r). specialize (D r0 F0 B0). pose proof (f_equal fst D) as D1. cbn [fst] in D1. clear D.
  pose proof (exec_calm _ (pf_Decode_calm R p0 b) r) as NP. destruct (fst (exec (pf_Decode R p0 b) r)) as [q|e|] eqn:X; [right|left; eauto|contradiction].
  destruct (pf_rounds R p0 b r q F ZB X) as (ip' & x & EI' & LL' & LR & HX).
  assert (E0 : rbytes r = rbytes r0 ++ extra) by (rewrite B0; exact E).
  destruct (Nat.lt_ge_cases (length (rbytes r0)) ((if b then 4 + 32 * length (pf_V R q) else 0) + 288)) as [C|C].
  { rewrite (pf_cut R p0 b r r0 extra q F F0 E0 X C) in D1. discriminate D1. }
  pose proof (pf_tail R p0 b r r0 extra q F F0 E0 ZB X) as P. cbn zeta in P. specialize (P C). rewrite D1 in P |- *. unfold cut_proof in P. destruct (Nat.eqb _ 0); [|discriminate P].
  assert (VQ : length (pf_V R q) = if b then length (pf_V R p) else length (pf_V R p0)).
  { apply (f_equal (fun y => match y with Ok y => length (pf_V R y) | _ => 0 end)) in P. cbn [pf_V] in P. rewrite <- P. destruct b; [apply map_length|reflexivity]. }
  assert (VK : (if b then 4 + 32 * length (pf_V R q) else 0) = if b then 4 + 32 * length (pf_V R p) else 0) by (destruct b; [rewrite VQ|]; reflexivity).
  rewrite E, app_length, LW in LR. rewrite VK in *. assert (XL : 64 * length (ip_L R ip) + length extra = 64 * length (ip_L R ip') + x) by (destruct b; lia). rewrite B0, LW in P.
  destruct (Nat.eq_dec (length (ip_L R ip')) (length (ip_L R ip))) as [SM|DF].
  - right. assert (LX : length extra = 32) by (destruct extra; [contradiction|cbn [length] in *; lia]). split; [exact LX|].
    replace (32 * (9 + 2 * length (ip_L R ip)) + (if b then 4 + 32 * length (pf_V R p) else 0) - ((if b then 4 + 32 * length (pf_V R p) else 0) + 288)) with (length (ip_L R ip) * 64) in P by (destruct b; lia).
    rewrite Nat.div_mul in P by lia. rewrite EI' in P. rewrite <- SM in P at 1. rewrite firstn_all in P. rewrite <- SM, LL', firstn_all in P. symmetry. rewrite P. do 2 f_equal.
    destruct q as [q1 q2 q3 q4 q5 q6 q7 q8 q9]; cbn [pf_V pf_A pf_S pf_T1 pf_T2 pf_taux pf_mu pf_t pf_ip] in *. rewrite EI'. destruct ip' as [i1 i2 i3 i4]; reflexivity.
  - left. exists q. split; [reflexivity|]. intros c'. apply (C112_checked_later R OK c' q ip' m EI'). exact (scalars_differ R ip ip' m LL LL' DF S).
Qed.
Print Assumptions C122_longer.

(** an accepted proof of six rounds *)
Example C122_ex : pf_ip tiny (ex_proof f0) = Some (mkIPP tiny (repeat f0 6) (repeat f0 6) f1 f1) /\ (Z.of_nat (length (pf_V tiny (ex_proof f0))) < 2 ^ 32)%Z /\
  forall c, fst (grun (Verify tiny c (ex_proof f0)) 1) = Ok true.
Proof. split; [reflexivity|]. split; [reflexivity|]. intros c. apply (ex_accepted _ c). Qed.
