(** Property C112: how many scalars Verify computes before it compares a size (innerproduct.go:267-335, rangeproof.go:353-380) *)
From Coq Require Import String ZArith List Lia Bool Arith.
From Coq Require Import Init.Byte.
From Verif Require Import GoModel GoFacts ReadModel ReadFacts GlobModel GlobFacts Fld Rist RistFacts RistInst SpecVector VectorModel VectorFacts
  SpecPedersen PedersenModel PedersenFacts SpecIPP InnerProductModel SpecRange RangeProofModel SpecHonest RangeFacts RangeProps RangeMore AnyMFacts
  SpecDecode DecodeFacts P_InnerProduct P_RangeProof P_Decode.
Import ListNotations.
Local Open Scope nat_scope.

(** [ip_scalars] is the number of scalars of the third result of VerifScalars, for every proof: none when there are
    different numbers of points L and R, 2^k for k < 32 rounds, and one for more rounds *)
Theorem C112_scalars R ip : exists a b s, VerifScalars R ip = Ok (a, b, s) /\ Z.of_nat (length s) = ip_scalars R ip /\
  (0 <= ip_scalars R ip <= 2 ^ 31)%Z.
Proof.
  destruct (scalars_count ip) as (a & b & s & E & L). exists a, b, s. split; [exact E|]. split; [exact L|].
  unfold ip_scalars. destruct (Nat.eqb _ _); [|lia]. destruct (Nat.ltb_spec (length (ip_L R ip)) 32); [|lia].
  split; [lia|]. apply Z.pow_le_mono_r; lia.
Qed.
Print Assumptions C112_scalars.
(** The number of scalars does not depend on M, and is compared with uint32(64 M) only when they have been computed:
    for every M with another value the error is that of the later call of vector.Exp. *)
Theorem C112_checked_later R (OK : rist_ok R) c p ip m : pf_ip R p = Some ip -> ip_scalars R ip <> ((64 * m) mod 2 ^ 32)%Z ->
  fst (grun (Verify R c p) m) = Err wrong_lengths.
Proof. exact (verify_count c p ip m). Qed.
Print Assumptions C112_checked_later.
(** An input of 288 + 64 k bytes which Decode accepts (without commitments) has k rounds; 2^k scalars are computed. *)
Theorem C112_bytes R (OK : rist_ok R) old r p c m : (forall e, ~ In (RFault e) r) ->
  let b := concat (map (fun x => match x with RChunk b => b | RFault _ => [] end) r) in
  let k := (length b - 288) / 64 in
  k < 32 -> exec (pf_Decode R old false) r = (Ok p, []) ->
  288 <= length b /\ exists ip, pf_ip R p = Some ip /\ ip_scalars R ip = (2 ^ Z.of_nat k)%Z /\
    ((2 ^ Z.of_nat k <> (64 * m) mod 2 ^ 32)%Z -> fst (grun (Verify R c p) m) = Err wrong_lengths).
Proof.
  intros F b k K E. assert (Q : forall n, n < 288 + 64 * 32 -> (Z.of_nat n < 2 ^ 38)%Z) by (intros; lia).
  assert (B : length b < 288 + 64 * 32). { destruct (Nat.lt_ge_cases (length b) (288 + 64 * 32)) as [C|C]; [exact C|].
    assert (32 <= k); [|lia]. unfold k. apply Nat.div_le_lower_bound; lia. }
  destruct (C73_range_proof R old false r F (Q _ B)) as [D _]. fold b in D. apply D in E.
  destruct E as (bV & bA & bS & b1 & b2 & b3 & b4 & b5 & bip & ip & EB & [-> _] & [LA _] & [LS _] & [L1 _] & [L2 _] & [L3 _] & [L4 _] & [L5 _] & EI & I).
  destruct I as (ba & bb & blr & extra & -> & [La _] & [Lb _] & LL & SQ & X).
  destruct (lr_decode_inv R _ _ blr extra LL SQ) as [N _].
  assert (LB : length b = 288 + 64 * length (ip_L R ip) + length extra) by (rewrite EB; rewrite !app_length; cbn [length]; lia).
  split; [lia|]. exists ip. split; [exact EI|].
  assert (EK : k = length (ip_L R ip)).
  { unfold k. rewrite LB. replace (_ - 288) with (length extra + length (ip_L R ip) * 64) by lia. rewrite Nat.div_add by lia.
    rewrite Nat.div_small by lia. reflexivity. }
  assert (S : ip_scalars R ip = (2 ^ Z.of_nat k)%Z).
  { unfold ip_scalars. rewrite LL, Nat.eqb_refl, <- LL, <- EK. destruct (Nat.ltb_spec k 32); [reflexivity|lia]. }
  split; [exact S|]. intros NE. apply (verify_count c p ip m EI). change (ip_scalars R ip <> ((64 * m) mod 2 ^ 32)%Z). rewrite S. exact NE.
Qed.
Print Assumptions C112_bytes.
(** For every number of rounds there are such inputs, and whoever writes them does not need points for the rounds:
    four encodings of points can be followed by any 160 + 64 k bytes. *)
Theorem C112_inputs R (OK : rist_ok R) old q k w : k < 32 -> length w = 160 + 64 * k ->
  let b := pbytes R q ++ pbytes R q ++ pbytes R q ++ pbytes R q ++ w in
  length b = 288 + 64 * k /\ exists p, exec (pf_Decode R old false) [RChunk b] = (Ok p, []).
Proof.
  intros K LW b. assert (LB : length b = 288 + 64 * k) by (unfold b; rewrite !app_length, !(pbytes_len R OK); lia).
  split; [exact LB|].
  destruct (C73_range_proof R old false [RChunk b]) as [D [_ _]].
  { intros e [X|[]]. discriminate. }
  { cbn [map concat]. rewrite app_nil_r, LB. lia. }
  cbn [map concat] in D. rewrite app_nil_r in D.
  assert (P : is_point R (pbytes R q) q) by (split; [apply (pbytes_len R OK)|apply (pset_pbytes R OK)]).
  assert (SC : forall n (x : bytes), n + 32 <= length x -> length (firstn 32 (skipn n x)) = 32) by (intros n x HX; rewrite firstn_length, skipn_length; lia).
  assert (CUT : forall n (x : bytes), skipn n x = firstn 32 (skipn n x) ++ skipn (n + 32) x).
  { intros n x. rewrite <- (firstn_skipn 32 (skipn n x)) at 1. f_equal.
    clear. revert x. induction n as [|n IH]; intros [|y x]; [reflexivity|reflexivity|rewrite !skipn_nil; reflexivity|]. cbn [skipn Nat.add]. apply IH. }
  assert (I : exists ip, is_ipp R (skipn 96 w) ip).
  { assert (LS : length (skipn 96 w) = 64 + k * 64) by (rewrite skipn_length; lia).
    destruct (ipp_cases R (mkIPP R [] [] f0 f0) [RChunk (skipn 96 w)]) as [(ip & _ & I & _)|(_ & X & _)].
    - intros e [X|[]]. discriminate.
    - cbn [rbytes]. rewrite app_nil_r, LS. lia.
    - cbn [rbytes] in I. rewrite app_nil_r in I. exists ip. exact I.
    - exfalso. cbn [rbytes] in X. rewrite app_nil_r, LS in X. destruct X as [X|X]; [lia|].
      apply X. replace (64 + k * 64) with ((2 + 2 * k) * 32) by lia. apply Nat.mod_mul. lia. }
  destruct I as [ip I].
  exists (mkProof R (pf_V R old) q q q q (sset R (firstn 32 (skipn 0 w))) (sset R (firstn 32 (skipn 32 w))) (sset R (firstn 32 (skipn 64 w))) (Some ip)).
  apply D. exists [], (pbytes R q), (pbytes R q), (pbytes R q), (pbytes R q), (firstn 32 (skipn 0 w)), (firstn 32 (skipn 32 w)), (firstn 32 (skipn 64 w)), (skipn 96 w), ip.
  split.
  { cbn [app]. unfold b. do 4 f_equal. transitivity (skipn 0 w); [reflexivity|].
    etransitivity; [apply (CUT 0 w)|]. f_equal. etransitivity; [apply (CUT 32 w)|]. f_equal. etransitivity; [apply (CUT 64 w)|]. reflexivity. }
  split; [split; reflexivity|]. do 4 (split; [exact P|]).
  split; [split; [apply SC; lia|reflexivity]|]. split; [split; [apply SC; lia|reflexivity]|]. split; [split; [apply SC; lia|reflexivity]|].
  split; [reflexivity|exact I].
Qed.
Print Assumptions C112_inputs.
(** 2272 bytes: 2^31 scalars, that is 64 GiB, for every value M may have after Prove *)
Theorem C112_largest R (OK : rist_ok R) old q w c m : length w = 2144 -> (0 <= m < 2 ^ 25)%Z ->
  let b := pbytes R q ++ pbytes R q ++ pbytes R q ++ pbytes R q ++ w in
  length b = 2272 /\ exists p ip, exec (pf_Decode R old false) [RChunk b] = (Ok p, []) /\ pf_ip R p = Some ip /\
    ip_scalars R ip = (2 ^ 31)%Z /\ fst (grun (Verify R c p) m) = Err wrong_lengths.
Proof.
  intros LW HM b. destruct (C112_inputs R OK old q 31 w ltac:(lia) ltac:(lia)) as [L [p E]]. fold b in L, E. split; [exact L|].
  assert (CB : concat (map (fun x => match x with RChunk b => b | RFault _ => [] end) [RChunk b]) = b) by (cbn [map concat]; apply app_nil_r).
  assert (HK : (length (concat (map (fun x => match x with RChunk b => b | RFault _ => [] end) [RChunk b])) - 288) / 64 = 31) by (rewrite CB, L; reflexivity).
  destruct (C112_bytes R OK old [RChunk b] p c m) as (_ & ip & EI & S & V).
  - intros e [X|[]]. discriminate.
  - rewrite HK. lia.
  - exact E.
  - rewrite HK in S, V. exists p, ip. split; [exact E|]. split; [exact EI|]. split; [exact S|]. apply V.
    rewrite Z.mod_small by lia. lia.
Qed.
Print Assumptions C112_largest.
Example C112_ex : ip_scalars toy (mkIPP toy (repeat f1 31) (repeat f1 31) f0 f0) = 2147483648%Z /\ ip_scalars toy (mkIPP toy (repeat f1 32) (repeat f1 32) f0 f0) = 1%Z /\
  length (repeat x00 2144) = 2144 /\ (0 <= 1 < 2 ^ 25)%Z /\ pset toy (pbytes toy f1) = Some f1.
Proof. split; [reflexivity|]. split; [reflexivity|]. split; [apply repeat_length|]. split; [lia|apply (pset_pbytes toy toy_ok)]. Qed.
