(** Properties C29-C39 and the range proof part of C28: rangeproof *)
From Coq Require Import String ZArith List Lia Bool Arith Field.
From Coq Require Import Init.Byte Strings.Byte.
From Verif Require Import GoModel GoFacts ReadModel ReadFacts GlobModel GlobFacts Fld Rist RistFacts RistInst SpecVector VectorModel VectorFacts
  SpecPedersen PedersenModel PedersenFacts SpecIPP InnerProductModel IPPProps
  SpecRange RangeProofModel SpecHonest RangeFacts RangeProveFacts RangeRun RangeProps RangeMore AnyMFacts.
Import ListNotations.
Local Open Scope nat_scope.

(** Prove and Verify act on the package variable M: [grun (Prove R v debug rs) m] is the result of
    Prove(v, debug) started with M = m and random scalars rs, and the value of M after it. *)

(** C29.  Bit commitments. *)
Theorem C29_bit_commit v : (0 <= v)%Z -> exists aL aR, BitCommit v = Ok (aL, aR) /\
  length aL = 64 /\ length aR = 64 /\ Forall (fun a => a = f0 \/ a = f1) aL /\
  (forall i a b, nth_error aL i = Some a -> nth_error aR i = Some b -> b = fsub a f1 /\ fmul a b = f0) /\
  dot aL (powers (of_Z 2) 64) = of_Z (v mod 2 ^ 64).
Proof. exact (bit_commit_spec v). Qed.
Print Assumptions C29_bit_commit.
(** the sign of v is not looked at *)
Theorem C29_negative v : BitCommit (- v) = BitCommit v.
Proof. unfold BitCommit. rewrite Z.abs_opp. reflexivity. Qed.
Print Assumptions C29_negative.
(** Debug succeeds on the output of BitCommit exactly for 0 <= v < 2^64. *)
Theorem C29_debug v aL aR : BitCommit v = Ok (aL, aR) -> (BitDebug aL aR v = Ok tt <-> (0 <= v < 2 ^ 64)%Z).
Proof. exact (bit_debug_spec v aL aR). Qed.
Print Assumptions C29_debug.
(** On any vectors Debug(v) compares both with the bits of v (0 <= v < 2^64): aL is one and aR is zero
    exactly at the bits that are set; it panics on vectors shorter than 64. *)
Theorem C29_debug_any aL aR v :
  (length aL < 64 \/ length aR < 64 -> BitDebug aL aR v = Panic) /\
  (64 <= length aL -> 64 <= length aR ->
    (BitDebug aL aR v = Ok tt <-> (0 <= v < 2 ^ 64)%Z /\ forall i, i < 64 ->
       (nth i aL f0 = f1 <-> Z.testbit v (Z.of_nat i) = true) /\ (nth i aR f0 = f0 <-> Z.testbit v (Z.of_nat i) = true)) /\
    (BitDebug aL aR v = Ok tt \/ BitDebug aL aR v = Err "[BitCommit(Debug)]: Wrong Value for AL")).
Proof. exact (bit_debug_any aL aR v). Qed.
Print Assumptions C29_debug_any.
Example C29_debug_any_ex : match BitDebug (repeat f1 64) (repeat f0 64) (2 ^ 64 - 1), BitDebug (repeat f0 64) (repeat f0 64) (2 ^ 64 - 1), BitDebug (repeat f1 64) (repeat f1 64) (2 ^ 64 - 1), BitDebug (repeat f1 64) [] 0 with
  | Ok _, Err _, Err _, Panic => true | _, _, _, _ => false end = true.
Proof. vm_compute. reflexivity. Qed.
Example C29_ex : (forall v, In v [5; 2 ^ 64 - 1; 2 ^ 64; -5]%Z ->
  match BitCommit v with
  | Ok (aL, aR) => (match BitDebug aL aR v with Ok _ => true | _ => false end, to_Z (dot aL (powers (of_Z 2) 64)))
  | _ => (false, 0%Z) end = (andb (Z.leb 0 v) (Z.ltb v (2 ^ 64)), Z.abs v mod 2 ^ 64)%Z).
Proof. intros v H. repeat (destruct H as [<-|H]; [vm_compute; reflexivity|]). destruct H. Qed.

(** C30.  Completeness: the proof of values below 2^64 is accepted, with the M that Prove leaves. *)
Theorem C30_complete R (OK : rist_ok R) v debug rs m p m' c :
  grun (Prove R v debug rs) m = (Ok p, m') -> Forall (fun a => (to_Z a < 2 ^ 64)%Z) v ->
  (forall ip, pf_ip R p = Some ip -> Forall (fun u => u <> f0) (challenges R [] (ip_L R ip) (ip_R R ip))) ->
  grun (Verify R c p) m' = (Ok true, m').
Proof. exact (prove_verify_in OK v debug rs m p m' c). Qed.
Print Assumptions C30_complete.

(** C31.  Prove without debug fails exactly for an empty or too long list and a zero challenge;
    [hin R (padded v) rs] names the values and random scalars, [hx], [hy], [hz] the challenges. *)
Theorem C31_errors R (OK : rist_ok R) v rs m :
  let r := fst (grun (Prove R v false rs) m) in
  (exists p, r = Ok p) \/ (exists e, r = Err e) /\
    (v = [] \/ 16 < length v \/
     (1 <= length v <= 16 /\ let h := hin R (padded v) rs in hx h = f0 \/ hy h = f0 \/ hz h = f0)).
Proof. exact (prove_outcome OK v rs m). Qed.
Print Assumptions C31_errors.
Theorem C31_succeeds R (OK : rist_ok R) v rs m : 1 <= length v <= 16 ->
  let h := hin R (padded v) rs in hx h <> f0 -> hy h <> f0 -> hz h <> f0 ->
  exists p, fst (grun (Prove R v false rs) m) = Ok p.
Proof. exact (prove_succeeds OK v rs m). Qed.
Print Assumptions C31_succeeds.
(** The three errors, in the order in which they are found. *)
Theorem C31_error_iff R (OK : rist_ok R) v rs m :
  let r := fst (grun (Prove R v false rs) m) in
  let h := hin R (padded v) rs in
  let zero := 1 <= length v <= 16 /\ (hx h = f0 \/ hy h = f0 \/ hz h = f0) in
  (r = Err "length of slice v is zero"%string <-> v = []) /\
  (r = Err "maximum amount of values must be less than 16"%string <-> 16 < length v) /\
  (r = Err "[Prove] - One of the challenge scalars, x, y, or z was equal to zero. Generate proof again"%string <-> zero) /\
  ((exists e, r = Err e) <-> v = [] \/ 16 < length v \/ zero).
Proof.
  cbv zeta. destruct v as [|a v].
  - rewrite Prove_empty. cbn [fst length]. repeat split; intros; try tauto; try discriminate; try (exfalso; lia). eexists. reflexivity.
  - assert (H1 : 1 <= length (a :: v)) by (cbn [length]; lia).
    assert (NE : a :: v <> []) by discriminate. revert H1 NE. generalize (a :: v). clear a v. intros v H1 NE.
    destruct (Nat.lt_ge_cases 16 (length v)) as [C|C].
    + rewrite Prove_long by exact C. cbn [fst]. repeat split; intros; try tauto; try discriminate; try (exfalso; lia). eexists. reflexivity.
    + destruct (Prove_run OK v rs m (conj H1 C)) as [ip [_ E]]. rewrite E. cbn [fst]. destruct (zero_challenge _) eqn:D.
      * apply zc_true in D. repeat split; intros; try tauto; try discriminate; try (exfalso; lia). eexists. reflexivity.
      * assert (ND : ~ (hx (hin R (padded v) rs) = f0 \/ hy (hin R (padded v) rs) = f0 \/ hz (hin R (padded v) rs) = f0)).
        { intros K. apply zc_true in K. congruence. }
        split; [split; [discriminate|congruence]|]. split; [split; [discriminate|lia]|]. split; [split; [discriminate|tauto]|].
        split; [intros [e K]; discriminate|]. intros [K|[K|K]]; [congruence|lia|tauto].
Qed.
Print Assumptions C31_error_iff.
(** With debug it does not panic either. *)
Theorem C31_no_panic R (OK : rist_ok R) v debug rs m : fst (grun (Prove R v debug rs) m) <> Panic.
Proof. exact (prove_no_panic OK v debug rs m). Qed.
Print Assumptions C31_no_panic.
Example C31_ex : fst (grun (Prove toy [] false (fun _ => f0)) 7) = Err "length of slice v is zero"%string /\
  fst (grun (Prove toy (repeat f1 17) false (fun _ => f0)) 7) = Err "maximum amount of values must be less than 16"%string.
Proof. split; reflexivity. Qed.

(** C32.  Values of any size: the proof is accepted exactly when the excess cancels.  z is the
    challenge, and the generator Base is not the identity. *)
Theorem C32_excess R (OK : rist_ok R) v debug rs m p m' c : rp_Base R <> pt0 R ->
  grun (Prove R v debug rs) m = (Ok p, m') ->
  (forall ip, pf_ip R p = Some ip -> Forall (fun u => u <> f0) (challenges R [] (ip_L R ip) (ip_R R ip))) ->
  let z := rp_z R (rp_y R (vals (pf_V R p)) (pf_A R p) (pf_S R p)) in
  (grun (Verify R c p) m' = (Ok true, m') <-> z_dot z (map (fun a => of_Z (to_Z a - to_Z a mod 2 ^ 64)) v) = f0) /\
  (grun (Verify R c p) m' = (Ok true, m') \/ grun (Verify R c p) m' = (Err "megacheck failed"%string, m')).
Proof. exact (excess_iff OK v debug rs m p m' c). Qed.
Print Assumptions C32_excess.
(** A single out-of-range value is rejected. *)
Theorem C32_single R (OK : rist_ok R) a debug rs m p m' c : rp_Base R <> pt0 R ->
  grun (Prove R [a] debug rs) m = (Ok p, m') ->
  (forall ip, pf_ip R p = Some ip -> Forall (fun u => u <> f0) (challenges R [] (ip_L R ip) (ip_R R ip))) ->
  (2 ^ 64 <= to_Z a)%Z -> grun (Verify R c p) m' = (Err "megacheck failed"%string, m').
Proof. exact (single_out_of_range OK a debug rs m p m' c). Qed.
Print Assumptions C32_single.
(** Prove does not check ranges: values only matter for the challenges (C31). *)

(** C33.  What Verify checks.  For a proof whose inner-product part has the right size and that has
    enough commitments, the result is the test c * E1 + E2 = 0. *)
Definition rp_E1 R (m : nat) (p : proof R) (ip : ipproof R) : pt R :=
  let V := vals (pf_V R p) in
  let y := rp_y R V (pf_A R p) (pf_S R p) in
  let z := rp_z R y in
  let x := rp_x R V (pf_A R p) (pf_S R p) z (pf_T1 R p) (pf_T2 R p) in
  let w := rp_w R V (pf_A R p) (pf_S R p) z (pf_T1 R p) (pf_T2 R p) x (pf_taux R p) (pf_mu R p) (pf_t R p) in
  rp_ip_defect R m (ip_L R ip) (ip_R R ip) (ip_A R ip) (ip_B R ip) (pf_A R p) (pf_S R p) x y z w (pf_mu R p) (pf_t R p).
Definition rp_E2 R (m : nat) (p : proof R) : pt R :=
  let V := vals (pf_V R p) in
  let y := rp_y R V (pf_A R p) (pf_S R p) in
  let z := rp_z R y in
  let x := rp_x R V (pf_A R p) (pf_S R p) z (pf_T1 R p) (pf_T2 R p) in
  psub R (rp_poly_lhs R (pf_t R p) (pf_taux R p)) (rp_poly_rhs R m V (pf_T1 R p) (pf_T2 R p) x y z).
Definition ip_size (m : nat) R (ip : ipproof R) : Prop :=
  length (ip_L R ip) = length (ip_R R ip) /\ length (ip_L R ip) < 32 /\ 2 ^ length (ip_L R ip) = 64 * m.
Theorem C33_verify_iff R (OK : rist_ok R) c p ip m : pf_ip R p = Some ip -> 0 < m -> (64 * Z.of_nat m < 2 ^ 32)%Z ->
  ip_size m R ip -> m <= length (pf_V R p) ->
  (fst (grun (Verify R c p) (Z.of_nat m)) = Ok true <-> padd R (smul R c (rp_E1 R m p ip)) (rp_E2 R m p) = pt0 R) /\
  (fst (grun (Verify R c p) (Z.of_nat m)) = Ok true \/ fst (grun (Verify R c p) (Z.of_nat m)) = Err "megacheck failed"%string).
Proof. exact (verify_iff OK c p ip m). Qed.
Print Assumptions C33_verify_iff.
Theorem C33_two_c R (OK : rist_ok R) c c' p ip m : pf_ip R p = Some ip -> 0 < m -> (64 * Z.of_nat m < 2 ^ 32)%Z ->
  ip_size m R ip -> m <= length (pf_V R p) -> c <> c' ->
  fst (grun (Verify R c p) (Z.of_nat m)) = Ok true -> fst (grun (Verify R c' p) (Z.of_nat m)) = Ok true ->
  rp_E1 R m p ip = pt0 R /\ rp_E2 R m p = pt0 R.
Proof. exact (verify_two OK c c' p ip m). Qed.
Print Assumptions C33_two_c.
(** For a proof with E1 <> 0 at most one c is fooled: c = -E2/E1 if it exists. *)
Theorem C33_one_c R (OK : rist_ok R) c c' p ip m : pf_ip R p = Some ip -> 0 < m -> (64 * Z.of_nat m < 2 ^ 32)%Z ->
  ip_size m R ip -> m <= length (pf_V R p) -> rp_E1 R m p ip <> pt0 R \/ rp_E2 R m p <> pt0 R ->
  fst (grun (Verify R c p) (Z.of_nat m)) = Ok true -> fst (grun (Verify R c' p) (Z.of_nat m)) = Ok true -> c = c'.
Proof. exact (verify_one OK c c' p ip m). Qed.
Print Assumptions C33_one_c.
(** E1 = 0 is the equation of the inner-product argument (C24) for the point rp_P. *)
Theorem C33_E1 R (OK : rist_ok R) m L Rs a b A S x y z w mu t :
  rp_ip_defect R m L Rs a b A S x y z w mu t = pt0 R <->
  ipp_equation R L Rs a b (rp_G R (64 * m)) (rp_H R (64 * m)) (cpowers (finv y) (64 * m)) (smul R w (rp_Base R))
    (rp_P R m A S x y z mu t (smul R w (rp_Base R))).
Proof. exact (E1_ipp OK m L Rs a b A S x y z w mu t). Qed.
Print Assumptions C33_E1.
(** Any other size of the inner-product part is an error. *)
Theorem C33_wrong_size R (OK : rist_ok R) c p ip m : pf_ip R p = Some ip -> 0 < m -> (64 * Z.of_nat m < 2 ^ 32)%Z ->
  ~ ip_size m R ip -> grun (Verify R c p) (Z.of_nat m) = (Err wrong_lengths, Z.of_nat m).
Proof. exact (Verify_sizes_err c p ip m). Qed.
Print Assumptions C33_wrong_size.
(** Together, for every value of the variable M for which N*M is an int: a proof is accepted exactly when M is
    positive, the sizes fit and the equation holds. *)
Theorem C33_exact R (OK : rist_ok R) c p m : (- 2 ^ 63 <= 64 * m < 2 ^ 63)%Z ->
  (fst (grun (Verify R c p) m) = Ok true <->
   exists k ip, m = Z.of_nat k /\ pf_ip R p = Some ip /\ 0 < k /\ (64 * Z.of_nat k < 2 ^ 32)%Z /\ ip_size k R ip /\
     k <= length (pf_V R p) /\ padd R (smul R c (rp_E1 R k p ip)) (rp_E2 R k p) = pt0 R).
Proof. intros _. exact (verify_exact OK c p m). Qed.
Print Assumptions C33_exact.

(** C34.  Debug mode. *)
Theorem C34_debug R (OK : rist_ok R) v rs m p :
  fst (grun (Prove R v true rs) m) = Ok p <->
  fst (grun (Prove R v false rs) m) = Ok p /\ Forall (fun a => (to_Z a < 2 ^ 64 - 1)%Z) v.
Proof. exact (debug_iff OK v rs m p). Qed.
Print Assumptions C34_debug.
(** Where Prove would succeed, this is the only error of debug mode. *)
Theorem C34_text R (OK : rist_ok R) v rs m p : fst (grun (Prove R v false rs) m) = Ok p ->
  ~ Forall (fun a => (to_Z a < 2 ^ 64 - 1)%Z) v ->
  fst (grun (Prove R v true rs) m) = Err "[Prove] - debugProve: [DEBUG]: Value v is more than 2^N - 1"%string.
Proof. exact (debug_text OK v rs m p). Qed.
Print Assumptions C34_text.
(** The value 2^64-1 is rejected in debug mode although its proof is accepted. *)
Theorem C34_maximum R (OK : rist_ok R) rs m p m' c : grun (Prove R [of_Z (2 ^ 64 - 1)] false rs) m = (Ok p, m') ->
  (forall ip, pf_ip R p = Some ip -> Forall (fun u => u <> f0) (challenges R [] (ip_L R ip) (ip_R R ip))) ->
  fst (grun (Prove R [of_Z (2 ^ 64 - 1)] true rs) m) = Err "[Prove] - debugProve: [DEBUG]: Value v is more than 2^N - 1"%string /\ grun (Verify R c p) m' = (Ok true, m').
Proof. exact (debug_max OK rs m p m' c). Qed.
Print Assumptions C34_maximum.

(** C35.  The package variable M after any history of calls. *)
Inductive rcall (R : rist) :=
| CProve (v : list F) (debug : bool) (rs : nat -> F)
| CVerify (c : F) (p : proof R).
Arguments CProve {R} v debug rs.
Arguments CVerify {R} c p.
Definition call_M R (m : Z) (k : rcall R) : Z :=
  match k with
  | CProve v debug rs => snd (grun (Prove R v debug rs) m)
  | CVerify c p => snd (grun (Verify R c p) m)
  end.
(** the specification: the length of the last non-empty list given to Prove, rounded up to a power
    of two unless it was rejected for its length *)
Definition last_M R (m : Z) (k : rcall R) : Z :=
  match k with
  | CProve v _ _ =>
    if Nat.eqb (length v) 0 then m else Z.of_nat (if Nat.ltb 16 (length v) then length v else pad_size (length v))
  | CVerify _ _ => m
  end.
Theorem C35_history R m0 calls : fold_left (call_M R) calls m0 = fold_left (last_M R) calls m0.
Proof.
  revert m0. induction calls as [|k calls IH]; intros m0; cbn [fold_left]; [reflexivity|]. rewrite IH. f_equal.
  destruct k as [v debug rs|c p]; cbn [call_M last_M]; [apply Prove_M|apply Verify_M].
Qed.
Print Assumptions C35_history.
(** A proof accepted for M = m is an error for every other M. *)
Theorem C35_other_M R (OK : rist_ok R) c c' p m m' b : 0 < m -> (64 * Z.of_nat m < 2 ^ 32)%Z -> 0 < m' -> (64 * Z.of_nat m' < 2 ^ 32)%Z ->
  m <> m' -> fst (grun (Verify R c p) (Z.of_nat m)) = Ok b -> grun (Verify R c' p) (Z.of_nat m') = (Err wrong_lengths, Z.of_nat m').
Proof. exact (Verify_other_M c p m m' c' b). Qed.
Print Assumptions C35_other_M.
(** Whatever M is - negative, zero, huge - there is at most one value of it for which a proof can be accepted. *)
Theorem C35_unique_M R (OK : rist_ok R) c c' p m m' b b' : (- 2 ^ 63 <= 64 * m < 2 ^ 63)%Z -> (- 2 ^ 63 <= 64 * m' < 2 ^ 63)%Z ->
  fst (grun (Verify R c p) m) = Ok b -> fst (grun (Verify R c' p) m') = Ok b' -> m = m' /\ (0 < m /\ 64 * m < 2 ^ 32)%Z.
Proof. intros _ _ E E'. split; [exact (verify_unique_M c c' p m m' b b' E E')|exact (verify_any_M c p m b E)]. Qed.
Print Assumptions C35_unique_M.
(** So after a Prove for another size, or one rejected for its length, a valid proof is rejected. *)
Theorem C35_prove_breaks_verify R (OK : rist_ok R) c c' p m v debug rs : 0 < m -> (64 * Z.of_nat m < 2 ^ 32)%Z ->
  fst (grun (Verify R c p) (Z.of_nat m)) = Ok true -> 1 <= length v -> (64 * Z.of_nat (length v) < 2 ^ 32)%Z ->
  m <> (if Nat.ltb 16 (length v) then length v else pad_size (length v)) ->
  fst (grun (Verify R c' p) (snd (grun (Prove R v debug rs) (Z.of_nat m)))) = Err wrong_lengths.
Proof. exact (prove_breaks c c' p m v debug rs). Qed.
Print Assumptions C35_prove_breaks_verify.
(** M is initially 1 (rangeproof.go:24-25): until Prove is called, the proof of two or more values is rejected. *)
Theorem C35_initial R (OK : rist_ok R) v debug rs m p m' c : grun (Prove R v debug rs) m = (Ok p, m') -> 2 <= length v ->
  grun (Verify R c p) 1 = (Err wrong_lengths, 1%Z).
Proof. exact (initial_rejects OK v debug rs m p m' c). Qed.
Print Assumptions C35_initial.
Example C35_ex : fold_left (call_M toy) [CProve (repeat f1 17) false (fun _ => f0); CProve [] false (fun _ => f0)] 1%Z = 17%Z.
Proof. reflexivity. Qed.

(** C36.  Concurrent calls.  Two calls that would both succeed alone: unless both lists have the same
    length and that is a power of two, there is a schedule in which one of them fails. *)
Theorem C36_interference R (OK : rist_ok R) v w dv dw rv rw m pv pw :
  fst (grun (Prove R v dv rv) m) = Ok pv -> fst (grun (Prove R w dw rw) m) = Ok pw ->
  ~ (length v = length w /\ exists k, length v = 2 ^ k) ->
  exists schedule i, i < 2 /\
    nth_error (fst (sched_run [Prove R v dv rv; Prove R w dw rw] m schedule)) i = Some (GRet (Err "[Prove] - poly: [ComputePoly] - r0 (1): Length of a does not equal length of b"%string)).
Proof. exact (interference_ok OK v w dv dw rv rw m pv pw). Qed.
Print Assumptions C36_interference.
(** Otherwise, whatever the schedule and the initial M, a call that has finished has its sequential result. *)
Theorem C36_same_power R n calls m schedule i v debug rs r : (exists k, n = 2 ^ k) ->
  Forall (fun '(v, debug, rs) => length (v : list F) = n) calls ->
  nth_error calls i = Some (v, debug, rs) ->
  nth_error (fst (sched_run (map (fun '(v, debug, rs) => Prove R v debug rs) calls) m schedule)) i = Some (GRet r) ->
  r = fst (grun (Prove R v debug rs) m).
Proof. exact (same_power n calls m schedule i v debug rs r). Qed.
Print Assumptions C36_same_power.
(** Verify calls among them have their sequential result too, when M is n at the start. *)
Definition call_prog R (k : rcall R) : gprog (res (proof R) + res bool) :=
  match k with
  | CProve v debug rs => gbind (Prove R v debug rs) (fun r => GRet (inl r))
  | CVerify c p => gbind (Verify R c p) (fun r => GRet (inr r))
  end.
Theorem C36_with_verify R n calls schedule i k r : (exists k, n = 2 ^ k) ->
  Forall (fun k => match k with CProve v _ _ => length v = n | CVerify _ _ => True end) calls ->
  nth_error calls i = Some k ->
  nth_error (fst (sched_run (map (call_prog R) calls) (Z.of_nat n) schedule)) i = Some (GRet r) ->
  r = fst (grun (call_prog R k) (Z.of_nat n)).
Proof.
  intros HP HC EK ER.
  apply (stable_results (Z.of_nat n) schedule (map (call_prog R) calls)) with (i := i); [|rewrite nth_error_map, EK; reflexivity|exact ER].
  apply Forall_map. revert HC. apply Forall_impl. intros [v debug rs|c p] HL; cbn [call_prog]; apply stable_bind; try (intros; exact I).
  - destruct (Prove_stable (R := R) v debug rs n HL) as [k' [-> S]].
    + intros _. apply pad_size_pow. exact HP.
    + destruct HP as [j ->]. pose proof (Nat.pow_nonzero 2 j). lia.
    + cbn. auto.
  - apply readonly_stable, Verify_readonly.
Qed.
Print Assumptions C36_with_verify.
(** Verify calls on their own, and calls of Prove without values, do not disturb each other, whatever M is. *)
Theorem C36_only_verify R calls m schedule i k r :
  Forall (fun k => match k with CProve v _ _ => v = [] | CVerify _ _ => True end) calls ->
  nth_error calls i = Some k ->
  nth_error (fst (sched_run (map (call_prog R) calls) m schedule)) i = Some (GRet r) ->
  r = fst (grun (call_prog R k) m) /\ snd (sched_run (map (call_prog R) calls) m schedule) = m.
Proof.
  intros HC EK ER.
  assert (ST : Forall (stable m) (map (call_prog R) calls)).
  { apply Forall_map. revert HC. apply Forall_impl. intros [v debug rs|c p] HL; cbn [call_prog]; apply stable_bind; try (intros; exact I).
    - subst v. cbn. exact I.
    - apply readonly_stable, Verify_readonly. }
  split; [|exact (proj1 (stable_sched m schedule _ ST))].
  apply (stable_results m schedule (map (call_prog R) calls)) with (i := i); [exact ST|rewrite nth_error_map, EK; reflexivity|exact ER].
Qed.
Print Assumptions C36_only_verify.
Definition ex_calls : list (rcall tiny) := [CVerify f1 (mkProof tiny [] f0 f0 f0 f0 f0 f0 f0 None); CProve [] false (fun _ => f0)].
Example C36_ex_only_verify : Forall (fun k : rcall tiny => match k with CProve v _ _ => v = [] | CVerify _ _ => True end) ex_calls /\
  nth_error (fst (sched_run (map (call_prog tiny) ex_calls) 3 [1])) 1 = Some (GRet (inl (Err "length of slice v is zero"%string))).
Proof. split; [constructor; [exact I|constructor; [reflexivity|constructor]]|reflexivity]. Qed.

(** C37.  Commitments beyond the first M are not range-checked: for arbitrary surplus commitments,
    in-range values and randomness with nonzero challenges the completed proof is accepted. *)
Theorem C37_surplus R (OK : rist_ok R) (h : hp_in R) k c : hp_wf h -> k < 32 -> 64 * hm h = 2 ^ k ->
  Forall (fun a => (to_Z a < 2 ^ 64)%Z) (hv h) -> hy h <> f0 ->
  exists ip, pf_V R (hproof h ip) = zipw com (hv h) (hbl h) ++ hextra h /\ length (zipw (@com R) (hv h) (hbl h)) = hm h /\
    (Forall (fun u => u <> f0) (challenges R [] (ip_L R ip) (ip_R R ip)) ->
     grun (Verify R c (hproof h ip)) (Z.of_nat (hm h)) = (Ok true, Z.of_nat (hm h))).
Proof. exact (surplus OK h k c). Qed.
Print Assumptions C37_surplus.

(** C38.  Exactly when Verify panics. *)
Theorem C38_panics R (OK : rist_ok R) c p m : 0 < m -> (64 * Z.of_nat m < 2 ^ 32)%Z ->
  (fst (grun (Verify R c p) (Z.of_nat m)) = Panic <->
   pf_ip R p = None \/ exists ip, pf_ip R p = Some ip /\ ip_size m R ip /\ length (pf_V R p) < m).
Proof. exact (verify_panic_iff OK c p m). Qed.
Print Assumptions C38_panics.
(** With M <= 0 Verify panics when the inner-product part is missing, and for M < 0 when the number of its
    scalars is the size uint32(N*M) of the generators (make with a negative length); otherwise there is an error. *)
Definition ip_scalars R (ip : ipproof R) : Z :=
  if Nat.eqb (length (ip_L R ip)) (length (ip_R R ip)) then
    if Nat.ltb (length (ip_L R ip)) 32 then 2 ^ Z.of_nat (length (ip_L R ip)) else 1
  else 0.
Theorem C38_nonpositive R (OK : rist_ok R) c p m : (- 2 ^ 63 <= 64 * m)%Z -> (m <= 0)%Z ->
  (fst (grun (Verify R c p) m) = Panic <->
   pf_ip R p = None \/ exists ip, pf_ip R p = Some ip /\ (m < 0)%Z /\ ip_scalars R ip = ((64 * m) mod 2 ^ 32)%Z) /\
  (fst (grun (Verify R c p) m) = Panic \/ fst (grun (Verify R c p) m) = Err wrong_lengths).
Proof. intros _. exact (verify_nonpos OK c p m). Qed.
Print Assumptions C38_nonpositive.
Example C38_ex_negative : ip_scalars toy (mkIPP toy [f1] [] f0 f0) = ((64 * (- 2 ^ 26)) mod 2 ^ 32)%Z.
Proof. reflexivity. Qed.
Example C38_ex : fst (grun (Verify toy f1 (mkProof toy [] f0 f0 f0 f0 f0 f0 f0 None)) 1) = Panic.
Proof. reflexivity. Qed.

(** C39.  Codec.  With or without commitments (flag b); decoded commitments have blinding factor 0;
    without commitments those of the receiver p0 are kept. *)
Theorem C39_roundtrip R (OK : rist_ok R) p ip p0 b : pf_ip R p = Some ip -> length (ip_L R ip) = length (ip_R R ip) ->
  (Z.of_nat (length (ip_L R ip)) < 2 ^ 32)%Z -> (Z.of_nat (length (pf_V R p)) < 2 ^ 32)%Z ->
  exists w, pf_Encode R p b w_fresh = (Ok tt, w) /\
  length (w_out w) = 32 * (9 + 2 * length (ip_L R ip)) + (if b then 4 + 32 * length (pf_V R p) else 0) /\
  forall r, fault_free r -> rbytes r = w_out w ->
  exec (pf_Decode R p0 b) r =
    (Ok (mkProof R (if b then map (fun c => mkCom R (c_val R c) f0) (pf_V R p) else pf_V R p0)
      (pf_A R p) (pf_S R p) (pf_T1 R p) (pf_T2 R p) (pf_taux R p) (pf_mu R p) (pf_t R p) (Some ip)), []).
Proof.
  intros EI L B1 B2. eexists. split; [apply pf_encode; eassumption|]. cbn [w_out]. split.
  - rewrite app_length, (pf_head_len OK), (ipp_enc_len OK) by exact L. destruct b; lia.
  - intros r F E. apply (pf_decode_ok OK p p0 ip b r EI L B1 B2 F E).
Qed.
Print Assumptions C39_roundtrip.
(** A proof followed by the encodings of two points decodes to a different proof. *)
Theorem C39_trailing R (OK : rist_ok R) p ip p0 b a q : pf_ip R p = Some ip -> length (ip_L R ip) = length (ip_R R ip) ->
  (Z.of_nat (length (ip_L R ip)) + 1 < 2 ^ 32)%Z -> (Z.of_nat (length (pf_V R p)) < 2 ^ 32)%Z ->
  exists w, pf_Encode R p b w_fresh = (Ok tt, w) /\
  forall r, fault_free r -> rbytes r = w_out w ++ pbytes R a ++ pbytes R q ->
  exists p', exec (pf_Decode R p0 b) r = (Ok p', []) /\
    pf_ip R p' = Some (mkIPP R (ip_L R ip ++ [a]) (ip_R R ip ++ [q]) (ip_A R ip) (ip_B R ip)) /\ pf_ip R p' <> pf_ip R p.
Proof.
  intros EI L B1 B2. eexists. split; [apply pf_encode; eassumption|]. cbn [w_out]. intros r F E.
  eexists. split; [apply (pf_decode_trailing OK p p0 ip b r a q EI L B1 B2 F E)|]. cbn [pf_ip]. split; [reflexivity|].
  rewrite EI. intros H. injection H as H. apply (f_equal (fun x => length (ip_L R x))) in H. cbn [ip_L] in H.
  rewrite app_length in H. cbn in H. lia.
Qed.
Print Assumptions C39_trailing.
(** Encode of a proof without inner-product part panics. *)
Theorem C39_encode_nil R p b w : pf_ip R p = None -> no_fault w -> fst (pf_Encode R p b w) = Panic.
Proof. exact (pf_encode_nil p b w). Qed.
Print Assumptions C39_encode_nil.
Example C39_ex :
  let p := mkProof toy [mkCom toy (of_Z 3) f0] (of_Z 1) (of_Z 2) (of_Z 3) (of_Z 4) (of_Z 5) (of_Z 6) (of_Z 7)
    (Some (mkIPP toy [of_Z 8] [of_Z 9] (of_Z 10) (of_Z 11))) in
  match pf_Encode toy p true w_fresh with
  | (Ok _, w) => match exec (pf_Decode toy p true) [RChunk (firstn 77 (w_out w)); RChunk (skipn 77 (w_out w))] with
                 | (Ok q, _) => (pf_Equals toy p q true, length (w_out w))
                 | _ => (Panic, 0) end
  | _ => (Panic, 0)
  end = (Ok true, 32 * 11 + 4 + 32).
Proof. vm_compute. reflexivity. Qed.

(** C28, second part: Proof.Equals ignores the inner-product proof and the blinding factors. *)
Theorem C28_rp_equals R (OK : rist_ok R) p q :
  pf_Equals R p q true = Ok true <->
  map (c_val R) (pf_V R p) = map (c_val R) (pf_V R q) /\ pf_A R p = pf_A R q /\ pf_S R p = pf_S R q /\
  pf_T1 R p = pf_T1 R q /\ pf_T2 R p = pf_T2 R q /\
  pf_taux R p = pf_taux R q /\ pf_mu R p = pf_mu R q /\ pf_t R p = pf_t R q.
Proof. exact (pf_equals OK p q). Qed.
Print Assumptions C28_rp_equals.
(** Without commitments they are nevertheless compared, up to the number of the receiver. *)
Theorem C28_rp_without_commitments R (OK : rist_ok R) p q :
  let vals x := map (c_val R) (pf_V R x) in
  (pf_Equals R p q false = Ok true <-> (exists w, vals q = vals p ++ w) /\ pf_A R p = pf_A R q /\ pf_S R p = pf_S R q /\
    pf_T1 R p = pf_T1 R q /\ pf_T2 R p = pf_T2 R q /\ pf_taux R p = pf_taux R q /\ pf_mu R p = pf_mu R q /\ pf_t R p = pf_t R q) /\
  (pf_Equals R p q false = Panic <-> exists v w, vals p = vals q ++ v :: w) /\ (forall e, pf_Equals R p q false <> Err e).
Proof. exact (pf_equals_any OK p q). Qed.
Print Assumptions C28_rp_without_commitments.
Theorem C28_rp_ignores_ip R (OK : rist_ok R) V A S T1 T2 taux mu t ip ip' :
  pf_Equals R (mkProof R V A S T1 T2 taux mu t ip) (mkProof R V A S T1 T2 taux mu t ip') true = Ok true.
Proof. apply (pf_equals OK). cbn. repeat apply conj; reflexivity. Qed.
Print Assumptions C28_rp_ignores_ip.
