(** C107: provers of ranges that ask for hash values *)
From Coq Require Import String ZArith List Lia Bool Arith.
From Coq Require Import Init.Byte.
From Verif Require Import GoModel GoFacts Prime Fld Rist RistFacts RistInst SpecVector SpecIPP SpecRange SpecSound PedersenModel InnerProductModel GlobModel RangeProofModel
  SpecHonest P_RangeProof SpecRewind RewindRange P_Rewind SpecFork SpecOracle OracleFacts.
Import ListNotations.
Local Open Scope nat_scope.

(** C107.  A program A asks for hash values as it likes and gives the fields of an aggregated range proof.  It is run with
    hash functions that differ from the point on where a challenge is to be changed (rewound).  Then all its proofs carry
    the same m commitments, its messages are a script in the sense of C87, and coefficients for all its points are found;
    either they give a nontrivial relation of the generators or each commitment opens to a 64-bit number. *)
Theorem C107_oracle R (OK : rist_ok R) m k q H A p : 0 < m -> (64 * Z.of_nat m < 2 ^ 32)%Z -> 2 ^ k = 64 * m -> wide m k q ->
  rewound R m k q H A p ->
  exists (s : script (pt R)) (an : answers) (e : script rep),
    (forall y z x w us, SpecRewind.asked q k y z x w us -> let h := H (y :: z :: x :: w :: us) in let f := answer h A in
       firstn m (cl_V R f) = map (s_V s) (seq 0 m) /\ cl_A R f = s_A s /\ cl_S R f = s_S s /\
       cl_T1 R f = s_T1 s y z /\ cl_T2 R f = s_T2 s y z /\ cl_taux R f = an_taux an y z x /\ cl_mu R f = an_mu an y z x /\ cl_t R f = an_t an y z x /\
       cl_L R f = rounds (s_L s y z x w) [] us /\ cl_R R f = rounds (s_R s y z x w) [] us /\
       cl_a R f = an_a an y z x w us /\ cl_b R f = an_b an y z x w us) /\
    represents R m k q e s /\
    (forall y z x w us, SpecRewind.asked q k y z x w us ->
       reval R (64 * m) (ip_gap m e an y z x w us) = pt0 R /\ reval R (64 * m) (poly_gap m e an y z x) = pt0 R) /\
    ((forall y z x w us, SpecRewind.asked q k y z x w us ->
        vanishes (64 * m) (ip_gap m e an y z x w us) /\ vanishes (64 * m) (poly_gap m e an y z x)) ->
     forall j, j < m -> exists v : Z, (0 <= v < 2 ^ 64)%Z /\
       s_V s j = padd R (smul R (of_Z v) (rp_Base R)) (smul R (rl (s_V e j)) (rp_Blind R))).
Proof.
  intros HM HB HK W RW. pose proof (runs OK m k q H A p HM HB HK W RW) as RUNS.
  exists (run_script k q H A), (run_answers k q H A). destruct (C87_rangeproof m k q (run_answers k q H A) HM HB HK W) as [e E]. exists e.
  split.
  - intros y z x w us AK h f. destruct (RUNS y z x w us AK) as (_ & _ & _ & EV & EA & ES & ET1 & ET2 & Et & Etx & Emu & EL & ER & Ea & Eb & _).
    rewrite claim_vals in EV. repeat split; assumption.
  - apply (E R OK). intros y z x w us AK. destruct RW as [RW1 _]. destruct (RW1 _ _ _ _ _ AK) as (_ & (c & c' & N & V & V') & _).
    exists (H (y :: z :: x :: w :: us)). eexists. eexists. exists c, c'. split; [apply RUNS; exact AK|]. split; [exact N|]. split; assumption.
Qed.
Print Assumptions C107_oracle.
(** The provers of C87 are such programs: they ask for the strings of the protocol in order. *)
Theorem C107_script R (OK : rist_ok R) m k q H s an :
  (forall y z x w us, SpecRewind.asked q k y z x w us -> let h := H (y :: z :: x :: w :: us) in let f := script_claim R m s an y z x w us in
     P_Rewind.run R m s an y z x w us h (claim_proof R h f) (claim_ip R h f) /\ convincing R m h f) ->
  rewound R m k q H (prover R m k s an) (fun i => i).
Proof. exact (script_rewound m k q H s an). Qed.
Print Assumptions C107_script.
Definition five_H (t : list F) : bytes -> F :=
  match t with y :: z :: x :: w :: us => five_hash y z x w us | _ => fun _ => f0 end.
Example C107_ex : wide 1 6 (ask 1) /\ rewound flat 1 6 (ask 1) five_H (prover flat 1 6 five_s five_an) (fun i => i).
Proof.
  split; [apply ask_wide; lia|]. apply (C107_script flat flat_ok). intros y z x w us AK h f. pose proof AK as (_ & _ & _ & _ & LU & _).
  pose proof (five_run y z x w us LU) as RUN. split; [exact RUN|].
  assert (N : f0 <> f1) by (intros E; apply f1_neq_f0; symmetry; exact E).
  exists f0, f1. split; [exact N|].
  exact (proj1 (C87_verify flat flat_ok 1 6 five_s five_an y z x w us _ _ _ f0 f1 ltac:(lia) ltac:(lia) eq_refl LU RUN N) (five_accepts flat flat_ok y z x w us AK)).
Qed.
