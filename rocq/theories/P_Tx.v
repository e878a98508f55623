(** Property C106: payments.  An output (key, Pedersen commitment) is spent by a dual key signature after the commitments of
    the new outputs were subtracted (mlsag/dualkey.go); the new outputs come with a range proof (rangeproof/rangeproof.go).
    Together they show that the amounts balance as integers; neither does so alone. *)
From Coq Require Import String ZArith List Lia Bool Arith Permutation.
From Coq Require Import Init.Byte.
From Verif Require Import GoModel GoFacts Prime Fld Rist RistFacts RistInst SpecVector SpecIPP SpecRange SpecSound SpecMlsag PedersenModel InnerProductModel GlobModel RangeProofModel
  SpecHonest MlsagModel MlsagSessions SpecFork SpecRing RingMore SpecRewind RewindRange RewindHonest P_RangeProof P_Sound P_Rewind P_Fork P_Ring P_RangeExamples SpecTx TxFacts.
Import ListNotations.
Local Open Scope nat_scope.

(** C106.  Commitments add up. *)
Theorem C106_total R (OK : rist_ok R) l : total R (map (fun vb => com R (fst vb) (snd vb)) l) = com R (fsum (map fst l)) (fsum (map snd l)).
Proof. exact (total_com OK l). Qed.
Print Assumptions C106_total.
(** At most 2^64 amounts of 64 bits add up as scalars as they do as integers. *)
Theorem C106_no_wrap vs : Forall amount vs -> (Z.of_nat (length vs) <= 2 ^ 64)%Z -> to_Z (fsum (map of_Z vs)) = zsum vs.
Proof. intros H L. rewrite <- of_Z_zsum. exact (zsum_small vs H L). Qed.
Print Assumptions C106_no_wrap.
(** Whoever owns an output to the sum of amounts proved by Prove can pay them: the range proof and the signature are accepted. *)
Theorem C106_pay R (OK : rist_ok R) v debug prs m p m' c decoys msg x b js rs :
  grun (Prove R v debug prs) m = (Ok p, m') -> Forall (fun a => amount (to_Z a)) v ->
  (forall ip, pf_ip R p = Some ip -> Forall (fun u => u <> f0) (challenges R [] (ip_L R ip) (ip_R R ip))) ->
  let D := total R (map (c_val R) (pf_V R p)) in let b' := fsum (map (c_blind R) (pf_V R p)) in
  decoys <> [] -> x <> f0 -> b <> b' ->
  grun (Verify R c p) m' = (Ok true, m') /\
  exists d sg d', run_all run_dop (spend_ops R decoys D msg x (fsub b b')) (NewDualKey R) = Ok d /\
    dk_Prove R d js rs = (Ok (sg, key_image R x), d') /\ sg_msg R sg = msg /\
    Permutation (map (spend_row R D) (decoys ++ [(smul R x (pbase R), com R (fsum v) b)])) (map (pk_keys R) (sg_pub R sg)) /\
    sig_Verify R sg [key_image R x] = Ok true.
Proof.
  intros E A NZ D b' ND NX NB. split.
  - apply (C30_complete R OK v debug prs m p m' c E); [|exact NZ]. revert A. apply Forall_impl. unfold amount. intros a. lia.
  - unfold D. rewrite (prove_total OK v debug prs m p m' E). exact (spend OK decoys msg x _ b b' js rs ND NX NB).
Qed.
Print Assumptions C106_pay.
(** Soundness.  The prover of the range proofs answers the challenges of C87, so that its points have coefficients e
    (C87_extract), without relations between the generators (C87_generic); the spender signs in the runs of C88 and C93.  Then
    the commitments are to amounts vs, and the private key of an output is found, with its key image, whose value is the sum
    of these integers; or else a discrete logarithm of the generator of values; or all rows hashed the same string, and this
    holds for all outputs except for the key image.  Nothing is assumed about the values of the outputs in the ring. *)
Theorem C106_no_inflation R (OK : rist_ok R) m k q an e s outs n A (hs : list (bytes -> F)) :
  let D := total R (map (s_V s) (seq 0 m)) in let ring := map (spend_row R D) (outputs R outs) in
  0 < m -> (Z.of_nat m <= 2 ^ 64)%Z -> 2 ^ k = 64 * m -> wide m k q -> represents R m k q e s ->
  (forall y z x w us, asked q k y z x w us ->
     vanishes (64 * m) (ip_gap m e an y z x w us) /\ vanishes (64 * m) (poly_gap m e an y z x)) ->
  (forall h, In h hs -> accepted R ring 1 h (answer h A) /\ list_max (places R ring h A) = n /\
     forall s, In s (hashed R ring h (answer h A)) -> h s <> f0) ->
  (forall h h' q, In h hs -> In h' hs -> In q (firstn n (queries R ring h A)) -> h q = h' q) ->
  NoDup (map (fun h => h (nth n (queries R ring h A) [])) hs) ->
  Nat.max 2 (length outs) * n * (n + 1) + 1 < length hs ->
  exists vs, length vs = m /\ Forall amount vs /\
  (forall j v, nth_error vs j = Some v -> s_V s j = com R (of_Z v) (rl (s_V e j))) /\
  exists h h', In h hs /\ In h' hs /\
   let f := answer h A in let f' := answer h' A in let b' := fsum (map (fun j => rl (s_V e j)) (seq 0 m)) in
   ((exists i o r r' c c' x z, nth_error outs (i mod length outs) = Some o /\
      nth_error (passed R ring f) i = Some r /\ nth_error (passed R ring f') i = Some r' /\
      nth_error (entering R ring h f) i = Some c /\ nth_error (entering R ring h' f') i = Some c' /\ c <> c' /\
      balance_found R o vs b' (snd r) (snd r') c c' x z /\ fg_images R f = [key_image R x] /\ fg_images R f' = [key_image R x]) \/
    (exists q, Forall (eq q) (hashed R ring h f) /\ Forall (eq q) (hashed R ring h' f') /\ h q <> h' q /\
      forall i o r r', nth_error outs (i mod length outs) = Some o ->
        nth_error (passed R ring f) i = Some r -> nth_error (passed R ring f') i = Some r' ->
        exists x z, balance_found R o vs b' (snd r) (snd r') (h q) (h' q) x z)).
Proof. exact (no_inflation OK m k q an e s outs n A hs). Qed.
Print Assumptions C106_no_inflation.
(** The signature alone does not show it: the owner of an output of any value v can pay itself one more than v, with a second
    output to compensate, and the signature is accepted. *)
Theorem C106_range_needed R (OK : rist_ok R) decoys msg x v b b1 b2 js rs : decoys <> [] -> x <> f0 -> (to_Z v < ell - 1)%Z -> b <> fadd b1 b2 ->
  exists v1 v2, to_Z v1 = (to_Z v + 1)%Z /\ ~ amount (to_Z v2) /\
  let D := total R [com R v1 b1; com R v2 b2] in
  exists d sg d', run_all run_dop (spend_ops R decoys D msg x (fsub b (fadd b1 b2))) (NewDualKey R) = Ok d /\
    dk_Prove R d js rs = (Ok (sg, key_image R x), d') /\ sg_msg R sg = msg /\
    Permutation (map (spend_row R D) (decoys ++ [(smul R x (pbase R), com R v b)])) (map (pk_keys R) (sg_pub R sg)) /\
    sig_Verify R sg [key_image R x] = Ok true.
Proof.
  intros ND NX HV NB. exists (fadd v f1), (fneg f1). split; [|split].
  - rewrite <- (of_Z_to_Z v) at 1. change f1 with (of_Z 1). rewrite <- of_Z_add, to_Z_of_Z. apply Z.mod_small. pose proof (to_Z_range v). lia.
  - assert (B : (2 ^ 64 < to_Z (fneg f1))%Z) by reflexivity. unfold amount. lia.
  - assert (E : fadd b1 (fadd b2 f0) = fadd b1 b2) by ring. rewrite <- E in *.
    apply (pay OK decoys msg x v b [(fadd v f1, b1); (fneg f1, b2)] js rs ND NX); [cbn; ring|exact NB].
Qed.
Print Assumptions C106_range_needed.

(** ** Examples *)
Example C106_ex_no_wrap : Forall amount [2 ^ 64 - 1; 5]%Z.
Proof. repeat constructor; unfold amount; lia. Qed.
(** the hypotheses of C106_pay on the range proof *)
Lemma ones_nonzero Ls : forall hs Rs, Forall (fun u => u <> f0) (challenges tiny hs Ls Rs).
Proof.
  induction Ls as [|l Ls IH]; intros hs [|r Rs]; cbn [challenges]; try constructor; [|apply IH].
  change (f1 <> f0). exact f1_neq_f0.
Qed.
Lemma ok_of {X} (r : res X * Z) : match r with (Ok _, m) => m | _ => 0%Z end = 2%Z -> exists p m', r = (Ok p, m').
Proof. destruct r as [[p|e|] m]; intros E; [exists p, m; reflexivity|discriminate E|discriminate E]. Qed.
Example C106_ex_pay : exists p m', grun (Prove tiny [of_Z 5; of_Z 6] false ex_rs) 1 = (Ok p, m') /\ Forall (fun a => amount (to_Z a)) [of_Z 5; of_Z 6] /\
  forall ip, pf_ip tiny p = Some ip -> Forall (fun u => u <> f0) (challenges tiny [] (ip_L tiny ip) (ip_R tiny ip)).
Proof.
  destruct (ok_of (grun (Prove tiny [of_Z 5; of_Z 6] false ex_rs) 1) C36_ex) as (p & m' & EP).
  exists p, m'. split; [exact EP|]. split; [|intros ip _; apply ones_nonzero].
  repeat apply Forall_cons; [| |apply Forall_nil]; unfold amount; rewrite to_Z_of_Z, Z.mod_small; try lia; (split; [lia|reflexivity]).
Qed.
(** a prover for the amount 7 and the spender of C93_ex_amounts *)
Definition seven_V : nat -> rep := fun _ => mkRep (fun _ => f0) (fun _ => f0) (of_Z 7) f1.
Definition seven_A : rep := mkRep (fun i => nth i (bits64 7) f0) (fun i => fsub (nth i (bits64 7) f0) f1) f0 f0.
Definition seven_S : rep := mkRep (fun i => fpow two i) (fun i => fpow two (i + 1)) f0 f1.
Definition seven_e : script rep := honest_script 1 6 seven_V seven_A seven_S.
Definition seven_an : answers := honest_answers 1 6 seven_V seven_A seven_S.
Definition seven_s (R : rist) : script (pt R) := smap (reval R (64 * 1)) seven_e.
Lemma seven_total R (OK : rist_ok R) : total R (map (s_V (seven_s R)) (seq 0 1)) = com R (of_Z 7) (of_Z 1).
Proof.
  cbn [seq map total fold_right]. unfold seven_s, smap. cbn [s_V]. change (s_V seven_e 0) with (seven_V 0).
  unfold reval, seven_V. cbn [rg rh rb rl]. rewrite !(SoundPoints.msm_fun_const OK) by apply PedersenFacts.chain_length.
  unfold com. change (rp_Base R) with (value_point R). change (rp_Blind R) with (pbase R). change (of_Z 1) with f1. lin OK.
Qed.
Lemma seven_represents R : represents R 1 6 (ask 1) seven_e (seven_s R).
Proof. unfold represents, seven_s, smap. cbn [s_V s_A s_S s_T1 s_T2 s_L s_R]. repeat split. Qed.
Lemma seven_gaps y z x w us : asked (ask 1) 6 y z x w us ->
  vanishes (64 * 1) (ip_gap 1 seven_e seven_an y z x w us) /\ vanishes (64 * 1) (poly_gap 1 seven_e seven_an y z x).
Proof.
  intros (Hy & _ & _ & _ & LU & PU). destruct (small_ok (64 * 1 + 1) ltac:(lia)) as (_ & _ & Z & _).
  apply (honest_gaps 1 6 seven_V seven_A seven_S y z x w us).
  - reflexivity.
  - exact LU.
  - intros ->. exact (Z Hy).
  - exact (path_small us [] PU).
  - reflexivity.
  - reflexivity.
  - apply C79_bits. lia.
Qed.
Example C106_ex_no_inflation : wide 1 6 (ask 1) /\ represents tiny 1 6 (ask 1) seven_e (seven_s tiny) /\
  (forall y z x w us, asked (ask 1) 6 y z x w us ->
     vanishes (64 * 1) (ip_gap 1 seven_e seven_an y z x w us) /\ vanishes (64 * 1) (poly_gap 1 seven_e seven_an y z x)) /\
  let ring := map (spend_row tiny (total tiny (map (s_V (seven_s tiny)) (seq 0 1)))) (outputs tiny gx_outs) in
  (forall h, In h gx_hs -> accepted tiny ring 1 h (answer h gx_A) /\ list_max (places tiny ring h gx_A) = 1 /\
     forall s, In s (hashed tiny ring h (answer h gx_A)) -> h s <> f0) /\
  (forall h h' q, In h gx_hs -> In h' gx_hs -> In q (firstn 1 (queries tiny ring h gx_A)) -> h q = h' q) /\
  NoDup (map (fun h => h (nth 1 (queries tiny ring h gx_A) [])) gx_hs) /\
  Nat.max 2 (length gx_outs) * 1 * (1 + 1) + 1 < length gx_hs.
Proof.
  split; [apply ask_wide; lia|]. split; [apply seven_represents|]. split; [exact seven_gaps|].
  rewrite (seven_total tiny tiny_ok). exact C93_ex_amounts.
Qed.
Example C106_ex_range_needed : (to_Z f0 < ell - 1)%Z /\ of_Z 2 <> fadd f0 f1.
Proof. split; [reflexivity|]. intros C. apply (f_equal to_Z) in C. vm_compute in C. discriminate. Qed.
