(** What a range proof contains and what it tells about the values: properties C74, C75 *)
From Coq Require Import String ZArith List Lia Bool Arith Field.
From Verif Require Import GoModel GoFacts ReadModel GlobModel Fld Rist RistInst RistFacts SpecVector SpecPedersen PedersenModel SpecIPP InnerProductModel
  SpecRange RangeProofModel SpecHonest RangeFacts RangeProveFacts RangeRun RangeProps RangeMore RangeHiding.
Import ListNotations.
Local Open Scope nat_scope.

(** ** C74.  Prove is the prover of the paper ([SpecHonest]), with these random scalars in this order. *)
Theorem C74_protocol R (OK : rist_ok R) v rs m : 1 <= length v <= 16 ->
  let h := hin R (padded v) rs in let n := 64 * pad_size (length v) in
  exists ip, Generate R (rp_G R n) (rp_H R n) (hl h) (hr h) (hfs h) (hQ h) = Ok ip /\ exists e,
  grun (Prove R v false rs) m = (if zero_challenge h then Err e else Ok (hproof h ip), Z.of_nat (pad_size (length v))).
Proof.
  intros L h n. destruct (Prove_run OK v rs m L) as (ip & E & X). exists ip. split; [|exists msg0; exact X].
  unfold n. rewrite <- (padded_length v L). exact E.
Qed.
Print Assumptions C74_protocol.
(** the commitments of the proof: the values followed by zeros up to a power of two, under the first
    random scalars, which stay in the proof *)
Theorem C74_commitments R (OK : rist_ok R) v debug rs m p m' : grun (Prove R v debug rs) m = (Ok p, m') ->
  length (pf_V R p) = pad_size (length v) /\ m' = Z.of_nat (pad_size (length v)) /\
  forall i, i < pad_size (length v) -> nth_error (pf_V R p) i =
    Some (mkCom R (padd R (smul R (nth i v f0) (rp_Base R)) (smul R (rs i) (rp_Blind R))) (rs i)).
Proof. exact (Prove_commitments OK v debug rs m p m'). Qed.
Print Assumptions C74_commitments.
(** a power of two, less than twice the number of values *)
Theorem C74_pad_size n : 1 <= n -> (exists k, pad_size n = 2 ^ k) /\ n <= pad_size n < 2 * n.
Proof. exact (pad_size_least n). Qed.
Print Assumptions C74_pad_size.
Example C74_ex : pad_size 1 = 1 /\ pad_size 3 = 4 /\ pad_size 5 = 8 /\ pad_size 16 = 16.
Proof. repeat split. Qed.

(** ** C75.  A proof tells nothing about the values beyond their range: any values below 2^64, as many
    up to padding, lead to the same proof with other random scalars. *)
Theorem C75_hiding R (OK : rist_ok R) v v' debug rs m p m' :
  (forall P : pt R, exists k, P = smul R k (rp_Blind R)) ->
  grun (Prove R v debug rs) m = (Ok p, m') -> Forall (fun a => (to_Z a < 2 ^ 64)%Z) v -> Forall (fun a => (to_Z a < 2 ^ 64)%Z) v' ->
  1 <= length v' <= 16 -> pad_size (length v') = pad_size (length v) ->
  exists rs' p', grun (Prove R v' false rs') m = (Ok p', m') /\
    map (c_val R) (pf_V R p') = map (c_val R) (pf_V R p) /\
    pf_A R p' = pf_A R p /\ pf_S R p' = pf_S R p /\ pf_T1 R p' = pf_T1 R p /\ pf_T2 R p' = pf_T2 R p /\
    pf_taux R p' = pf_taux R p /\ pf_mu R p' = pf_mu R p /\ pf_t R p' = pf_t R p /\ pf_ip R p' = pf_ip R p /\
    forall commits w, pf_Encode R p' commits w = pf_Encode R p commits w.
Proof.
  intros G E I I' L P. destruct (prove_hides OK G v v' debug rs m p m' E I I' L P) as (rs' & p' & E' & V & Q).
  exists rs', p'. split; [exact E'|]. split; [exact V|]. rewrite Q. cbn [pf_A pf_S pf_T1 pf_T2 pf_taux pf_mu pf_t pf_ip].
  repeat (split; [reflexivity|]). intros commits w. rewrite <- Q. apply encode_same; [exact V|]. rewrite Q at 1. reflexivity.
Qed.
Print Assumptions C75_hiding.
Example C75_ex_generates : forall P : pt toy, exists k, P = smul toy k (rp_Blind toy).
Proof. intros P. exists P. symmetry. change (fmul P f1 = P). ring. Qed.
