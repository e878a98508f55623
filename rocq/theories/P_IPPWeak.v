(** Property C77: innerproduct.go - the challenges of a standalone proof cover L and R only *)
From Coq Require Import String ZArith List Lia Bool Arith Field.
From Verif Require Import GoModel GoFacts Fld Rist RistFacts RistInst SpecVector SpecIPP VectorModel VectorFacts
  InnerProductModel InnerProductFacts IPPVerifyFacts IPPWeak.
Import ListNotations.
Local Open Scope nat_scope.

(** C77.  For every choice of generators, factors and Q, and every nonzero a, b, the proof whose
    points are all the neutral element is accepted for the claim that <l, r> = a b, with l, r given
    explicitly below, and that claim is false. *)
Theorem C77_false_statement R (OK : rist_ok R) G H fs Q k a b : 1 <= k < 32 -> a <> f0 -> b <> f0 ->
  length G = 2 ^ k -> length H = 2 ^ k -> length fs = 2 ^ k ->
  let O := repeat (pt0 R) k in
  let us := challenges R [] O O in
  let l := vscale a (svec us) in
  let r := vscale b (svec (map finv us)) in
  ipp_Verify R (mkIPP R O O a b) G H fs Q
    (padd R (padd R (msm R l G) (msm R (zipw fmul r fs) H)) (smul R (fmul a b) Q)) (Z.of_nat (2 ^ k)) = Ok true /\
  dot l r <> fmul a b.
Proof.
  intros HK Ha Hb HG HH HF O us l r. split; [apply (accepted_false OK); try assumption; lia|].
  unfold l, r. rewrite dot_vscale_l, dot_vscale_r. intros E.
  apply (svec_dot_neq1 us); [unfold us, O; rewrite challenges_length by (rewrite !repeat_length; reflexivity); rewrite repeat_length; exact HK|].
  apply (f_equal (fun t => fmul (finv b) (fmul (finv a) t))) in E.
  transitivity (fmul (finv b) (fmul (finv a) (fmul a (fmul b (dot (svec us) (svec (map finv us))))))); [field; split; assumption|].
  rewrite E. field. split; assumption.
Qed.
Print Assumptions C77_false_statement.
(** Every proof with k points on each side is accepted for some statement over any generators. *)
Theorem C77_any_proof R (OK : rist_ok R) p G H fs Q k : length (ip_L R p) = k -> length (ip_R R p) = k -> k < 32 ->
  length G = 2 ^ k -> length H = 2 ^ k -> length fs = 2 ^ k ->
  let us := challenges R [] (ip_L R p) (ip_R R p) in
  ipp_Verify R p G H fs Q
    (psub R (padd R (padd R (msm R (vscale (ip_A R p) (svec us)) G) (msm R (zipw fmul (vscale (ip_B R p) (svec (map finv us))) fs) H))
                    (smul R (fmul (ip_A R p) (ip_B R p)) Q))
            (lr_sum R us (ip_L R p) (ip_R R p))) (Z.of_nat (2 ^ k)) = Ok true.
Proof. exact (any_proof OK p G H fs Q k). Qed.
Print Assumptions C77_any_proof.
Example C77_ex :
  let G := map of_Z [3; 5]%Z in let H := map of_Z [13; 17]%Z in let fs := map of_Z [1; 9]%Z in let Q := of_Z 29 in
  let O := repeat (pt0 tiny) 1 in
  let us := challenges tiny [] O O in
  let l := vscale (of_Z 2) (svec us) in let r := vscale (of_Z 3) (svec (map finv us)) in
  (ipp_Verify tiny (mkIPP tiny O O (of_Z 2) (of_Z 3)) G H fs Q
     (padd tiny (padd tiny (msm tiny l G) (msm tiny (zipw fmul r fs) H)) (smul tiny (fmul (of_Z 2) (of_Z 3)) Q)) 2,
   to_Z (dot l r)) = (Ok true, 12%Z).
Proof. vm_compute. reflexivity. Qed.
