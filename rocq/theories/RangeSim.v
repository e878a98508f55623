(** Facts for C97, C98 *)
From Coq Require Import String ZArith List Lia Bool Arith Field.
From Coq Require Import Init.Byte.
From Verif Require Import GoModel GoFacts Fld Rist RistFacts SpecVector SpecIPP SpecRange SpecSound VectorModel VectorFacts PedersenModel PedersenFacts SpecPedersen
  InnerProductModel InnerProductFacts GlobModel GlobFacts RangeProofModel SpecHonest RangeFacts RangeRun RangeProps P_RangeProof Poly IPSound RangeSound SoundPoints
  SpecRewind RewindIP P_Rewind SpecRing RingMore SpecRangeSim.
Import ListNotations.
Local Open Scope nat_scope.

Section S.
Context {R : rist} (OK : rist_ok R).
Local Notation "p [+] q" := (padd R p q) (at level 50, left associativity).
Local Notation "p [-] q" := (psub R p q) (at level 50, left associativity).
Local Notation "s [*] p" := (smul R s p) (at level 40, left associativity).

Lemma diff_poly_eval n t t' taux taux' : reval R n (diff_poly t t' taux taux') = rp_poly_lhs R t taux [-] rp_poly_lhs R t' taux'.
Proof. unfold reval, diff_poly, rp_poly_lhs. cbn [rg rh rb rl]. rewrite !(msm_fun_const OK) by apply chain_length. lin OK. Qed.
Lemma diff_ip_eval m L Rs a a' b b' A S x y z w w' mu mu' t t' : length L = length Rs -> 2 ^ length L = 64 * m ->
  reval R (64 * m) (diff_ip m (challenges R [] L Rs) y w w' a a' b b' mu mu' t t') =
  rp_ip_defect R m L Rs a b A S x y z w mu t [-] rp_ip_defect R m L Rs a' b' A S x y z w' mu' t'.
Proof.
  intros LR HK. assert (LU : length (challenges R [] L Rs) = length L) by (apply challenges_length; exact LR). unfold rp_ip_defect, rp_P. cbv zeta. set (us := challenges R [] L Rs) in *.
  assert (HU : 2 ^ length us = 64 * m) by (rewrite LU; exact HK).
  unfold reval, diff_ip. cbn [rg rh rb rl]. rewrite !(msm_fun_scale OK). rewrite map_mul_seq.
  replace (map (fun i => nth i (svec us) f0) (seq 0 (64 * m))) with (svec us)
    by (symmetry; rewrite <- HU, <- svec_length; apply SoundPoints.map_nth_seq).
  replace (map (fun i => nth i (svec (map finv us)) f0) (seq 0 (64 * m))) with (svec (map finv us))
    by (symmetry; rewrite <- HU, <- (map_length finv us), <- svec_length; apply SoundPoints.map_nth_seq).
  rewrite cpowers_map. lin OK.
Qed.
Lemma svec0 us : Forall (fun u => u <> f0) us -> nth 0 (svec us) f0 <> f0.
Proof.
  induction us as [|u us IH]; intros H; [exact f1_neq_f0|]. inversion H as [|? ? Hu H']; subst. cbn [svec].
  assert (L : 0 < length (svec us)) by (rewrite svec_length; pose proof (Nat.pow_nonzero 2 (length us)); lia).
  rewrite app_nth1 by (unfold vscale; rewrite map_length; exact L). unfold vscale.
  rewrite (nth_indep _ f0 (fmul (finv u) f0)) by (rewrite map_length; exact L). rewrite map_nth.
  intros E. apply fmul_integral in E. destruct E as [E|E]; [exact (finv_neq0 u Hu E)|exact (IH H' E)].
Qed.
Lemma diff_ip_equal m us y w w' a a' b b' mu mu' t t' : 0 < m -> y <> f0 -> Forall (fun u => u <> f0) us ->
  vanishes (64 * m) (diff_ip m us y w w' a a' b b' mu mu' t t') -> a = a' /\ b = b' /\ mu = mu'.
Proof.
  intros HM Y NZ (G & H & _ & L). cbn [diff_ip rg rh rl] in *. specialize (G 0 ltac:(lia)). specialize (H 0 ltac:(lia)).
  split; [|split; [|apply fsub_eq; exact L]].
  - apply fmul_integral in G. destruct G as [G|G]; [apply fsub_eq; exact G|]. exfalso. exact (svec0 us NZ G).
  - apply fmul_integral in H. destruct H as [H|H]; [apply fsub_eq; exact H|]. exfalso.
    apply fmul_integral in H. destruct H as [H|H].
    + apply (svec0 (map finv us)); [|exact H]. apply Forall_map. eapply Forall_impl; [|exact NZ]. intros u. apply finv_neq0.
    + rewrite cpowers_nth in H by (assumption || lia). revert H. apply finv_neq0. apply fpow_nz. exact Y.
Qed.

(** the missing terms *)
Lemma sim_S_ok m L Rs a b A S x y z w mu t : x <> f0 ->
  (rp_ip_defect R m L Rs a b A S x y z w mu t = pt0 R <-> S = sim_S R m L Rs (challenges R [] L Rs) a b A x y z w mu t).
Proof.
  intros X. unfold rp_ip_defect, sim_S, rp_P. cbv zeta. set (us := challenges R [] L Rs). 
  set (l := _ [+] _ [+] smul R (fmul a b) _). set (P1 := padd R A (pt0 R)). 
  set (g := fneg z [*] psum R (rp_G R (64 * m))). set (h := z [*] psum R (rp_H R (64 * m))). set (hh := msm R (zipw fmul (z_two z m) _) _).
  set (b1 := fneg mu [*] _). set (q := t [*] _). set (lr := lr_sum R us L Rs). clearbody l g h hh b1 q lr.
  split.
  - intros E. apply (smul_inj_r OK x); [exact X|]. rewrite <- (smul_mul R OK). replace (fmul x (finv x)) with f1 by (field; exact X). rewrite (smul_1 R OK).
    apply (proj1 (psub_eq0 OK _ _)) in E. rewrite E. lin OK.
  - intros ->. apply (psub_eq0 OK). rewrite <- (smul_mul R OK). replace (fmul x (finv x)) with f1 by (field; exact X). lin OK.
Qed.
Lemma sim_T1_ok m V T1 T2 x y z t taux : x <> f0 ->
  (rp_poly_lhs R t taux [-] rp_poly_rhs R m V T1 T2 x y z = pt0 R <-> T1 = sim_T1 R m V T2 x y z t taux).
Proof.
  intros X. unfold sim_T1, rp_poly_rhs. set (l := rp_poly_lhs R t taux). set (d := smul R (delta y z m) _). set (v := z_msm R z m V). clearbody l d v.
  split.
  - intros E. apply (smul_inj_r OK x); [exact X|]. rewrite <- (smul_mul R OK). replace (fmul x (finv x)) with f1 by (field; exact X). rewrite (smul_1 R OK).
    apply (proj1 (psub_eq0 OK _ _)) in E. rewrite E. lin OK.
  - intros ->. apply (psub_eq0 OK). rewrite <- (smul_mul R OK). replace (fmul x (finv x)) with f1 by (field; exact X). lin OK.
Qed.

(** strings *)
Lemma challenges_strings h Ls : forall Rs hs, challenges (with_hash R h) hs Ls Rs = map h (round_strings R hs Ls Rs).
Proof. induction Ls as [|l Ls IH]; intros [|r Rs] hs; try reflexivity. cbn [challenges round_strings map]. f_equal. apply IH. Qed.
Lemma round_strings_len Ls : forall Rs hs s, In s (round_strings R hs Ls Rs) -> length hs + 64 <= length s.
Proof.
  induction Ls as [|l Ls IH]; intros [|r Rs] hs s; cbn [round_strings In]; try contradiction. intros [<-|H].
  - rewrite !app_length, !(pbytes_len R OK). lia.
  - specialize (IH _ _ _ H). rewrite !app_length, !(pbytes_len R OK) in IH. lia.
Qed.
Lemma points_len (V : list (pt R)) : length (concat (map (pbytes R) V)) = 32 * length V.
Proof. induction V as [|v V IH]; [reflexivity|]. cbn [map concat length]. rewrite app_length, IH, (pbytes_len R OK). lia. Qed.
Lemma y_len V A S : length (y_string R V A S) = 32 * length V + 64.
Proof. unfold y_string. rewrite !app_length, points_len, !(pbytes_len R OK). lia. Qed.
Lemma x_len V A S z T1 T2 : length (x_string R V A S z T1 T2) = 32 * length V + 160.
Proof. unfold x_string. rewrite !app_length, y_len, !(pbytes_len R OK), (sbytes_len R OK). lia. Qed.
Lemma w_len V A S z T1 T2 x taux mu t : length (w_string R V A S z T1 T2 x taux mu t) = 32 * length V + 288.
Proof. unfold w_string. rewrite !app_length, x_len, !(sbytes_len R OK). lia. Qed.
End S.
