(** From representations to points; the honest prover *)
From Coq Require Import String ZArith List Lia Bool Arith Field.
From Verif Require Import GoModel Fld Rist RistFacts SpecVector VectorFacts SpecPedersen PedersenFacts InnerProductFacts IPPVerifyFacts SpecIPP SpecRange RangeFacts RangeRun
  SpecSound Poly IPSound RangeSound.
Import ListNotations.
Local Open Scope nat_scope.

Theorem bad_c_few n D1 D2 cs : NoDup cs -> Forall (bad_c n D1 D2) cs -> length cs <= 1.
Proof.
  intros ND B. destruct cs as [|c1 [|c2 cs]]; cbn [length]; try lia. exfalso.
  inversion B as [|? ? B1 B']; subst. inversion B' as [|? ? B2 _]; subst. inversion ND as [|? ? I _]; subst.
  destruct B1 as [N (G1 & H1 & E1 & L1)]. destruct B2 as [_ (G2 & H2 & E2 & L2)]. apply N.
  assert (K : forall a b, fadd (fmul c1 a) b = f0 -> fadd (fmul c2 a) b = f0 -> a = f0 /\ b = f0).
  { intros a b A1 A2. assert (X : fmul (fsub c1 c2) a = f0).
    { transitivity (fsub (fadd (fmul c1 a) b) (fadd (fmul c2 a) b)); [ring|]. rewrite A1, A2. ring. }
    apply fmul_integral in X. destruct X as [X|X]; [exfalso; apply I; left; symmetry; apply fsub_eq; exact X|].
    split; [exact X|]. rewrite X in A1. rewrite <- A1. ring. }
  split; (split; [intros i Hi; apply (K _ _ (G1 i Hi) (G2 i Hi))|]; split; [intros i Hi; apply (K _ _ (H1 i Hi) (H2 i Hi))|];
    split; [apply (K _ _ E1 E2)|apply (K _ _ L1 L2)]).
Qed.

Lemma map_nth_seq (s : list F) : map (fun i => nth i s f0) (seq 0 (length s)) = s.
Proof.
  induction s as [|x s IH]; [reflexivity|]. cbn [length seq map nth]. f_equal. rewrite <- seq_shift, map_map. exact IH.
Qed.
Lemma map_const_seq (c : F) k n : map (fun _ => c) (seq k n) = repeat c n.
Proof. revert k. induction n as [|n IH]; intros k; [reflexivity|]. cbn [seq map repeat]. f_equal. apply IH. Qed.
Lemma map_add_seq (f g : nat -> F) l : map (fun i => fadd (f i) (g i)) l = vadd (map f l) (map g l).
Proof. unfold vadd. induction l as [|x l IH]; [reflexivity|]. cbn [map zipw]. rewrite IH. reflexivity. Qed.
Lemma map_scale_seq c (f : nat -> F) l : map (fun i => fmul c (f i)) l = vscale c (map f l).
Proof. unfold vscale. rewrite map_map. reflexivity. Qed.
Lemma map_mul_seq (f g : nat -> F) l : map (fun i => fmul (f i) (g i)) l = zipw fmul (map f l) (map g l).
Proof. induction l as [|x l IH]; [reflexivity|]. cbn [map zipw]. rewrite IH. reflexivity. Qed.

Section Points.
Context {R : rist} (OK : rist_ok R).
Local Notation "p [+] q" := (padd R p q) (at level 50, left associativity).
Local Notation "s [*] p" := (smul R s p) (at level 40, left associativity).

Lemma msm_fun_add n (f g : nat -> F) P : msm R (map (fun i => fadd (f i) (g i)) (seq 0 n)) P = msm R (map f (seq 0 n)) P [+] msm R (map g (seq 0 n)) P.
Proof. rewrite map_add_seq. apply (msm_vadd OK). rewrite !map_length. reflexivity. Qed.
Lemma msm_fun_scale n c (f : nat -> F) P : msm R (map (fun i => fmul c (f i)) (seq 0 n)) P = c [*] msm R (map f (seq 0 n)) P.
Proof. rewrite map_scale_seq. apply (msm_vscale OK). Qed.
Lemma msm_fun_ext n (f g : nat -> F) P : (forall i, i < n -> f i = g i) -> msm R (map f (seq 0 n)) P = msm R (map g (seq 0 n)) P.
Proof. intros H. f_equal. apply map_ext_in. intros i Hi. apply in_seq in Hi. apply H. lia. Qed.
Lemma msm_fun_const n c P : length P = n -> msm R (map (fun _ => c) (seq 0 n)) P = c [*] psum R P.
Proof. intros L. rewrite map_const_seq. apply (msm_repeat OK). exact L. Qed.
Lemma reval_add n a b : reval R n (radd a b) = reval R n a [+] reval R n b.
Proof. unfold reval, radd. cbn [rg rh rb rl]. rewrite !msm_fun_add. lin OK. Qed.
Lemma reval_scale n c a : reval R n (rscale c a) = c [*] reval R n a.
Proof. unfold reval, rscale. cbn [rg rh rb rl]. rewrite !msm_fun_scale. lin OK. Qed.
Lemma rp_G_len n : length (rp_G R n) = n. Proof. apply chain_length. Qed.
Lemma rp_H_len n : length (rp_H R n) = n. Proof. apply chain_length. Qed.
Lemma reval_zero n : reval R n rzero = pt0 R.
Proof. unfold reval, rzero. cbn [rg rh rb rl]. rewrite !msm_fun_const by apply chain_length. lin OK. Qed.
Lemma reval_vanishes n v : vanishes n v -> reval R n v = pt0 R.
Proof.
  intros (H1 & H2 & H3 & H4). rewrite <- (reval_zero n). unfold reval. rewrite H3, H4.
  rewrite (msm_fun_ext n (rg v) (fun _ => f0)) by exact H1. rewrite (msm_fun_ext n (rh v) (fun _ => f0)) by exact H2. reflexivity.
Qed.
Lemma reval_lr n us Ls Rs : lr_sum R us (map (reval R n) Ls) (map (reval R n) Rs) = reval R n (lr_rep us Ls Rs).
Proof.
  revert Ls Rs. induction us as [|u us IH]; intros [|L Ls] [|Rr Rs]; cbn [map lr_sum lr_rep]; try (symmetry; apply reval_zero).
  rewrite IH, !reval_add, !reval_scale. reflexivity.
Qed.
Lemma E1_rep m us Ls Rs a b A S x y z w mu t L' R' : 2 ^ length us = 64 * m ->
  L' = map (reval R (64 * m)) Ls -> R' = map (reval R (64 * m)) Rs -> us = challenges R [] L' R' ->
  rp_ip_defect R m L' R' a b (reval R (64 * m) A) (reval R (64 * m) S) x y z w mu t =
  reval R (64 * m) (ip_rep m us Ls Rs a b A S x y z w mu t).
Proof.
  intros HK EL ER EU. unfold rp_ip_defect, rp_P. rewrite <- EU. rewrite EL, ER, reval_lr.
  unfold ip_rep. rewrite reval_add, reval_scale, reval_add. set (lr := reval R (64 * m) (lr_rep us Ls Rs)).
  unfold P_rep, lvec. unfold reval. cbn [rg rh rb rl].
  rewrite !msm_fun_scale.
  rewrite (msm_fun_ext (64 * m) (fun i => fsub (fadd (rg A i) (fmul x (rg S i))) z) (fun i => fadd (fadd (rg A i) (fmul x (rg S i))) (fneg z))) by (intros; ring).
  rewrite !msm_fun_add, !msm_fun_scale, !msm_fun_const by apply chain_length.
  rewrite !map_mul_seq.
  replace (map (fun i => nth i (svec us) f0) (seq 0 (64 * m))) with (svec us)
    by (symmetry; rewrite <- HK, <- svec_length; apply map_nth_seq).
  replace (map (fun i => nth i (svec (map finv us)) f0) (seq 0 (64 * m))) with (svec (map finv us))
    by (symmetry; rewrite <- HK, <- (map_length finv us), <- svec_length; apply map_nth_seq).
  replace (map (fun i => nth i (cpowers (finv y) (64 * m)) f0) (seq 0 (64 * m))) with (cpowers (finv y) (64 * m))
    by (symmetry; transitivity (map (fun i => nth i (cpowers (finv y) (64 * m)) f0) (seq 0 (length (cpowers (finv y) (64 * m)))));
        [rewrite cpowers_length; reflexivity|apply map_nth_seq]).
  replace (map (bitpow m z) (seq 0 (64 * m))) with (z_two z m)
    by (symmetry; rewrite <- (RangeSound.z_two_length z m); exact (map_nth_seq (z_two z m))).
  lin OK.
Qed.
Lemma zV_points n m V z : msm R (map (fun j => fpow z (j + 2)) (seq 0 m)) (map (fun j => reval R n (V j)) (seq 0 m)) =
  reval R n (mkRep (fun i => zV m V z (fun v => rg v i)) (fun i => zV m V z (fun v => rh v i)) (zV m V z rb) (zV m V z rl)).
Proof.
  induction m as [|m IH].
  - symmetry. apply reval_zero.
  - rewrite seq_S, !map_app. rewrite (msm_app OK) by (rewrite !map_length; reflexivity). rewrite IH. cbn [map]. 
    change (msm R [fpow z (0 + m + 2)] [reval R n (V (0 + m))]) with (fpow z (m + 2) [*] reval R n (V m) [+] pt0 R).
    transitivity (reval R n (radd (mkRep (fun i => zV m V z (fun v => rg v i)) (fun i => zV m V z (fun v => rh v i)) (zV m V z rb) (zV m V z rl)) (rscale (fpow z (m + 2)) (V m)))).
    + rewrite reval_add, reval_scale. lin OK.
    + unfold reval, zV. cbn [rg rh rb rl radd rscale]. rewrite !Sum_S.
      rewrite (msm_fun_ext n (fun i => Sum (S m) (fun j => fmul (fpow z (j + 2)) (rg (V j) i)))
         (fun i => fadd (Sum m (fun j => fmul (fpow z (j + 2)) (rg (V j) i))) (fmul (fpow z (m + 2)) (rg (V m) i)))) by (intros; apply Sum_S).
      rewrite (msm_fun_ext n (fun i => Sum (S m) (fun j => fmul (fpow z (j + 2)) (rh (V j) i)))
         (fun i => fadd (Sum m (fun j => fmul (fpow z (j + 2)) (rh (V j) i))) (fmul (fpow z (m + 2)) (rh (V m) i)))) by (intros; apply Sum_S).
      reflexivity.
Qed.
Lemma msm_firstn_r (s : list F) (P : list (pt R)) : msm R s P = msm R s (firstn (length s) P).
Proof. unfold msm. f_equal. revert P. induction s as [|x s IH]; intros [|p P]; cbn; f_equal; try reflexivity. apply IH. Qed.
Lemma E2_rep n m V' V y z T1 T2 x t taux : firstn m V' = map (fun j => reval R n (V j)) (seq 0 m) ->
  psub R (rp_poly_lhs R t taux) (rp_poly_rhs R m V' (reval R n T1) (reval R n T2) x y z) =
  reval R n (poly_rep m V y z T1 T2 x t taux).
Proof.
  intros HV. unfold rp_poly_lhs, rp_poly_rhs, z_msm. rewrite msm_firstn_r, map_length, seq_length, HV, zV_points.
  transitivity (reval R n (radd (mkRep (fun _ => f0) (fun _ => f0) (fsub t (delta y z m)) taux)
    (rscale (fneg f1) (radd (mkRep (fun i => zV m V z (fun v => rg v i)) (fun i => zV m V z (fun v => rh v i)) (zV m V z rb) (zV m V z rl))
       (radd (rscale x T1) (rscale (fmul x x) T2)))))).
  - rewrite !reval_add, !reval_scale, !reval_add, !reval_scale. unfold reval at 4. cbn [rg rh rb rl]. rewrite !msm_fun_const by apply chain_length. lin OK.
  - unfold reval, poly_rep, radd, rscale. cbn [rg rh rb rl]. f_equal; f_equal; [apply msm_fun_ext; intros; ring|apply msm_fun_ext; intros; ring|f_equal; ring|f_equal; ring].
Qed.
End Points.

(** ** The honest prover can always continue *)
(** L and R of the next round, the vectors being l and r, of length 2m *)
Definition round_L (us : list F) (m : nat) (w y : F) (l r : nat -> F) : rep :=
  mkRep (spread us (2 * m) (fun j => if j <? m then f0 else l (j - m)))
    (fun i => fmul (finv (fpow y i)) (spread (map finv us) (2 * m) (fun j => if j <? m then r (m + j) else f0) i))
    (fmul w (Sum m (fun j => fmul (l j) (r (m + j))))) f0.
Definition round_R (us : list F) (m : nat) (w y : F) (l r : nat -> F) : rep :=
  mkRep (spread us (2 * m) (fun j => if j <? m then l (m + j) else f0))
    (fun i => fmul (finv (fpow y i)) (spread (map finv us) (2 * m) (fun j => if j <? m then f0 else r (j - m)) i))
    (fmul w (Sum m (fun j => fmul (l (m + j)) (r j)))) f0.
Theorem honest_round_at us m w y v l r : y <> f0 -> good_at us (2 * m) w y v l r ->
  forall u, u <> f0 -> good (us ++ [u]) m w y (lr_step v (round_L us m w y l r) (round_R us m w y l r) u).
Proof.
  intros Y (H1 & H2 & H3 & H4). unfold round_L, round_R.
  set (Lg := fun j => if j <? m then f0 else l (j - m)). set (Rg := fun j => if j <? m then l (m + j) else f0).
  set (Lh := fun j => if j <? m then r (m + j) else f0). set (Rh := fun j => if j <? m then f0 else r (j - m)).
  intros u Nu. exists (fun j => fadd (fmul u (l j)) (fmul (finv u) (l (m + j)))), (fun j => fadd (fmul (finv u) (r j)) (fmul u (r (m + j)))).
  assert (SZ : m * 2 ^ length (us ++ [u]) = 2 * m * 2 ^ length us) by (rewrite app_length; cbn [length]; rewrite Nat.add_1_r, Nat.pow_succ_r'; lia).
  rewrite SZ. cbn [lr_step radd rscale rg rh rb rl].
  assert (M2 : m * 2 ^ length [u] = 2 * m) by (cbn; lia).
  split; [|split; [|split]].
  - intros i Hi. rewrite (H1 i Hi), spread_app, M2.
    transitivity (spread us (2 * m) (fun j => fadd (fadd (fmul f1 (l j)) (fmul (fmul u u) (Lg j))) (fmul (fmul (finv u) (finv u)) (Rg j))) i).
    + rewrite spread_lin. ring.
    + apply spread_ext; [|exact Hi]. intros j Hj. unfold Lg, Rg. cbn [spread length]. rewrite Nat.pow_0_r, Nat.mul_1_r.
      destruct (Nat.ltb_spec j m) as [C|C]; [field; exact Nu|]. replace (m + (j - m)) with j by lia. field. exact Nu.
  - intros i Hi. rewrite map_app, spread_app. cbn [map]. replace (m * 2 ^ length [finv u]) with (2 * m) by (cbn; lia). pose proof (fpow_nz y i Y) as Ny.
    transitivity (spread (map finv us) (2 * m) (fun j => fadd (fadd (fmul f1 (r j)) (fmul (fmul u u) (Lh j))) (fmul (fmul (finv u) (finv u)) (Rh j))) i).
    + rewrite spread_lin. rewrite <- (H2 i Hi). field. split; assumption.
    + apply spread_ext; [|rewrite map_length; exact Hi]. intros j Hj. unfold Lh, Rh. cbn [spread length]. rewrite Nat.pow_0_r, Nat.mul_1_r, finv_finv.
      destruct (Nat.ltb_spec j m) as [C|C]; [field; exact Nu|]. replace (m + (j - m)) with j by lia. field. exact Nu.
  - rewrite H3. replace (2 * m) with (m + m) by lia. rewrite Sum_split.
    transitivity (fmul w (fadd (fadd (Sum m (fun i => fmul (l i) (r i))) (Sum m (fun i => fmul (l (m + i)) (r (m + i)))))
      (fadd (fmul (fmul u u) (Sum m (fun j => fmul (l j) (r (m + j))))) (fmul (fmul (finv u) (finv u)) (Sum m (fun j => fmul (l (m + j)) (r j))))))); [ring|].
    f_equal. rewrite <- !Sum_scale, <- !Sum_add. apply Sum_ext. intros i _. field. exact Nu.
  - rewrite H4. ring.
Qed.
Theorem honest_round us m w y v : y <> f0 -> good us (2 * m) w y v ->
  exists L R, forall u, u <> f0 -> good (us ++ [u]) m w y (lr_step v L R u).
Proof. intros Y (l & r & H). exists (round_L us m w y l r), (round_R us m w y l r). exact (honest_round_at us m w y v l r Y H). Qed.
Lemma good_snoc_req us m w y a b : req a b -> good us m w y a -> good us m w y b. Proof. apply good_req. Qed.
Theorem honest_rounds us : forall vs w y v, y <> f0 -> Forall (fun u => u <> f0) us -> good vs (2 ^ length us) w y v ->
  exists Ls Rs, length Ls = length us /\ length Rs = length us /\ good (vs ++ us) 1 w y (radd v (lr_rep us Ls Rs)).
Proof.
  induction us as [|u us IH]; intros vs w y v Y NZ G.
  - exists [], []. split; [reflexivity|]. split; [reflexivity|]. rewrite app_nil_r. revert G. apply good_req. repeat split; intros; cbn; ring.
  - inversion NZ as [|? ? Nu NZ']; subst. cbn [length] in G. rewrite Nat.pow_succ_r' in G.
    destruct (honest_round vs (2 ^ length us) w y v Y G) as (L & R & H). specialize (H u Nu).
    destruct (IH (vs ++ [u]) w y (lr_step v L R u) Y NZ' H) as (Ls & Rs & L1 & L2 & H').
    exists (L :: Ls), (R :: Rs). cbn [length]. split; [lia|]. split; [lia|]. rewrite <- app_assoc in H'. cbn [app] in H'. revert H'. apply good_req.
    cbn [lr_rep]. repeat split; intros; cbn; ring.
Qed.
Theorem honest_all m V A S y z us w : 2 ^ length us = 64 * m -> y <> f0 -> Forall (fun u => u <> f0) us -> rb A = f0 -> rb S = f0 ->
  ok_A m V A ->
  exists T1 T2, forall x, exists t taux mu Ls Rs a b,
    length Ls = length us /\ length Rs = length us /\
    vanishes (64 * m) (poly_rep m V y z T1 T2 x t taux) /\ vanishes (64 * m) (ip_rep m us Ls Rs a b A S x y z w mu t).
Proof.
  intros HK Y NZ EA ES (O1 & O2 & O3).
  assert (Hz : Sum (64 * m) (fun i => fmul (lvec A rzero f0 z i) (rvec m A rzero f0 y z i)) = fadd (delta y z m) (zV m V z rb)).
  { rewrite (key_z m V A y z).
    assert (X : peval (zc0 m A y :: zc1 m A y :: map (zcj V A) (seq 0 m)) z = f0).
    { change (fadd (zc0 m A y) (fmul z (fadd (zc1 m A y) (fmul z (peval (map (zcj V A) (seq 0 m)) z)))) = f0). rewrite peval_Sum.
      unfold zc0, zc1. rewrite (Sum_zero (64 * m)) by (intros i Hi; rewrite O2 by exact Hi; ring).
      rewrite (Sum_zero (64 * m)) by (intros i Hi; rewrite O3 by exact Hi; ring).
      rewrite Sum_zero by (intros j Hj; unfold zcj; destruct (O1 j Hj) as (_ & _ & ->); ring). ring. }
    rewrite X. ring. }
  assert (Vg : forall i, i < 64 * m -> zV m V z (fun v => rg v i) = f0).
  { intros i Hi. apply Sum_zero. intros j Hj. destruct (O1 j Hj) as (E & _). rewrite E by exact Hi. ring. }
  assert (Vh : forall i, i < 64 * m -> zV m V z (fun v => rh v i) = f0).
  { intros i Hi. apply Sum_zero. intros j Hj. destruct (O1 j Hj) as (_ & E & _). rewrite E by exact Hi. ring. }
  set (q1 := Sum (64 * m) (fun i => fadd (fmul (rg S i) (rvec m A rzero f0 y z i)) (fmul (lvec A rzero f0 z i) (fmul (fpow y i) (rh S i))))).
  set (q2 := Sum (64 * m) (fun i => fmul (rg S i) (fmul (fpow y i) (rh S i)))).
  exists (mkRep (fun _ => f0) (fun _ => f0) q1 f0), (mkRep (fun _ => f0) (fun _ => f0) q2 f0). intros x.
  set (t := Sum (64 * m) (fun i => fmul (lvec A S x z i) (rvec m A S x y z i))).
  set (mu := fadd (rl A) (fmul x (rl S))).
  assert (G : good [] (2 ^ length us) w y (P_rep m A S x y z w mu t)).
  { rewrite HK. exists (lvec A S x z), (rvec m A S x y z). cbn [length map spread]. rewrite Nat.pow_0_r, Nat.mul_1_r. split; [reflexivity|].
    split; [intros i Hi; apply P_rh; assumption|]. split; [cbn [rb P_rep]; rewrite EA, ES; unfold t; ring|cbn [rl P_rep]; unfold mu; ring]. }
  destruct (honest_rounds us [] w y _ Y NZ G) as (Ls & Rs & L1 & L2 & l & r & H1 & H2 & H3 & H4). cbn [app] in *.
  exists t, (zV m V z rl), mu, Ls, Rs, (l 0), (r 0). split; [exact L1|]. split; [exact L2|]. split.
  - unfold poly_rep. split; [|split; [|split]]; cbn [rg rh rb rl].
    + intros i Hi. rewrite Vg by exact Hi. ring.
    + intros i Hi. rewrite Vh by exact Hi. ring.
    + unfold t. rewrite key_x. fold q1 q2. rewrite Hz. ring.
    + ring.
  - rewrite Nat.mul_1_l, HK in H1, H2.
    assert (Z : forall us' (l' : nat -> F) i, spread us' 1 l' i = spread us' 1 (fun _ => l' 0) i \/ 2 ^ length us' <= i).
    { intros us' l' i. destruct (Nat.lt_ge_cases i (2 ^ length us')) as [C|C]; [left|right; exact C].
      apply spread_ext; [intros j Hj; f_equal; lia|lia]. }
    unfold ip_rep. set (v := radd (P_rep m A S x y z w mu t) (lr_rep us Ls Rs)) in *. split; [|split; [|split]]; cbn [radd rscale rg rh rb rl].
    + intros i Hi. rewrite (H1 i Hi). destruct (Z us l i) as [E|E]; [|lia]. rewrite E, svec_spread by lia. ring.
    + intros i Hi. specialize (H2 i Hi). destruct (Z (map finv us) r i) as [E|E]; [|rewrite map_length in E; lia].
      rewrite E, svec_spread in H2 by (rewrite map_length; lia). rewrite cpowers_nth by assumption. pose proof (fpow_nz y i Y) as Ny.
      transitivity (fmul (finv (fpow y i)) (fsub (fmul (r 0) (nth i (svec (map finv us)) f0)) (fmul (fpow y i) (rh v i)))); [field; exact Ny|].
      rewrite H2. ring.
    + rewrite H3. unfold Sum. cbn [seq map fsum fold_right]. ring.
    + rewrite H4. ring.
Qed.
