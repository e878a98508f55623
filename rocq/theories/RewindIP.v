(** Extraction of representations from the answers to several challenges *)
From Coq Require Import String ZArith List Lia Bool Arith Field.
From Verif Require Import GoModel Fld Rist RistFacts SpecVector VectorFacts SpecPedersen PedersenFacts InnerProductFacts IPPVerifyFacts SpecIPP SpecRange RangeFacts RangeRun
  SpecSound Poly IPSound RangeSound SoundPoints SpecOrder SoundOrder SpecRewind.
Import ListNotations.
Local Open Scope nat_scope.

(** ** Quadratic interpolation *)
Definition dq (a b c : F) : F := finv (fmul (fsub a b) (fsub a c)).
Definition comb3 (c1 c2 c3 : F) (e1 e2 e3 : rep) : rep := radd (radd (rscale c1 e1) (rscale c2 e2)) (rscale c3 e3).
Definition quad0 (x1 x2 x3 : F) : rep -> rep -> rep -> rep :=
  comb3 (fmul (dq x1 x2 x3) (fmul x2 x3)) (fmul (dq x2 x1 x3) (fmul x1 x3)) (fmul (dq x3 x1 x2) (fmul x1 x2)).
Definition quad1 (x1 x2 x3 : F) : rep -> rep -> rep -> rep :=
  comb3 (fneg (fmul (dq x1 x2 x3) (fadd x2 x3))) (fneg (fmul (dq x2 x1 x3) (fadd x1 x3))) (fneg (fmul (dq x3 x1 x2) (fadd x1 x2))).
Definition quad2 (x1 x2 x3 : F) : rep -> rep -> rep -> rep := comb3 (dq x1 x2 x3) (dq x2 x1 x3) (dq x3 x1 x2).

Lemma nodup3 (a b c : F) l : NoDup (a :: b :: c :: l) -> fsub a b <> f0 /\ fsub a c <> f0 /\ fsub b c <> f0.
Proof.
  intros ND. inversion ND as [|? ? I1 ND2]; subst. inversion ND2 as [|? ? I2 _]; subst. cbn [In] in I1, I2.
  split; [|split]; intros E; apply fsub_eq in E; subst; [apply I1; left; reflexivity|apply I1; right; left; reflexivity|apply I2; left; reflexivity].
Qed.
Lemma swap_nz a b : fsub a b <> f0 -> fsub b a <> f0.
Proof. intros N E. apply N. apply fsub_eq in E. subst. ring. Qed.

Lemma path_app q pre us u : path q pre (us ++ [u]) <-> path q pre us /\ In u (q (pre ++ us)).
Proof.
  revert pre. induction us as [|v us IH]; intros pre; cbn [app path]; [rewrite app_nil_r; tauto|]. rewrite IH, <- app_assoc. cbn [app]. tauto.
Qed.

Section Points.
Context {R : rist} (OK : rist_ok R).
Local Notation "p [+] q" := (padd R p q) (at level 50, left associativity).
Local Notation "s [*] p" := (smul R s p) (at level 40, left associativity).

Lemma comb3_points n c1 c2 c3 e1 e2 e3 x1 x2 x3 C0 C1 C2 :
  reval R n e1 = C0 [+] x1 [*] C1 [+] fmul x1 x1 [*] C2 ->
  reval R n e2 = C0 [+] x2 [*] C1 [+] fmul x2 x2 [*] C2 ->
  reval R n e3 = C0 [+] x3 [*] C1 [+] fmul x3 x3 [*] C2 ->
  reval R n (comb3 c1 c2 c3 e1 e2 e3) =
    fadd (fadd c1 c2) c3 [*] C0 [+] fadd (fadd (fmul c1 x1) (fmul c2 x2)) (fmul c3 x3) [*] C1
    [+] fadd (fadd (fmul c1 (fmul x1 x1)) (fmul c2 (fmul x2 x2))) (fmul c3 (fmul x3 x3)) [*] C2.
Proof.
  intros E1 E2 E3. unfold comb3. rewrite !(reval_add OK), !(reval_scale OK), E1, E2, E3. lin OK.
Qed.
Lemma quad_points n x1 x2 x3 l e1 e2 e3 C0 C1 C2 : NoDup (x1 :: x2 :: x3 :: l) ->
  reval R n e1 = C0 [+] x1 [*] C1 [+] fmul x1 x1 [*] C2 ->
  reval R n e2 = C0 [+] x2 [*] C1 [+] fmul x2 x2 [*] C2 ->
  reval R n e3 = C0 [+] x3 [*] C1 [+] fmul x3 x3 [*] C2 ->
  reval R n (quad0 x1 x2 x3 e1 e2 e3) = C0 /\ reval R n (quad1 x1 x2 x3 e1 e2 e3) = C1 /\ reval R n (quad2 x1 x2 x3 e1 e2 e3) = C2.
Proof.
  intros ND E1 E2 E3. destruct (nodup3 _ _ _ _ ND) as (D12 & D13 & D23).
  pose proof (swap_nz _ _ D12) as D21. pose proof (swap_nz _ _ D13) as D31. pose proof (swap_nz _ _ D23) as D32.
  assert (K : forall a b c, a = f1 -> b = f0 -> c = f0 -> a [*] C0 [+] b [*] C1 [+] c [*] C2 = C0) by (intros a b c -> -> ->; lin OK).
  assert (K1 : forall a b c, a = f0 -> b = f1 -> c = f0 -> a [*] C0 [+] b [*] C1 [+] c [*] C2 = C1) by (intros a b c -> -> ->; lin OK).
  assert (K2 : forall a b c, a = f0 -> b = f0 -> c = f1 -> a [*] C0 [+] b [*] C1 [+] c [*] C2 = C2) by (intros a b c -> -> ->; lin OK).
  split; [|split]; unfold quad0, quad1, quad2; rewrite (comb3_points n _ _ _ e1 e2 e3 x1 x2 x3 C0 C1 C2 E1 E2 E3); [apply K|apply K1|apply K2];
    unfold dq; field; repeat split; assumption.
Qed.
Lemma reval_ext n a b : (forall i, i < n -> rg a i = rg b i) -> (forall i, i < n -> rh a i = rh b i) -> rb a = rb b -> rl a = rl b -> reval R n a = reval R n b.
Proof. intros H1 H2 H3 H4. unfold reval. rewrite (msm_fun_ext n (rg a) (rg b)), (msm_fun_ext n (rh a) (rh b)), H3, H4 by assumption. reflexivity. Qed.

(** ** The two sides of the inner-product equation *)
Definition leaf_rep (m : nat) (us : list F) (a b y w : F) : rep :=
  mkRep (fun i => fmul a (nth i (svec us) f0))
    (fun i => fmul b (fmul (nth i (svec (map finv us)) f0) (nth i (cpowers (finv y) (64 * m)) f0)))
    (fmul (fmul a b) w) f0.
Lemma cpowers_map (y : F) n : map (fun i => nth i (cpowers (finv y) n) f0) (seq 0 n) = cpowers (finv y) n.
Proof.
  transitivity (map (fun i => nth i (cpowers (finv y) n) f0) (seq 0 (length (cpowers (finv y) n)))); [rewrite cpowers_length; reflexivity|apply map_nth_seq].
Qed.
Lemma leaf_points m us a b y w : 2 ^ length us = 64 * m ->
  a [*] msm R (svec us) (rp_G R (64 * m)) [+] b [*] msm R (zipw fmul (svec (map finv us)) (cpowers (finv y) (64 * m))) (rp_H R (64 * m))
    [+] fmul a b [*] (w [*] rp_Base R) = reval R (64 * m) (leaf_rep m us a b y w).
Proof.
  intros HK. unfold reval, leaf_rep. cbn [rg rh rb rl]. rewrite !(msm_fun_scale OK), map_mul_seq, cpowers_map.
  replace (map (fun i => nth i (svec us) f0) (seq 0 (64 * m))) with (svec us)
    by (symmetry; rewrite <- HK, <- svec_length; apply map_nth_seq).
  replace (map (fun i => nth i (svec (map finv us)) f0) (seq 0 (64 * m))) with (svec (map finv us))
    by (symmetry; rewrite <- HK, <- (map_length finv us), <- svec_length; apply map_nth_seq).
  lin OK.
Qed.
Lemma P_points m A S x y z w mu t :
  rp_P R m A S x y z mu t (w [*] rp_Base R) = A [+] x [*] S [+] reval R (64 * m) (P_rep m rzero rzero x y z w mu t).
Proof.
  unfold rp_P, P_rep, lvec, reval. cbn [rg rh rb rl rzero].
  rewrite (msm_fun_ext (64 * m) (fun i => fsub (fadd f0 (fmul x f0)) z) (fun _ => fneg z)) by (intros; ring).
  rewrite (msm_fun_ext (64 * m) (fun i => fadd (fadd (fadd f0 (fmul x f0)) z) (fmul (bitpow m z i) (nth i (cpowers (finv y) (64 * m)) f0)))
    (fun i => fadd z (fmul (bitpow m z i) (nth i (cpowers (finv y) (64 * m)) f0)))) by (intros; ring).
  rewrite !(msm_fun_add OK), !(msm_fun_const OK) by apply chain_length. rewrite map_mul_seq, cpowers_map.
  replace (map (bitpow m z) (seq 0 (64 * m))) with (z_two z m)
    by (symmetry; rewrite <- (RangeSound.z_two_length z m); exact (map_nth_seq (z_two z m))).
  lin OK.
Qed.
Lemma P_rep_split m A S x y z w mu t :
  reval R (64 * m) (P_rep m A S x y z w mu t) = reval R (64 * m) A [+] x [*] reval R (64 * m) S [+] reval R (64 * m) (P_rep m rzero rzero x y z w mu t).
Proof.
  rewrite <- (reval_scale OK), <- !(reval_add OK). apply reval_ext; intros; unfold P_rep, lvec; cbn [rg rh rb rl radd rscale rzero]; ring.
Qed.

(** ** The rounds *)
Context (n : nat) (leaf : list F -> rep) (q : list F -> list F).
Definition at3 (f : F -> F -> F -> rep -> rep -> rep -> rep) (v : list F -> rep) (pre : list F) : rep :=
  let u i := nth i (q pre) f0 in
  let c i := rscale (fmul (u i) (u i)) (v (pre ++ [u i])) in
  f (fmul (u 0) (u 0)) (fmul (u 1) (u 1)) (fmul (u 2) (u 2)) (c 0) (c 1) (c 2).
(** the statement's point after the challenges pre, d rounds remaining; L and R of the next round *)
Fixpoint v_of (d : nat) (pre : list F) : rep :=
  match d with 0 => leaf pre | S d' => at3 quad1 (v_of d') pre end.
Definition L_of (k : nat) (pre : list F) : rep := at3 quad2 (v_of (k - length pre - 1)) pre.
Definition R_of (k : nat) (pre : list F) : rep := at3 quad0 (v_of (k - length pre - 1)) pre.

Definition enough (us : list F) : Prop :=
  NoDup (map (fun u => fmul u u) (q us)) /\ 4 <= length (q us) /\ ~ In f0 (q us).
Lemma at3_points v pre P L Rr : enough pre ->
  (forall u, In u (q pre) -> reval R n (v (pre ++ [u])) = P [+] (fmul u u [*] L [+] fmul (finv u) (finv u) [*] Rr)) ->
  reval R n (at3 quad0 v pre) = Rr /\ reval R n (at3 quad1 v pre) = P /\ reval R n (at3 quad2 v pre) = L.
Proof.
  intros (ND & Len & NZ) H. unfold at3. destruct (q pre) as [|u1 [|u2 [|u3 us]]]; try (cbn [length] in Len; lia). cbn [nth].
  assert (K : forall u, In u (u1 :: u2 :: u3 :: us) ->
    reval R n (rscale (fmul u u) (v (pre ++ [u]))) = Rr [+] fmul u u [*] P [+] fmul (fmul u u) (fmul u u) [*] L).
  { intros u Hu. rewrite (reval_scale OK), (H u Hu). assert (N : u <> f0) by (intros ->; contradiction).
    transitivity (fmul (fmul u u) (fmul (finv u) (finv u)) [*] Rr [+] fmul u u [*] P [+] fmul (fmul u u) (fmul u u) [*] L); [lin OK|].
    replace (fmul (fmul u u) (fmul (finv u) (finv u))) with f1 by (field; exact N). lin OK. }
  cbn [map] in ND. apply (quad_points n _ _ _ _ _ _ _ _ _ _ ND); apply K; cbn [In]; tauto.
Qed.
Lemma extract_rounds Lf Rf k d : forall pre P, length pre + d = k -> path q [] pre ->
  (forall us, length us < k -> path q [] us -> enough us) ->
  (forall suf, length suf = d -> path q pre suf ->
     reval R n (leaf (pre ++ suf)) = P [+] lr_sum R suf (rounds Lf pre suf) (rounds Rf pre suf)) ->
  reval R n (v_of d pre) = P /\
  (forall suf, length suf < d -> path q pre suf ->
     reval R n (L_of k (pre ++ suf)) = Lf (pre ++ suf) /\ reval R n (R_of k (pre ++ suf)) = Rf (pre ++ suf)).
Proof.
  induction d as [|d IH]; intros pre P HL HP W H.
  - split; [|intros; lia]. specialize (H [] eq_refl I). rewrite app_nil_r in H. cbn [v_of rounds lr_sum] in *. rewrite H. lin OK.
  - assert (C : forall u, In u (q pre) ->
      reval R n (v_of d (pre ++ [u])) = P [+] (fmul u u [*] Lf pre [+] fmul (finv u) (finv u) [*] Rf pre) /\
      (forall suf, length suf < d -> path q (pre ++ [u]) suf ->
         reval R n (L_of k ((pre ++ [u]) ++ suf)) = Lf ((pre ++ [u]) ++ suf) /\ reval R n (R_of k ((pre ++ [u]) ++ suf)) = Rf ((pre ++ [u]) ++ suf))).
    { intros u Hu. apply IH; [rewrite app_length; cbn [length]; lia|apply path_app; split; [exact HP|exact Hu]|exact W|].
      intros suf HS PS. rewrite <- app_assoc. cbn [app]. rewrite (H (u :: suf)); [|cbn [length]; lia|cbn [path]; split; assumption].
      cbn [rounds lr_sum]. lin OK. }
    destruct (at3_points (v_of d) pre P (Lf pre) (Rf pre)) as (E0 & E1 & E2); [apply W; [lia|exact HP]|intros u Hu; apply C; exact Hu|].
    split; [exact E1|]. intros [|u suf] HS PS.
    + rewrite app_nil_r. unfold L_of, R_of. replace (k - length pre - 1) with d by lia. split; [exact E2|exact E0].
    + cbn [path] in PS. destruct PS as [Hu PS]. destruct (C u Hu) as [_ C']. cbn [length] in HS.
      replace (pre ++ u :: suf) with ((pre ++ [u]) ++ suf) by (rewrite <- app_assoc; reflexivity). apply C'; [lia|exact PS].
Qed.
End Points.

(** ** If all relations are trivial, the statement of the inner-product argument is right *)
Lemma rounds_length {X} (f : list F -> X) pre us : length (rounds f pre us) = length us.
Proof. revert pre. induction us as [|u us IH]; intros pre; [reflexivity|]. cbn [rounds length]. rewrite IH. reflexivity. Qed.
Lemma rounds_snoc {X} (f : list F -> X) pre us u : rounds f pre (us ++ [u]) = rounds f pre us ++ [f (pre ++ us)].
Proof. revert pre. induction us as [|v us IH]; intros pre; cbn [rounds app]; [rewrite app_nil_r; reflexivity|]. rewrite IH, <- app_assoc. reflexivity. Qed.
Lemma rounds_map {X Y} (g : X -> Y) f pre us : map g (rounds f pre us) = rounds (fun us => g (f us)) pre us.
Proof. revert pre. induction us as [|v us IH]; intros pre; cbn [rounds map]; [reflexivity|]. rewrite IH. reflexivity. Qed.
Lemma lr_rep_app us Ls Rs u L Rr v : length Ls = length us -> length Rs = length us ->
  req (lr_step (radd v (lr_rep us Ls Rs)) L Rr u) (radd v (lr_rep (us ++ [u]) (Ls ++ [L]) (Rs ++ [Rr]))).
Proof.
  revert Ls Rs v. induction us as [|x us IH]; intros [|l Ls] [|r Rs] v HL HR; cbn [length] in HL, HR; try lia.
  - cbn [app lr_rep]. split; [|split; [|split]]; intros; cbn [lr_step radd rscale rg rh rb rl rzero]; ring.
  - cbn [app lr_rep]. specialize (IH Ls Rs (radd v (radd (rscale (fmul x x) l) (rscale (fmul (finv x) (finv x)) r))) ltac:(lia) ltac:(lia)).
    destruct IH as (I1 & I2 & I3 & I4). split; [|split; [|split]]; intros; [specialize (I1 i)|specialize (I2 i)|clear I1 I2|clear I1 I2];
      cbn [lr_step radd rscale rg rh rb rl rzero] in *.
    + transitivity (fadd (fadd (rg v i) (fadd (fmul (fmul x x) (rg l i)) (fmul (fmul (finv x) (finv x)) (rg r i)))) (rg (lr_rep (us ++ [u]) (Ls ++ [L]) (Rs ++ [Rr])) i)); [rewrite <- I1; ring|ring].
    + transitivity (fadd (fadd (rh v i) (fadd (fmul (fmul x x) (rh l i)) (fmul (fmul (finv x) (finv x)) (rh r i)))) (rh (lr_rep (us ++ [u]) (Ls ++ [L]) (Rs ++ [Rr])) i)); [rewrite <- I2; ring|ring].
    + transitivity (fadd (fadd (rb v) (fadd (fmul (fmul x x) (rb l)) (fmul (fmul (finv x) (finv x)) (rb r)))) (rb (lr_rep (us ++ [u]) (Ls ++ [L]) (Rs ++ [Rr])))); [rewrite <- I3; ring|ring].
    + transitivity (fadd (fadd (rl v) (fadd (fmul (fmul x x) (rl l)) (fmul (fmul (finv x) (finv x)) (rl r)))) (rl (lr_rep (us ++ [u]) (Ls ++ [L]) (Rs ++ [Rr])))); [rewrite <- I4; ring|ring].
Qed.
Lemma NoDup_firstn {X} (l : list X) i : NoDup l -> NoDup (firstn i l).
Proof. intros H. rewrite <- (firstn_skipn i l) in H. revert H. generalize (firstn i l), (skipn i l). intros a b. induction a as [|x a IH]; intros H; [constructor|].
  cbn in H. inversion H as [|? ? N H']; subst. constructor; [intros I; apply N, in_or_app; left; exact I|apply IH; exact H']. Qed.
Lemma good_rounds q Lr Rr w y v k d : forall pre, length pre + d = k -> path q [] pre -> Forall (fun u => u <> f0) pre ->
  (forall us, length us < k -> path q [] us -> enough q us) ->
  (forall us, length us = k -> path q [] us -> good us 1 w y (radd v (lr_rep us (rounds Lr [] us) (rounds Rr [] us)))) ->
  good pre (2 ^ d) w y (radd v (lr_rep pre (rounds Lr [] pre) (rounds Rr [] pre))).
Proof.
  induction d as [|d IH]; intros pre HL HP NZ W H.
  - apply H; [lia|exact HP].
  - rewrite Nat.pow_succ_r'. destruct (W pre ltac:(lia) HP) as (ND & Len & Z).
    assert (In4 : forall u, In u (firstn 4 (q pre)) -> In u (q pre)) by (intros u Hu; rewrite <- (firstn_skipn 4 (q pre)); apply in_or_app; left; exact Hu).
    apply (round_sound pre (2 ^ d) w y _ (Lr pre) (Rr pre) (firstn 4 (q pre))).
    + exact NZ.
    + apply firstn_length_le. exact Len.
    + change (map sq (firstn 4 (q pre))) with (map (fun u => fmul u u) (firstn 4 (q pre))). rewrite <- firstn_map. apply NoDup_firstn. exact ND.
    + apply Forall_forall. intros u Hu E. apply Z. rewrite <- E. apply In4. exact Hu.
    + intros u Hu. apply In4 in Hu. assert (P' : path q [] (pre ++ [u])) by (apply (proj2 (path_app q [] pre u)); split; [exact HP|exact Hu]).
      assert (NZ' : Forall (fun u => u <> f0) (pre ++ [u])) by (apply Forall_app; split; [exact NZ|constructor; [intros E; apply Z; rewrite <- E; exact Hu|constructor]]).
      specialize (IH (pre ++ [u]) ltac:(rewrite app_length; cbn [length]; lia) P' NZ' W H). revert IH. apply good_req.
      rewrite !rounds_snoc. cbn [app]. apply req_sym. apply lr_rep_app; apply rounds_length.
Qed.
