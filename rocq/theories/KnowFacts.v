(** Extraction of a witness from a prover for the inner-product argument *)
From Coq Require Import String ZArith List Lia Bool Arith Field.
From Verif Require Import GoModel GoFacts Fld Rist RistFacts SpecVector VectorFacts InnerProductFacts SpecIPP Poly SpecSound SoundPoints RangeSound SpecRewind RewindIP SpecKnow.
Import ListNotations.
Local Open Scope nat_scope.

(** ** Coefficients *)
Definition cadd (v w : coefs) : coefs := mkCo (fun i => fadd (cg v i) (cg w i)) (fun i => fadd (ch v i) (ch w i)) (fadd (cq v) (cq w)).
Definition cscale (c : F) (v : coefs) : coefs := mkCo (fun i => fmul c (cg v i)) (fun i => fmul c (ch v i)) (fmul c (cq v)).
Definition csum3 (c1 c2 c3 : F) (e1 e2 e3 : coefs) : coefs := cadd (cadd (cscale c1 e1) (cscale c2 e2)) (cscale c3 e3).
Definition cquad0 (x1 x2 x3 : F) : coefs -> coefs -> coefs -> coefs :=
  csum3 (fmul (dq x1 x2 x3) (fmul x2 x3)) (fmul (dq x2 x1 x3) (fmul x1 x3)) (fmul (dq x3 x1 x2) (fmul x1 x2)).
Definition cquad1 (x1 x2 x3 : F) : coefs -> coefs -> coefs -> coefs :=
  csum3 (fneg (fmul (dq x1 x2 x3) (fadd x2 x3))) (fneg (fmul (dq x2 x1 x3) (fadd x1 x3))) (fneg (fmul (dq x3 x1 x2) (fadd x1 x2))).
Definition cquad2 (x1 x2 x3 : F) : coefs -> coefs -> coefs -> coefs := csum3 (dq x1 x2 x3) (dq x2 x1 x3) (dq x3 x1 x2).
(** coefficients of folded points, for the points *)
Definition up (n : nat) (u : F) (v : coefs) : coefs :=
  mkCo (fun i => if i <? n then fmul (finv u) (cg v i) else fmul u (cg v (i - n)))
       (fun i => if i <? n then fmul u (ch v i) else fmul (finv u) (ch v (i - n))) (cq v).

(** ** The extractor: coefficients of P, L and R in the first of d rounds *)
Section Extract.
Definition sub3 (f : F -> F -> F -> coefs -> coefs -> coefs -> coefs) (n : nat) (qs : list F) (child : F -> coefs) : coefs :=
  let u i := nth i qs f0 in
  let c i := cscale (fmul (u i) (u i)) (up n (u i) (child (u i))) in
  f (fmul (u 0) (u 0)) (fmul (u 1) (u 1)) (fmul (u 2) (u 2)) (c 0) (c 1) (c 2).
Fixpoint ext (d : nat) (q : list F -> list F) (aa bb : list F -> F) : coefs :=
  match d with
  | 0 => mkCo (fun _ => aa []) (fun _ => bb []) (fmul (aa []) (bb []))
  | S d => sub3 cquad1 (2 ^ d) (q []) (fun u => ext d (fun l => q (u :: l)) (fun l => aa (u :: l)) (fun l => bb (u :: l)))
  end.
Definition child (d : nat) (q : list F -> list F) (aa bb : list F -> F) (u : F) : coefs := ext d (fun l => q (u :: l)) (fun l => aa (u :: l)) (fun l => bb (u :: l)).
Definition gap0 (d : nat) (q : list F -> list F) (aa bb : list F -> F) (u : F) : coefs :=
  let c := child d q aa bb in
  cadd (up (2 ^ d) u (c u)) (cscale (fneg f1) (cadd (sub3 cquad1 (2 ^ d) (q []) c)
    (cadd (cscale (fmul u u) (sub3 cquad2 (2 ^ d) (q []) c)) (cscale (fmul (finv u) (finv u)) (sub3 cquad0 (2 ^ d) (q []) c))))).
Fixpoint gap (d : nat) (q : list F -> list F) (aa bb : list F -> F) (us : list F) (u : F) : coefs :=
  match d with
  | 0 => mkCo (fun _ => f0) (fun _ => f0) f0
  | S d => match us with
    | [] => gap0 d q aa bb u
    | u' :: us => up (2 ^ d) u' (gap d (fun l => q (u' :: l)) (fun l => aa (u' :: l)) (fun l => bb (u' :: l)) us u)
    end
  end.
End Extract.

Lemma path_sub q u us : forall pre, path q (u :: pre) us <-> path (fun l => q (u :: l)) pre us.
Proof. induction us as [|v us IH]; intros pre; cbn [path]; [tauto|]. change ((u :: pre) ++ [v]) with (u :: (pre ++ [v])). rewrite IH. tauto. Qed.
Lemma rounds_sub {X} (f : list F -> X) u us : forall pre, rounds f (u :: pre) us = rounds (fun l => f (u :: l)) pre us.
Proof. induction us as [|v us IH]; intros pre; cbn [rounds]; [reflexivity|]. change ((u :: pre) ++ [v]) with (u :: (pre ++ [v])). rewrite IH. reflexivity. Qed.
Lemma wide_sub k q u : ip_wide (S k) q -> In u (q []) -> ip_wide k (fun l => q (u :: l)).
Proof. intros W Hu us L P. apply (W (u :: us)); [cbn; lia|]. cbn [path]. split; [exact Hu|]. apply path_sub. exact P. Qed.

(** ** Points *)
Section Points.
Context {R : rist} (OK : rist_ok R).
Local Notation "p [+] q" := (padd R p q) (at level 50, left associativity).
Local Notation "s [*] p" := (smul R s p) (at level 40, left associativity).

Lemma co_add n G H Q v w : co_eval R n G H Q (cadd v w) = co_eval R n G H Q v [+] co_eval R n G H Q w.
Proof. unfold co_eval, cadd. cbn [cg ch cq]. rewrite !(msm_fun_add OK). lin OK. Qed.
Lemma co_scale n G H Q c v : co_eval R n G H Q (cscale c v) = c [*] co_eval R n G H Q v.
Proof. unfold co_eval, cscale. cbn [cg ch cq]. rewrite !(msm_fun_scale OK). lin OK. Qed.
Lemma cquad_points n G H Q x1 x2 x3 l e1 e2 e3 C0 C1 C2 : NoDup (x1 :: x2 :: x3 :: l) ->
  co_eval R n G H Q e1 = C0 [+] x1 [*] C1 [+] fmul x1 x1 [*] C2 ->
  co_eval R n G H Q e2 = C0 [+] x2 [*] C1 [+] fmul x2 x2 [*] C2 ->
  co_eval R n G H Q e3 = C0 [+] x3 [*] C1 [+] fmul x3 x3 [*] C2 ->
  co_eval R n G H Q (cquad0 x1 x2 x3 e1 e2 e3) = C0 /\ co_eval R n G H Q (cquad1 x1 x2 x3 e1 e2 e3) = C1 /\ co_eval R n G H Q (cquad2 x1 x2 x3 e1 e2 e3) = C2.
Proof.
  intros ND E1 E2 E3. destruct (nodup3 _ _ _ _ ND) as (D12 & D13 & D23).
  pose proof (swap_nz _ _ D12) as D21. pose proof (swap_nz _ _ D13) as D31. pose proof (swap_nz _ _ D23) as D32.
  assert (K : forall a b c, a = f1 -> b = f0 -> c = f0 -> a [*] C0 [+] b [*] C1 [+] c [*] C2 = C0) by (intros a b c -> -> ->; lin OK).
  assert (K1 : forall a b c, a = f0 -> b = f1 -> c = f0 -> a [*] C0 [+] b [*] C1 [+] c [*] C2 = C1) by (intros a b c -> -> ->; lin OK).
  assert (K2 : forall a b c, a = f0 -> b = f0 -> c = f1 -> a [*] C0 [+] b [*] C1 [+] c [*] C2 = C2) by (intros a b c -> -> ->; lin OK).
  assert (S : forall c1 c2 c3, co_eval R n G H Q (csum3 c1 c2 c3 e1 e2 e3) =
    fadd (fadd c1 c2) c3 [*] C0 [+] fadd (fadd (fmul c1 x1) (fmul c2 x2)) (fmul c3 x3) [*] C1
    [+] fadd (fadd (fmul c1 (fmul x1 x1)) (fmul c2 (fmul x2 x2))) (fmul c3 (fmul x3 x3)) [*] C2).
  { intros c1 c2 c3. unfold csum3. rewrite !co_add, !co_scale, E1, E2, E3. lin OK. }
  split; [|split]; unfold cquad0, cquad1, cquad2; rewrite S; [apply K|apply K1|apply K2]; unfold dq; field; repeat split; assumption.
Qed.

Lemma seq_plus n k : forall s, seq (n + s) k = map (fun i => n + i) (seq s k).
Proof. induction k as [|k IH]; intros s; [reflexivity|]. cbn [seq map]. f_equal. rewrite <- IH. f_equal. lia. Qed.
Lemma fun_split (f : nat -> F) n : map f (seq 0 (n + n)) = map f (seq 0 n) ++ map (fun i => f (n + i)) (seq 0 n).
Proof. rewrite seq_app, map_app. f_equal. replace (0 + n) with (n + 0) by lia. rewrite seq_plus, map_map. reflexivity. Qed.
Lemma msm_two n x y (f : nat -> F) G : length G = n + n ->
  msm R (map (fun i => if i <? n then fmul x (f i) else fmul y (f (i - n))) (seq 0 (n + n))) G =
  msm R (map f (seq 0 n)) (pfold (R := R) x y (firstn n G) (skipn n G)).
Proof.
  intros HG. destruct (half_len G n HG) as [G1 G2]. rewrite fun_split. rewrite <- (firstn_skipn n G) at 1.
  rewrite (msm_app OK) by (rewrite map_length, seq_length; lia).
  unfold pfold. rewrite (msm_pvadd OK) by (unfold pscale; rewrite !map_length; lia). rewrite !(msm_pscale OK), <- !(msm_fun_scale OK). f_equal.
  - apply msm_fun_ext. intros i Hi. destruct (Nat.ltb_spec i n); [reflexivity|lia].
  - apply msm_fun_ext. intros i Hi. destruct (Nat.ltb_spec (n + i) n); [lia|]. replace (n + i - n) with i by lia. reflexivity.
Qed.
Definition foldG (n : nat) (u : F) (G : list (pt R)) : list (pt R) := pfold (R := R) (finv u) u (firstn n G) (skipn n G).
Definition foldH (n : nat) (u : F) (H : list (pt R)) : list (pt R) := pfold (R := R) u (finv u) (firstn n H) (skipn n H).
Lemma up_eval n u v G H Q : length G = n + n -> length H = n + n ->
  co_eval R (n + n) G H Q (up n u v) = co_eval R n (foldG n u G) (foldH n u H) Q v.
Proof. intros HG HH. unfold co_eval, up, foldG, foldH. cbn [cg ch cq]. rewrite !msm_two by assumption. reflexivity. Qed.
Lemma fold_len n u G : length G = n + n -> length (foldG n u G) = n /\ length (foldH n u G) = n.
Proof. intros HG. unfold foldG, foldH. rewrite !pfold_length, !firstn_length, !skipn_length. lia. Qed.

(** the equation, for H already multiplied with the factors *)
Definition eqn (G H : list (pt R)) (Q P : pt R) (us : list F) (Ls Rs : list (pt R)) (a b : F) : Prop :=
  P [+] lr_sum R us Ls Rs = a [*] msm R (svec us) G [+] b [*] msm R (svec (map finv us)) H [+] fmul a b [*] Q.
Lemma eqn_cons n G H Q P u us L Ls Rr Rs a b : n = 2 ^ length us -> length G = n + n -> length H = n + n ->
  eqn G H Q P (u :: us) (L :: Ls) (Rr :: Rs) a b <->
  eqn (foldG n u G) (foldH n u H) Q (P [+] (fmul u u [*] L [+] fmul (finv u) (finv u) [*] Rr)) us Ls Rs a b.
Proof.
  intros Hn HG HH. unfold eqn. rewrite (svec_fold OK u us n G) by assumption. rewrite (svec_fold_inv OK u us n H) by assumption.
  fold (foldG n u G). fold (foldH n u H). cbn [lr_sum].
  replace (P [+] (fmul u u [*] L [+] fmul (finv u) (finv u) [*] Rr) [+] lr_sum R us Ls Rs) with
    (P [+] (fmul u u [*] L [+] fmul (finv u) (finv u) [*] Rr [+] lr_sum R us Ls Rs)) by lin OK. tauto.
Qed.

Lemma pow2_S d : 2 ^ S d = 2 ^ d + 2 ^ d. Proof. cbn. lia. Qed.
Lemma extracted d : forall q aa bb G H Q P Lf Rf, ip_wide d q -> length G = 2 ^ d -> length H = 2 ^ d ->
  (forall us, length us = d -> path q [] us -> eqn G H Q P us (rounds Lf [] us) (rounds Rf [] us) (aa us) (bb us)) ->
  co_eval R (2 ^ d) G H Q (ext d q aa bb) = P /\
  (forall us u, length us < d -> path q [] us -> In u (q us) -> co_eval R (2 ^ d) G H Q (gap d q aa bb us u) = pt0 R).
Proof.
  induction d as [|d IH]; intros q aa bb G H Q P Lf Rf W HG HH E.
  - split; [|intros; lia]. specialize (E [] eq_refl I). unfold eqn in E. cbn [rounds lr_sum svec map] in E.
    destruct G as [|g [|? ?]]; try discriminate HG. destruct H as [|h [|? ?]]; try discriminate HH.
    rewrite (padd_0_r OK) in E. rewrite E. unfold co_eval. cbn [ext cg ch cq Nat.pow seq map]. unfold msm, psum. cbn [zipw fold_right]. lin OK.
  - rewrite pow2_S in *. set (n := 2 ^ d) in *.
    assert (C : forall u, In u (q []) ->
      co_eval R n (foldG n u G) (foldH n u H) Q (child d q aa bb u) = P [+] (fmul u u [*] Lf [] [+] fmul (finv u) (finv u) [*] Rf []) /\
      (forall us u', length us < d -> path (fun l => q (u :: l)) [] us -> In u' (q (u :: us)) ->
         co_eval R n (foldG n u G) (foldH n u H) Q (gap d (fun l => q (u :: l)) (fun l => aa (u :: l)) (fun l => bb (u :: l)) us u') = pt0 R)).
    { intros u Hu. destruct (fold_len n u G HG) as [LG _]. destruct (fold_len n u H HH) as [_ LH].
      apply (IH (fun l => q (u :: l)) (fun l => aa (u :: l)) (fun l => bb (u :: l)) _ _ Q _ (fun l => Lf (u :: l)) (fun l => Rf (u :: l))); [apply wide_sub; assumption|exact LG|exact LH|].
      intros us LU PU. apply (eqn_cons n G H Q P u us (Lf []) _ (Rf [])); [rewrite LU; reflexivity|exact HG|exact HH|].
      rewrite <- !rounds_sub. apply (E (u :: us)); [cbn; lia|]. cbn [path]. split; [exact Hu|]. apply path_sub. exact PU. }
    assert (K : co_eval R (n + n) G H Q (sub3 cquad0 n (q []) (child d q aa bb)) = Rf [] /\
                co_eval R (n + n) G H Q (sub3 cquad1 n (q []) (child d q aa bb)) = P /\
                co_eval R (n + n) G H Q (sub3 cquad2 n (q []) (child d q aa bb)) = Lf []).
    { destruct (W [] ltac:(cbn; lia) I) as (ND & Len & NZ). unfold sub3. destruct (q []) as [|u1 [|u2 [|u3 us]]] eqn:EQ; try (cbn [length] in Len; lia). cbn [nth].
      assert (K : forall u, In u (u1 :: u2 :: u3 :: us) ->
        co_eval R (n + n) G H Q (cscale (fmul u u) (up n u (child d q aa bb u))) = Rf [] [+] fmul u u [*] P [+] fmul (fmul u u) (fmul u u) [*] Lf []).
      { intros u Hu. rewrite co_scale, up_eval by assumption. rewrite (proj1 (C u Hu)). assert (N : u <> f0) by (intros ->; contradiction).
        transitivity (fmul (fmul u u) (fmul (finv u) (finv u)) [*] Rf [] [+] fmul u u [*] P [+] fmul (fmul u u) (fmul u u) [*] Lf []); [lin OK|].
        replace (fmul (fmul u u) (fmul (finv u) (finv u))) with f1 by (field; exact N). lin OK. }
      cbn [map] in ND. apply (cquad_points (n + n) G H Q _ _ _ _ _ _ _ _ _ _ ND); apply K; cbn [In]; tauto. }
    destruct K as (K0 & K1 & K2). split; [exact K1|].
    intros [|u' us] u LU PU Hu; cbn [gap].
    + unfold gap0. cbv zeta. fold n. rewrite co_add, up_eval, (proj1 (C u Hu)), co_scale, !co_add, !co_scale, K0, K1, K2 by assumption. lin OK.
    + fold n. rewrite up_eval by assumption. cbn [path] in PU. destruct PU as [Hu' PU]. apply (proj2 (C u' Hu')); [cbn in LU; lia|apply path_sub; exact PU|exact Hu].
Qed.
End Points.

(** ** Scalars *)
Lemma up_zero n u v : u <> f0 -> co_zero (n + n) (up n u v) -> co_zero n v.
Proof.
  intros N [Z Zq]. split; [|exact Zq]. intros i Hi. destruct (Z i ltac:(lia)) as [Z1 Z2]. unfold up in Z1, Z2. cbn [cg ch] in Z1, Z2.
  destruct (Nat.ltb_spec i n); [|lia]. split.
  - apply fmul_integral in Z1. destruct Z1 as [Z1|Z1]; [|exact Z1]. exfalso. exact (finv_neq0 _ N Z1).
  - apply fmul_integral in Z2. destruct Z2 as [Z2|Z2]; [contradiction|exact Z2].
Qed.
(** one position: the halves of the coefficients of P, L, R *)
Lemma halves4 (us : list F) (a : F -> F) (p0 p1 l0 l1 r0 r1 : F) : NoDup (map (fun u => fmul u u) us) -> 4 <= length us -> ~ In f0 us ->
  (forall u, In u us -> fmul (finv u) (a u) = fadd p0 (fadd (fmul (fmul u u) l0) (fmul (fmul (finv u) (finv u)) r0)) /\
                        fmul u (a u) = fadd p1 (fadd (fmul (fmul u u) l1) (fmul (fmul (finv u) (finv u)) r1))) ->
  forall u, In u us -> a u = fadd (fmul u p0) (fmul (finv u) p1).
Proof.
  intros ND Len NZ E. assert (NU : forall u, In u us -> u <> f0) by (intros u I ->; contradiction).
  assert (X : Forall (fun c => c = f0) [fneg r1; fsub r0 p1; fsub p0 l1; l0]).
  { apply (roots_zero (map (fun u => fmul u u) us)); [exact ND|cbn [length]; rewrite map_length; exact Len|]. apply Forall_forall. intros x Ix. apply in_map_iff in Ix. destruct Ix as (u & <- & Iu).
    pose proof (NU u Iu) as N. destruct (E u Iu) as [E1 E2]. cbn [peval fold_right].
    assert (A : fmul (fmul u u) (fmul u (a u)) = fmul (fmul (fmul u u) (fmul u u)) (fmul (finv u) (a u))) by (field; exact N).
    rewrite E1, E2 in A. 
    transitivity (fsub (fmul (fmul (fmul u u) (fmul u u)) (fadd p0 (fadd (fmul (fmul u u) l0) (fmul (fmul (finv u) (finv u)) r0))))
                       (fmul (fmul u u) (fadd p1 (fadd (fmul (fmul u u) l1) (fmul (fmul (finv u) (finv u)) r1))))); [field; exact N|]. rewrite A. ring. }
  inversion X as [|? ? X1 X']; subst. inversion X' as [|? ? X2 X'']; subst. inversion X'' as [|? ? X3 X3']; subst. inversion X3' as [|? ? X4 _]; subst.
  intros u Iu. pose proof (NU u Iu) as N. destruct (E u Iu) as [E1 _].
  apply fsub_eq in X2. transitivity (fmul u (fmul (finv u) (a u))); [field; exact N|]. rewrite E1, X2. field. exact N.
Qed.
Lemma extracted_dot d : forall q aa bb, ip_wide d q ->
  (forall us u, length us < d -> path q [] us -> In u (q us) -> co_zero (2 ^ d) (gap d q aa bb us u)) ->
  let v := ext d q aa bb in cq v = Sum (2 ^ d) (fun i => fmul (cg v i) (ch v i)).
Proof.
  induction d as [|d IH]; intros q aa bb W Z v.
  - subst v. cbn [ext cg ch cq Nat.pow]. rewrite Sum_S, Sum_0. ring.
  - subst v. rewrite pow2_S in *. set (n := 2 ^ d) in *. destruct (W [] ltac:(cbn; lia) I) as (ND & Len & NZ).
    assert (NU : forall u, In u (q []) -> u <> f0) by (intros u I0 ->; contradiction).
    assert (C : forall u, In u (q []) -> cq (child d q aa bb u) = Sum n (fun i => fmul (cg (child d q aa bb u) i) (ch (child d q aa bb u) i))).
    { intros u Hu. apply (IH (fun l => q (u :: l)) (fun l => aa (u :: l)) (fun l => bb (u :: l))); [apply wide_sub; assumption|].
      intros us u' LU PU Hu'. apply (up_zero n u); [apply NU; exact Hu|]. apply (Z (u :: us) u'); [cbn; lia| |exact Hu']. cbn [path]. split; [exact Hu|]. apply path_sub. exact PU. }
    set (P := sub3 cquad1 n (q []) (child d q aa bb)) in *. set (L := sub3 cquad2 n (q []) (child d q aa bb)). set (Rr := sub3 cquad0 n (q []) (child d q aa bb)).
    change (ext (S d) q aa bb) with P.
    assert (T : forall u, In u (q []) -> co_zero (n + n) (gap0 d q aa bb u)) by (intros u Hu; apply (Z [] u); [cbn; lia|exact I|exact Hu]).
    assert (T' : forall u, In u (q []) -> (forall i, i < n + n -> 
        cg (up n u (child d q aa bb u)) i = fadd (cg P i) (fadd (fmul (fmul u u) (cg L i)) (fmul (fmul (finv u) (finv u)) (cg Rr i))) /\
        ch (up n u (child d q aa bb u)) i = fadd (ch P i) (fadd (fmul (fmul u u) (ch L i)) (fmul (fmul (finv u) (finv u)) (ch Rr i)))) /\
        cq (child d q aa bb u) = fadd (cq P) (fadd (fmul (fmul u u) (cq L)) (fmul (fmul (finv u) (finv u)) (cq Rr)))).
    { intros u Hu. destruct (T u Hu) as [T1 T2]. unfold gap0 in T1, T2. cbv zeta in T1, T2. fold n in T1, T2. fold P L Rr in T1, T2.
      split; [|apply fsub_eq; rewrite <- T2; cbn [cadd cscale cq up]; ring].
      intros i Hi. destruct (T1 i Hi) as [A B]. split; apply fsub_eq; [rewrite <- A|rewrite <- B]; cbn [cadd cscale cg ch]; ring. }
    assert (A : forall i, i < n -> forall u, In u (q []) -> cg (child d q aa bb u) i = fadd (fmul u (cg P i)) (fmul (finv u) (cg P (n + i)))).
    { intros i Hi. apply (halves4 (q []) (fun u => cg (child d q aa bb u) i) _ _ (cg L i) (cg L (n + i)) (cg Rr i) (cg Rr (n + i)) ND Len NZ). intros u Hu. destruct (T' u Hu) as [T1 _].
      destruct (T1 i ltac:(lia)) as [G1 _]. destruct (T1 (n + i) ltac:(lia)) as [G2 _]. unfold up in G1, G2. cbn [cg] in G1, G2.
      destruct (Nat.ltb_spec i n); [|lia]. destruct (Nat.ltb_spec (n + i) n); [lia|]. replace (n + i - n) with i in G2 by lia. split; assumption. }
    assert (B : forall i, i < n -> forall u, In u (q []) -> ch (child d q aa bb u) i = fadd (fmul u (ch P (n + i))) (fmul (finv u) (ch P i))).
    { intros i Hi. apply (halves4 (q []) (fun u => ch (child d q aa bb u) i) _ _ (ch L (n + i)) (ch L i) (ch Rr (n + i)) (ch Rr i) ND Len NZ). intros u Hu. destruct (T' u Hu) as [T1 _].
      destruct (T1 i ltac:(lia)) as [_ G1]. destruct (T1 (n + i) ltac:(lia)) as [_ G2]. unfold up in G1, G2. cbn [ch] in G1, G2.
      destruct (Nat.ltb_spec i n); [|lia]. destruct (Nat.ltb_spec (n + i) n); [lia|]. replace (n + i - n) with i in G2 by lia. split; assumption. }
    set (dd := fun x y => Sum n (fun i => fmul (cg P (x + i)) (ch P (y + i)))).
    assert (D : forall u, In u (q []) -> cq (child d q aa bb u) =
      fadd (fadd (dd 0 0) (dd n n)) (fadd (fmul (fmul u u) (dd 0 n)) (fmul (fmul (finv u) (finv u)) (dd n 0)))).
    { intros u Hu. pose proof (NU u Hu) as N. rewrite (C u Hu). unfold dd. rewrite <- !Sum_scale, <- !Sum_add. apply Sum_ext. intros i Hi. rewrite (A i Hi u Hu), (B i Hi u Hu). cbn [Nat.add]. field. exact N. }
    assert (X : Forall (fun c => c = f0) [fsub (cq Rr) (dd n 0); fsub (cq P) (fadd (dd 0 0) (dd n n)); fsub (cq L) (dd 0 n)]).
    { apply (roots_zero (map (fun u => fmul u u) (q []))); [exact ND|cbn [length]; rewrite map_length; lia|]. apply Forall_forall. intros x Ix. apply in_map_iff in Ix. destruct Ix as (u & <- & Iu).
      pose proof (NU u Iu) as N. destruct (T' u Iu) as [_ E]. rewrite (D u Iu) in E. cbn [peval fold_right].
      transitivity (fmul (fmul u u) (fsub (fadd (cq P) (fadd (fmul (fmul u u) (cq L)) (fmul (fmul (finv u) (finv u)) (cq Rr))))
        (fadd (fadd (dd 0 0) (dd n n)) (fadd (fmul (fmul u u) (dd 0 n)) (fmul (fmul (finv u) (finv u)) (dd n 0)))))); [field; exact N|]. rewrite E. ring. }
    apply Forall_inv_tail, Forall_inv in X. apply fsub_eq in X. rewrite X, Sum_split. reflexivity.
Qed.

(** ** A prover that answers all challenges *)
Section Honest.
Context {R : rist} (OK : rist_ok R) (Q : pt R).
Local Notation "p [+] q" := (padd R p q) (at level 50, left associativity).
Fixpoint node (f : nat -> list F -> list F -> list (pt R) -> list (pt R) -> pt R) (d : nat) (a b : list F) (G H : list (pt R)) (us : list F) : pt R :=
  let n := 2 ^ (d - 1) in
  match us with
  | [] => f n a b G H
  | u :: us => node f (d - 1) (vfold u (finv u) (firstn n a) (skipn n a)) (vfold (finv u) u (firstn n b) (skipn n b)) (foldG n u G) (foldH n u H) us
  end.
Fixpoint leaf (d : nat) (a : list F) (u v : F -> F) (us : list F) : F :=
  let n := 2 ^ (d - 1) in
  match us with [] => hd f0 a | x :: us => leaf (d - 1) (vfold (u x) (v x) (firstn n a) (skipn n a)) u v us end.
Definition honest_L := node (fun n a b G H => Lpt n a b G H Q).
Definition honest_R := node (fun n a b G H => Rpt n a b G H Q).
Lemma honest_eqn us : forall a b G H, Forall (fun u => u <> f0) us -> length a = 2 ^ length us -> length b = 2 ^ length us -> length G = 2 ^ length us -> length H = 2 ^ length us ->
  eqn G H Q (ipp_point R a b G H Q) us (rounds (honest_L (length us) a b G H) [] us) (rounds (honest_R (length us) a b G H) [] us)
    (leaf (length us) a (fun u => u) finv us) (leaf (length us) b finv (fun u => u) us).
Proof.
  induction us as [|u us IH]; intros a b G H NZ La Lb LG LH.
  - destruct a as [|a [|? ?]]; try discriminate La. destruct b as [|b [|? ?]]; try discriminate Lb. destruct G as [|g [|? ?]]; try discriminate LG. destruct H as [|h [|? ?]]; try discriminate LH.
    unfold eqn, ipp_point. cbn [rounds lr_sum svec map leaf hd]. unfold msm, psum, dot, fsum. cbn [zipw fold_right]. lin OK.
  - inversion NZ as [|? ? N NZ']; subst. cbn [length] in *. rewrite pow2_S in *. set (n := 2 ^ length us) in *.
    cbn [rounds app]. apply (eqn_cons OK n); [reflexivity|exact LG|exact LH|].
    rewrite !rounds_sub. cbn [leaf]. replace (S (length us) - 1) with (length us) by lia. fold n.
    destruct (fold_len n u G LG) as [LG' _]. destruct (fold_len n u H LH) as [_ LH'].
    assert (La' : length (vfold u (finv u) (firstn n a) (skipn n a)) = n) by (rewrite vfold_length, firstn_length, skipn_length; lia).
    assert (Lb' : length (vfold (finv u) u (firstn n b) (skipn n b)) = n) by (rewrite vfold_length, firstn_length, skipn_length; lia).
    pose proof (IH _ _ _ _ NZ' La' Lb' LG' LH') as E. pose proof (ipp_point_step OK n u a b G H Q N La Lb LG LH) as St. fold (foldG n u G) in St. fold (foldH n u H) in St. rewrite St in E.
    assert (X : forall f, (fun l => node f (S (length us)) a b G H (u :: l)) =
      node f (length us) (vfold u (finv u) (firstn n a) (skipn n a)) (vfold (finv u) u (firstn n b) (skipn n b)) (foldG n u G) (foldH n u H)).
    { intros f. cbn [node]. replace (S (length us) - 1) with (length us) by lia. reflexivity. }
    unfold honest_L, honest_R. rewrite !X.
    replace (node (fun n a b G H => Lpt n a b G H Q) (S (length us)) a b G H []) with (Lpt n a b G H Q) by (cbn [node]; replace (S (length us) - 1) with (length us) by lia; reflexivity).
    replace (node (fun n a b G H => Rpt n a b G H Q) (S (length us)) a b G H []) with (Rpt n a b G H Q) by (cbn [node]; replace (S (length us) - 1) with (length us) by lia; reflexivity).
    exact E.
Qed.
End Honest.
