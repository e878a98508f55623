(** Rounds of the inner-product argument: a wrong commitment stays wrong except for few challenges *)
From Coq Require Import ZArith List Lia Bool Arith Field.
From Verif Require Import Fld SpecVector VectorFacts InnerProductFacts SpecIPP SpecRange SpecSound Poly.
Import ListNotations.
Local Open Scope nat_scope.

(** ** Decidability *)
Definition dec (P : Prop) : Prop := P \/ ~ P.
Lemma dec_and P Q : dec P -> dec Q -> dec (P /\ Q). Proof. unfold dec. tauto. Qed.
Lemma dec_eq (a b : F) : dec (a = b). Proof. destruct (F_eq_dec a b); [left|right]; assumption. Qed.
Lemma dec_all n (P : nat -> Prop) : (forall i, i < n -> dec (P i)) -> dec (forall i, i < n -> P i).
Proof.
  induction n as [|n IH]; intros D; [left; intros; lia|].
  destruct IH as [H|H]; [intros; apply D; lia| |right; intros C; apply H; intros; apply C; lia].
  destruct (D n) as [E|E]; [lia| |right; intros C; apply E, C; lia].
  left. intros i Hi. destruct (Nat.eq_dec i n) as [->|N]; [exact E|apply H; lia].
Qed.
Lemma dec_iff P Q : (P <-> Q) -> dec P -> dec Q. Proof. unfold dec. tauto. Qed.

(** ** Spread vectors *)
Lemma spread_app us vs m l i : spread (us ++ vs) m l i = spread us (m * 2 ^ length vs) (spread vs m l) i.
Proof.
  revert i. induction us as [|u us IH]; intros i; [reflexivity|]. cbn [app spread]. rewrite app_length.
  replace (m * 2 ^ (length us + length vs)) with (m * 2 ^ length vs * 2 ^ length us) by (rewrite Nat.pow_add_r; lia).
  rewrite !IH. reflexivity.
Qed.
Lemma pow2_pos k : 0 < 2 ^ k. Proof. apply Nat.neq_0_lt_0. apply Nat.pow_nonzero. lia. Qed.
Lemma spread_ext us m l l' i : (forall j, j < m -> l j = l' j) -> i < m * 2 ^ length us -> spread us m l i = spread us m l' i.
Proof.
  intros E. revert i. induction us as [|u us IH]; intros i Hi; cbn [spread length] in *.
  - apply E. cbn in Hi. lia.
  - rewrite Nat.pow_succ_r' in Hi. destruct (Nat.ltb_spec i (m * 2 ^ length us)); rewrite IH by lia; reflexivity.
Qed.
Lemma spread_lin us m a b c l l' l'' i :
  spread us m (fun j => fadd (fadd (fmul a (l j)) (fmul b (l' j))) (fmul c (l'' j))) i =
  fadd (fadd (fmul a (spread us m l i)) (fmul b (spread us m l' i))) (fmul c (spread us m l'' i)).
Proof.
  revert i. induction us as [|u us IH]; intros i; [reflexivity|]. cbn [spread].
  destruct (i <? m * 2 ^ length us); rewrite IH; ring.
Qed.
Lemma spread_inj us m l l' : Forall (fun u => u <> f0) us ->
  (forall i, i < m * 2 ^ length us -> spread us m l i = spread us m l' i) -> forall j, j < m -> l j = l' j.
Proof.
  intros NZ. induction NZ as [|u us N NZ IH]; intros E j Hj.
  - apply E. cbn. lia.
  - apply IH; [|exact Hj]. intros i Hi. specialize (E i). cbn [spread length] in E. rewrite Nat.pow_succ_r' in E.
    destruct (Nat.ltb_spec i (m * 2 ^ length us)) as [_|C]; [|lia]. specialize (E ltac:(lia)).
    apply (f_equal (fmul u)) in E. transitivity (fmul u (fmul (finv u) (spread us m l i))); [field; exact N|].
    rewrite E. field. exact N.
Qed.
Lemma map_finv_nz us : Forall (fun u => u <> f0) us -> Forall (fun u => u <> f0) (map finv us).
Proof. induction 1; cbn; [constructor|]. constructor; [apply finv_neq0; assumption|assumption]. Qed.
Definition prod (us : list F) : F := fold_right fmul f1 us.
Lemma spread_first us m l i : i < m -> spread us m l i = fmul (prod (map finv us)) (l i).
Proof.
  intros Hi. induction us as [|u us IH]; [cbn; ring|]. cbn [spread map prod fold_right].
  destruct (Nat.ltb_spec i (m * 2 ^ length us)) as [_|C].
  - rewrite IH. unfold prod. ring.
  - pose proof (pow2_pos (length us)). nia.
Qed.
Lemma prod_inv us : Forall (fun u => u <> f0) us -> fmul (prod us) (prod (map finv us)) = f1.
Proof.
  induction 1 as [|u us N _ IH]; [cbn; ring|]. cbn [map prod fold_right]. fold (prod us) (prod (map finv us)).
  transitivity (fmul (fmul u (finv u)) (fmul (prod us) (prod (map finv us)))); [ring|]. rewrite IH. field. exact N.
Qed.
(** the vectors can be read off *)
Definition lof (us : list F) (v : rep) (i : nat) : F := fmul (prod us) (rg v i).
Definition rof (us : list F) (y : F) (v : rep) (i : nat) : F := fmul (prod (map finv us)) (fmul (fpow y i) (rh v i)).
Definition good_at (us : list F) (m : nat) (w y : F) (v : rep) (l r : nat -> F) : Prop :=
  (forall i, i < m * 2 ^ length us -> rg v i = spread us m l i) /\
  (forall i, i < m * 2 ^ length us -> fmul (fpow y i) (rh v i) = spread (map finv us) m r i) /\
  rb v = fmul w (Sum m (fun i => fmul (l i) (r i))) /\ rl v = f0.
Lemma good_canon us m w y v : Forall (fun u => u <> f0) us -> (good us m w y v <-> good_at us m w y v (lof us v) (rof us y v)).
Proof.
  intros NZ. pose proof (map_finv_nz us NZ) as NZ'. split; [|intros H; eexists; eexists; exact H].
  intros (l' & r' & H1 & H2 & H3 & H4).
  assert (B : m <= m * 2 ^ length us) by (pose proof (pow2_pos (length us)); nia).
  assert (E1 : forall i, i < m -> l' i = lof us v i).
  { intros i Hi. unfold lof. rewrite H1 by lia. rewrite spread_first by exact Hi.
    transitivity (fmul (fmul (prod us) (prod (map finv us))) (l' i)); [rewrite prod_inv by exact NZ; ring|ring]. }
  assert (E2 : forall i, i < m -> r' i = rof us y v i).
  { intros i Hi. unfold rof. rewrite H2 by lia. rewrite spread_first by exact Hi.
    transitivity (fmul (fmul (prod (map finv us)) (prod (map finv (map finv us)))) (r' i)); [rewrite prod_inv by exact NZ'; ring|ring]. }
  split; [intros i Hi; rewrite H1 by exact Hi; apply spread_ext; [exact E1|exact Hi]|].
  split; [intros i Hi; rewrite H2 by exact Hi; apply spread_ext; [exact E2|rewrite map_length; exact Hi]|].
  split; [|exact H4]. rewrite H3. f_equal. apply Sum_ext. intros i Hi. rewrite E1, E2 by exact Hi. reflexivity.
Qed.
Lemma good_dec us m w y v : Forall (fun u => u <> f0) us -> dec (good us m w y v).
Proof.
  intros NZ. eapply dec_iff; [symmetry; apply good_canon; exact NZ|].
  unfold good_at. repeat apply dec_and; try (apply dec_all; intros); apply dec_eq.
Qed.

(** ** Interpolation: s, L, R from s + U L + R/U at three different U *)
Lemma interp3 u1 u2 u3 : u1 <> f0 -> u2 <> f0 -> u3 <> f0 -> NoDup [sq u1; sq u2; sq u3] ->
  exists n1 n2 n3 l1 l2 l3 r1 r2 r3 : F, forall s L R,
    let a1 := fadd s (fadd (fmul (fmul u1 u1) L) (fmul (fmul (finv u1) (finv u1)) R)) in
    let a2 := fadd s (fadd (fmul (fmul u2 u2) L) (fmul (fmul (finv u2) (finv u2)) R)) in
    let a3 := fadd s (fadd (fmul (fmul u3 u3) L) (fmul (fmul (finv u3) (finv u3)) R)) in
    s = fadd (fadd (fmul n1 a1) (fmul n2 a2)) (fmul n3 a3) /\
    L = fadd (fadd (fmul l1 a1) (fmul l2 a2)) (fmul l3 a3) /\
    R = fadd (fadd (fmul r1 a1) (fmul r2 a2)) (fmul r3 a3).
Proof.
  intros N1 N2 N3 ND. unfold sq in ND.
  assert (D : forall a b, a <> b -> fsub a b <> f0). { intros a b H E. apply H. replace a with (fadd (fsub a b) b) by ring. rewrite E. ring. }
  inversion ND as [|? ? I1 ND2]; subst. inversion ND2 as [|? ? I2 _]; subst. cbn [In] in I1, I2.
  pose proof (D _ _ (fun E => I1 (or_introl (eq_sym E)))) as D12. pose proof (D _ _ (fun E => I1 (or_intror (or_introl (eq_sym E))))) as D13.
  pose proof (D _ _ (fun E => I2 (or_introl (eq_sym E)))) as D23. clear ND ND2 I1 I2 D.
  set (U1 := fmul u1 u1) in *. set (U2 := fmul u2 u2) in *. set (U3 := fmul u3 u3) in *.
  set (d1 := fmul U1 (finv (fmul (fsub U1 U2) (fsub U1 U3)))).
  set (d2 := fmul U2 (finv (fmul (fsub U1 U2) (fsub U2 U3)))).
  set (d3 := fmul U3 (finv (fmul (fsub U1 U3) (fsub U2 U3)))).
  exists (fneg (fmul d1 (fadd U2 U3))), (fmul d2 (fadd U1 U3)), (fneg (fmul d3 (fadd U1 U2))),
    d1, (fneg d2), d3, (fmul d1 (fmul U2 U3)), (fneg (fmul d2 (fmul U1 U3))), (fmul d3 (fmul U1 U2)).
  assert (I1 : fmul (finv u1) (finv u1) = finv U1) by (unfold U1; field; assumption).
  assert (I2 : fmul (finv u2) (finv u2) = finv U2) by (unfold U2; field; assumption).
  assert (I3 : fmul (finv u3) (finv u3) = finv U3) by (unfold U3; field; assumption).
  intros s L R. rewrite I1, I2, I3. 
  assert (Z1 : U1 <> f0) by (intros E; apply fmul_integral in E; tauto).
  assert (Z2 : U2 <> f0) by (intros E; apply fmul_integral in E; tauto).
  assert (Z3 : U3 <> f0) by (intros E; apply fmul_integral in E; tauto).
  unfold d1, d2, d3. clearbody U1 U2 U3. cbv zeta. split; [|split]; field; repeat split; assumption.
Qed.

(** ** The round *)
Lemma step_rg v L R u i : rg (lr_step v L R u) i = fadd (rg v i) (fadd (fmul (fmul u u) (rg L i)) (fmul (fmul (finv u) (finv u)) (rg R i))).
Proof. reflexivity. Qed.
(** a vector of length 2m is in the image of spread us; so are those of L and R *)
Lemma in_image us n (s L R : nat -> F) (ws : F -> nat -> F) u1 u2 u3 :
  u1 <> f0 -> u2 <> f0 -> u3 <> f0 -> NoDup [sq u1; sq u2; sq u3] ->
  (forall u, In u [u1; u2; u3] -> forall i, i < n * 2 ^ length us ->
     fadd (s i) (fadd (fmul (fmul u u) (L i)) (fmul (fmul (finv u) (finv u)) (R i))) = spread us n (ws u) i) ->
  exists s' L' R' : nat -> F, forall i, i < n * 2 ^ length us ->
    s i = spread us n s' i /\ L i = spread us n L' i /\ R i = spread us n R' i.
Proof.
  intros N1 N2 N3 ND H. destruct (interp3 u1 u2 u3 N1 N2 N3 ND) as (n1 & n2 & n3 & l1 & l2 & l3 & r1 & r2 & r3 & I).
  exists (fun j => fadd (fadd (fmul n1 (ws u1 j)) (fmul n2 (ws u2 j))) (fmul n3 (ws u3 j))),
    (fun j => fadd (fadd (fmul l1 (ws u1 j)) (fmul l2 (ws u2 j))) (fmul l3 (ws u3 j))),
    (fun j => fadd (fadd (fmul r1 (ws u1 j)) (fmul r2 (ws u2 j))) (fmul r3 (ws u3 j))).
  intros i Hi. rewrite !spread_lin. rewrite <- !H by (cbn; auto; exact Hi). exact (I (s i) (L i) (R i)).
Qed.
(** the two halves: lo = hi / u^2 for four different squares *)
Lemma halves s0 s1 L0 L1 R0 R1 us : length us = 4 -> NoDup (map sq us) -> Forall (fun u => u <> f0) us ->
  (forall u, In u us -> exists l,
     fadd s0 (fadd (fmul (fmul u u) L0) (fmul (fmul (finv u) (finv u)) R0)) = fmul (finv u) l /\
     fadd s1 (fadd (fmul (fmul u u) L1) (fmul (fmul (finv u) (finv u)) R1)) = fmul u l) ->
  L0 = f0 /\ L1 = s0 /\ R0 = s1 /\ R1 = f0.
Proof.
  intros Len ND NZ H.
  assert (Z : Forall (fun c => c = f0) [R1; fsub s1 R0; fsub L1 s0; fneg L0]).
  { apply (roots_zero (map sq us)); [exact ND|rewrite map_length; cbn; lia|]. apply Forall_forall. intros U HU.
    apply in_map_iff in HU. destruct HU as (u & <- & Hu). destruct (H u Hu) as (l & E0 & E1).
    rewrite Forall_forall in NZ. specialize (NZ u Hu). unfold peval, sq. cbn [fold_right].
    assert (X : fadd s1 (fadd (fmul (fmul u u) L1) (fmul (fmul (finv u) (finv u)) R1)) =
                fmul (fmul u u) (fadd s0 (fadd (fmul (fmul u u) L0) (fmul (fmul (finv u) (finv u)) R0)))).
    { rewrite E0, E1. field. exact NZ. }
    apply (f_equal (fun t => fmul (fmul u u) t)) in X.
    transitivity (fsub (fmul (fmul u u) (fadd s1 (fadd (fmul (fmul u u) L1) (fmul (fmul (finv u) (finv u)) R1))))
       (fmul (fmul u u) (fmul (fmul u u) (fadd s0 (fadd (fmul (fmul u u) L0) (fmul (fmul (finv u) (finv u)) R0))))));
      [field; exact NZ|]. rewrite X. ring. }
  inversion Z as [|? ? Z1 Z']; subst. inversion Z' as [|? ? Z2 Z'']; subst. inversion Z'' as [|? ? Z3 Z4]; subst.
  inversion Z4 as [|? ? Z5 _]; subst. repeat split.
  - replace L0 with (fneg (fneg L0)) by ring. rewrite Z5. ring.
  - replace L1 with (fadd (fsub L1 s0) s0) by ring. rewrite Z3. ring.
  - replace R0 with (fsub s1 (fsub s1 R0)) by ring. rewrite Z2. ring.
Qed.
Lemma three_eq c0 c1 c2 us : length us = 4 -> NoDup (map sq us) -> Forall (fun u => u <> f0) us ->
  (forall u, In u us -> fadd c0 (fadd (fmul (fmul u u) c1) (fmul (fmul (finv u) (finv u)) c2)) = f0) -> c0 = f0 /\ c1 = f0 /\ c2 = f0.
Proof.
  intros Len ND NZ H.
  assert (Z : Forall (fun c => c = f0) [c2; c0; c1]).
  { apply (roots_zero (map sq us)); [exact ND|rewrite map_length; cbn; lia|]. apply Forall_forall. intros U HU.
    apply in_map_iff in HU. destruct HU as (u & <- & Hu). specialize (H u Hu).
    rewrite Forall_forall in NZ. specialize (NZ u Hu). unfold peval, sq. cbn [fold_right].
    transitivity (fmul (fmul u u) (fadd c0 (fadd (fmul (fmul u u) c1) (fmul (fmul (finv u) (finv u)) c2)))); [field; exact NZ|].
    rewrite H. ring. }
  inversion Z as [|? ? Z1 Z']; subst. inversion Z' as [|? ? Z2 Z'']; subst. inversion Z'' as [|? ? Z3 Z4]; subst. auto.
Qed.

(** the side of G; for H' the challenges are inverted and L, R exchanged *)
Lemma side us m (s L R : nat -> F) (ls : F -> nat -> F) xs : Forall (fun u => u <> f0) us ->
  length xs = 4 -> NoDup (map sq xs) -> Forall (fun u => u <> f0) xs ->
  (forall u, In u xs -> forall i, i < m * 2 ^ length (us ++ [u]) ->
     fadd (s i) (fadd (fmul (fmul u u) (L i)) (fmul (fmul (finv u) (finv u)) (R i))) = spread (us ++ [u]) m (ls u) i) ->
  exists s' : nat -> F, (forall i, i < 2 * m * 2 ^ length us -> s i = spread us (2 * m) s' i) /\
    forall u, In u xs -> forall i, i < m -> ls u i = fadd (fmul u (s' i)) (fmul (finv u) (s' (m + i))).
Proof.
  intros NZ Len ND NX H. destruct xs as [|u1 [|u2 [|u3 [|u4 [|]]]]]; cbn in Len; try lia.
  assert (NX' := NX). rewrite Forall_forall in NX'.
  assert (SZ : forall u, m * 2 ^ length (us ++ [u]) = 2 * m * 2 ^ length us) by (intros u; rewrite app_length; cbn [length]; rewrite Nat.add_1_r, Nat.pow_succ_r'; lia).
  assert (M2 : m * 2 ^ length [f1] = 2 * m) by (cbn; lia).
  assert (H' : forall u, In u [u1; u2; u3; u4] -> forall i, i < 2 * m * 2 ^ length us ->
     fadd (s i) (fadd (fmul (fmul u u) (L i)) (fmul (fmul (finv u) (finv u)) (R i))) = spread us (2 * m) (spread [u] m (ls u)) i).
  { intros u Hu i Hi. rewrite H; [|exact Hu|rewrite SZ; exact Hi]. rewrite spread_app. f_equal. cbn. lia. }
  destruct (in_image us (2 * m) s L R (fun u => spread [u] m (ls u)) u1 u2 u3) as (s' & L' & R' & I).
  - apply NX'; cbn; auto.
  - apply NX'; cbn; auto.
  - apply NX'; cbn; auto.
  - cbn [map] in ND. apply NoDup_rev in ND. cbn in ND. inversion ND as [|? ? _ ND']; subst. apply NoDup_rev in ND'. exact ND'.
  - intros u Hu. apply H'. cbn in *. tauto.
  - exists s'. split; [intros i Hi; apply I; exact Hi|].
    assert (J : forall u, In u [u1; u2; u3; u4] -> forall j, j < 2 * m ->
      fadd (s' j) (fadd (fmul (fmul u u) (L' j)) (fmul (fmul (finv u) (finv u)) (R' j))) = spread [u] m (ls u) j).
    { intros u Hu j Hj. set (lhs := fun j => fadd (fadd (fmul f1 (s' j)) (fmul (fmul u u) (L' j))) (fmul (fmul (finv u) (finv u)) (R' j))).
      transitivity (lhs j); [unfold lhs; ring|].
      apply (spread_inj us (2 * m) lhs (spread [u] m (ls u)) NZ); [|exact Hj]. intros i Hi. unfold lhs. rewrite spread_lin.
      rewrite <- H' by assumption. destruct (I i Hi) as (-> & -> & ->). ring. }
    assert (Q : forall i, i < m -> L' i = f0 /\ L' (m + i) = s' i /\ R' i = s' (m + i) /\ R' (m + i) = f0).
    { intros i Hi. apply (halves (s' i) (s' (m + i)) (L' i) (L' (m + i)) (R' i) (R' (m + i)) [u1; u2; u3; u4]); [reflexivity|exact ND|exact NX|].
      intros u Hu. exists (ls u i). pose proof (J u Hu i ltac:(lia)) as E0. pose proof (J u Hu (m + i) ltac:(lia)) as E1.
      cbn [spread length] in E0, E1. rewrite Nat.pow_0_r, Nat.mul_1_r in E0, E1.
      destruct (Nat.ltb_spec i m) as [_|C]; [|lia]. destruct (Nat.ltb_spec (m + i) m) as [C|_]; [lia|].
      replace (m + i - m) with i in E1 by lia. split; [exact E0|exact E1]. }
    intros u Hu i Hi. destruct (Q i Hi) as (Q1 & Q2 & Q3 & Q4). pose proof (J u Hu i ltac:(lia)) as E0.
    cbn [spread length] in E0. rewrite Nat.pow_0_r, Nat.mul_1_r in E0. destruct (Nat.ltb_spec i m) as [_|C]; [|lia].
    rewrite Q1, Q3 in E0. apply (f_equal (fmul u)) in E0. specialize (NX' u Hu).
    transitivity (fmul u (fmul (finv u) (ls u i))); [field; exact NX'|]. rewrite <- E0. field. exact NX'.
Qed.

Lemma sq_finv_nodup xs : NoDup (map sq xs) -> NoDup (map sq (map finv xs)).
Proof.
  intros ND. rewrite map_map. replace (map (fun x => sq (finv x)) xs) with (map finv (map sq xs)).
  - apply FinFun.Injective_map_NoDup; [|exact ND]. intros a b E. rewrite <- (finv_finv a), <- (finv_finv b), E. reflexivity.
  - rewrite map_map. apply map_ext. intros x. unfold sq. destruct (F_eq_dec x f0) as [-> |N]; [|field; exact N].
    replace (fmul f0 f0) with f0 by ring. rewrite finv_0. ring.
Qed.
Theorem round_sound us m w y v L R xs : Forall (fun u => u <> f0) us ->
  length xs = 4 -> NoDup (map sq xs) -> Forall (fun u => u <> f0) xs ->
  (forall u, In u xs -> good (us ++ [u]) m w y (lr_step v L R u)) -> good us (2 * m) w y v.
Proof.
  intros NZ Len ND NX H. assert (NX' := NX). rewrite Forall_forall in NX'.
  set (ls := fun u => lof (us ++ [u]) (lr_step v L R u)). set (rs := fun u => rof (us ++ [u]) y (lr_step v L R u)).
  assert (H' : forall u, In u xs -> good_at (us ++ [u]) m w y (lr_step v L R u) (ls u) (rs u)).
  { intros u Hu. apply good_canon; [apply Forall_app; split; [exact NZ|constructor; [apply NX'; exact Hu|constructor]]|apply H; exact Hu]. }
  destruct (side us m (rg v) (rg L) (rg R) ls xs) as (s & S1 & S2); try assumption.
  { intros u Hu i Hi. destruct (H' u Hu) as (E & _). exact (E i Hi). }
  destruct (side (map finv us) m (fun i => fmul (fpow y i) (rh v i)) (fun i => fmul (fpow y i) (rh R i)) (fun i => fmul (fpow y i) (rh L i))
    (fun t => rs (finv t)) (map finv xs)) as (h & T1 & T2).
  { apply map_finv_nz. exact NZ. }
  { rewrite map_length. exact Len. }
  { apply sq_finv_nodup. exact ND. }
  { apply map_finv_nz. exact NX. }
  { intros t Ht i Hi. apply in_map_iff in Ht. destruct Ht as (u & <- & Hu). rewrite finv_finv. destruct (H' u Hu) as (_ & E & _).
    specialize (E i). rewrite !app_length, map_length in *. cbn [length] in *. specialize (E Hi). rewrite map_app in E. cbn [map] in E.
    rewrite <- E. cbn. ring. }
  rewrite map_length in T1.
  exists s, h. split; [exact S1|]. split; [exact T1|].
  assert (C : fsub (rb v) (fmul w (Sum (2 * m) (fun i => fmul (s i) (h i)))) = f0 /\
              fsub (rb L) (fmul w (Sum m (fun i => fmul (s i) (h (m + i))))) = f0 /\
              fsub (rb R) (fmul w (Sum m (fun i => fmul (s (m + i)) (h i)))) = f0).
  { apply (three_eq _ _ _ xs Len ND NX). intros u Hu. destruct (H' u Hu) as (_ & _ & E & _). cbn in E.
    assert (X : Sum m (fun i => fmul (ls u i) (rs u i)) =
      fadd (Sum (2 * m) (fun i => fmul (s i) (h i))) (fadd (fmul (fmul u u) (Sum m (fun i => fmul (s i) (h (m + i)))))
         (fmul (fmul (finv u) (finv u)) (Sum m (fun i => fmul (s (m + i)) (h i)))))).
    { replace (2 * m) with (m + m) by lia. rewrite Sum_split, <- !Sum_scale, <- !Sum_add. apply Sum_ext. intros i Hi.
      rewrite (S2 u Hu i Hi). pose proof (T2 (finv u) (in_map finv xs u Hu) i Hi) as T. rewrite !finv_finv in T. rewrite T.
      field. apply NX'. exact Hu. }
    rewrite X in E. 
    transitivity (fsub (fadd (rb v) (fadd (fmul (fmul u u) (rb L)) (fmul (fmul (finv u) (finv u)) (rb R))))
       (fmul w (fadd (Sum (2 * m) (fun i => fmul (s i) (h i))) (fadd (fmul (fmul u u) (Sum m (fun i => fmul (s i) (h (m + i)))))
         (fmul (fmul (finv u) (finv u)) (Sum m (fun i => fmul (s (m + i)) (h i)))))))); [ring|]. rewrite E. ring. }
  split.
  - destruct C as [C _]. set (t := fmul w _) in *. replace (rb v) with (fadd (fsub (rb v) t) t) by ring. rewrite C. ring.
  - apply (three_eq (rl v) (rl L) (rl R) xs Len ND NX). intros u Hu. destruct (H' u Hu) as (_ & _ & _ & E). exact E.
Qed.
(** at most seven challenges are bad: zero and six others *)
Theorem bad_u_few us m w y v L R xs : Forall (fun u => u <> f0) us -> NoDup xs -> Forall (bad_u us m w y v L R) xs -> length xs <= 7.
Proof.
  intros NZ ND B. destruct (Nat.le_gt_cases (length xs) 7) as [C|C]; [exact C|exfalso].
  set (nz := fun u => negb (feqb u f0)).
  assert (E : length xs = length (filter nz xs) + length (filter (fun u => negb (nz u)) xs)).
  { clear. induction xs as [|x l IH]; [reflexivity|]. cbn [filter length]. destruct (nz x); cbn [negb length]; lia. }
  assert (Z : length (filter (fun u => negb (nz u)) xs) <= length [f0]).
  { apply NoDup_incl_length; [apply NoDup_filter; exact ND|]. intros u Hu. apply filter_In in Hu. destruct Hu as [_ Hu].
    unfold nz in Hu. rewrite negb_involutive in Hu. apply feqb_eq in Hu. left. symmetry. exact Hu. }
  cbn [length] in Z.
  destruct (four_squares (filter nz xs)) as (a & b & c & d & I & S); [apply NoDup_filter; exact ND|lia|].
  assert (Q : forall u, In u [a; b; c; d] -> u <> f0 /\ ~ good us (2 * m) w y v /\ good (us ++ [u]) m w y (lr_step v L R u)).
  { intros u Hu. apply I in Hu. apply filter_In in Hu. destruct Hu as [Hu N]. rewrite Forall_forall in B. destruct (B u Hu) as [-> |H].
    - unfold nz in N. rewrite feqb_refl in N. discriminate.
    - split; [|exact H]. intros ->. unfold nz in N. rewrite feqb_refl in N. discriminate. }
  apply (proj1 (proj2 (Q a ltac:(cbn; auto)))). apply (round_sound us m w y v L R [a; b; c; d]); [exact NZ|reflexivity|exact S| |].
  - apply Forall_forall. intros u Hu. apply Q. exact Hu.
  - intros u Hu. apply Q. exact Hu.
Qed.
