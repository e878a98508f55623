(** Soundness of range proofs for algebraic provers, whatever the order of the challenges *)
From Coq Require Import String ZArith List Lia Bool Arith Field.
From Verif Require Import GoModel Fld Rist RistFacts SpecVector VectorFacts InnerProductFacts IPPVerifyFacts SpecIPP SpecRange RangeFacts RangeRun
  SpecSound SpecOrder Poly IPSound RangeSound.
Import ListNotations.
Local Open Scope nat_scope.

(** ** Rounds between z and w *)
Lemma only_step v c L R u : req (lr_step (only v c) (only L f0) (only R f0) u) (only (lr_step v L R u) c).
Proof. split; [|split; [|split]]; intros; cbn [rg rh rb rl only radd rscale lr_step so_far P_rep rzero]; ring. Qed.
Lemma req_sym a b : req a b -> req b a.
Proof. intros (H1 & H2 & H3 & H4). repeat split; intros; symmetry; auto. Qed.
Lemma balanced_round us b y v L R c xs : Forall (fun u => u <> f0) us ->
  length xs = 4 -> NoDup (map sq xs) -> Forall (fun u => u <> f0) xs ->
  (forall u, In u xs -> balanced (us ++ [u]) b y (lr_step v L R u) c) -> balanced us (2 * b) y v c.
Proof.
  intros NZ Len ND NX H. split.
  - apply (three_eq (rb v) (rb L) (rb R) xs Len ND NX). intros u Hu. exact (proj1 (H u Hu)).
  - apply (round_sound us b f1 y (only v c) (only L f0) (only R f0) xs NZ Len ND NX). intros u Hu.
    apply (good_req _ _ _ _ _ _ (req_sym _ _ (only_step v c L R u))). exact (proj2 (H u Hu)).
Qed.
Lemma few_squares xs (P : F -> Prop) : NoDup xs -> 8 <= length xs -> Forall (fun u => u = f0 \/ P u) xs ->
  exists ys, length ys = 4 /\ NoDup (map sq ys) /\ Forall (fun u => u <> f0) ys /\ forall u, In u ys -> P u.
Proof.
  intros ND C B. set (nz := fun u => negb (feqb u f0)).
  pose proof (length_filter_split nz xs) as E.
  assert (Z : length (filter (fun u => negb (nz u)) xs) <= length [f0]).
  { apply NoDup_incl_length; [apply NoDup_filter; exact ND|]. intros u Hu. apply filter_In in Hu. destruct Hu as [_ Hu].
    unfold nz in Hu. rewrite negb_involutive in Hu. apply feqb_eq in Hu. left. symmetry. exact Hu. }
  cbn [length] in Z.
  destruct (four_squares (filter nz xs)) as (a & b & c & d & I & S); [apply NoDup_filter; exact ND|lia|].
  assert (Q : forall u, In u [a; b; c; d] -> u <> f0 /\ P u).
  { intros u Hu. apply I in Hu. apply filter_In in Hu. destruct Hu as [Hu N]. rewrite Forall_forall in B. destruct (B u Hu) as [-> |H].
    - unfold nz in N. rewrite feqb_refl in N. discriminate.
    - split; [|exact H]. intros ->. unfold nz in N. rewrite feqb_refl in N. discriminate. }
  exists [a; b; c; d]. split; [reflexivity|]. split; [exact S|]. split; [apply Forall_forall|]; intros u Hu; apply Q; exact Hu.
Qed.
Theorem bad_v_few us b y v L R c xs : Forall (fun u => u <> f0) us -> NoDup xs -> Forall (bad_v us b y v L R c) xs -> length xs <= 7.
Proof.
  intros NZ ND B. destruct (Nat.le_gt_cases (length xs) 7) as [C|C]; [exact C|exfalso].
  destruct (few_squares xs _ ND ltac:(lia) B) as (ys & Len & S & NX & Q).
  destruct ys as [|u ys]; [discriminate Len|]. apply (proj1 (Q u (or_introl eq_refl))).
  apply (balanced_round us b y v L R c (u :: ys) NZ Len S NX). intros u' Hu. apply Q. exact Hu.
Qed.

(** ** Rounds before z *)
Theorem bad_early_few xs : NoDup xs -> Forall bad_early xs -> length xs <= 3.
Proof.
  intros ND B. change 3 with (length [f0; f1; fneg f1]). apply NoDup_incl_length; [exact ND|]. intros u Hu.
  rewrite Forall_forall in B. destruct (B u Hu) as [-> |E]; [left; reflexivity|].
  assert (E1 : sq u = sq f1) by (unfold sq; rewrite E; ring). destruct (sq_eq u f1 E1) as [-> | ->]; cbn [In]; auto.
Qed.
Lemma so_far_rg m us Ls Rs A S x y z i : rg (so_far m us Ls Rs A S x y z) i = fadd (lvec A S x z i) (rg (lr_rep us Ls Rs) i).
Proof. reflexivity. Qed.
Theorem bad_late_z_few m u us b Ls Rs V A S y zs : 0 < b -> ~ bad_early u -> NoDup zs ->
  Forall (bad_late_z m (u :: us) b Ls Rs V A S y) zs -> length zs <= 1.
Proof.
  intros Hb NE ND B. destruct zs as [|z1 [|z2 zs]]; cbn [length]; try lia. exfalso.
  inversion B as [|? ? B1 B']; subst. inversion B' as [|? ? B2 _]; subst. inversion ND as [|? ? I _]; subst.
  destruct B1 as (_ & _ & (_ & (l1 & _ & H1 & _)) & _). destruct B2 as (_ & _ & (_ & (l2 & _ & H2 & _)) & _).
  set (h := b * 2 ^ length us). assert (Hh : 0 < h) by (unfold h; pose proof (pow2_pos (length us)); nia).
  assert (SZ : b * 2 ^ length (u :: us) = 2 * h) by (cbn [length]; rewrite Nat.pow_succ_r'; unfold h; lia).
  rewrite SZ in H1, H2. cbn [rg only] in H1, H2.
  pose proof (H1 0 ltac:(lia)) as E10. pose proof (H1 h ltac:(lia)) as E1h. pose proof (H2 0 ltac:(lia)) as E20. pose proof (H2 h ltac:(lia)) as E2h.
  rewrite so_far_rg in *. unfold lvec in *. cbn [spread] in *. fold h in E10, E1h, E20, E2h.
  rewrite (proj2 (Nat.ltb_lt 0 h) Hh) in *. rewrite Nat.ltb_irrefl, Nat.sub_diag in *.
  set (s1 := spread us b l1 0) in *. set (s2 := spread us b l2 0) in *.
  assert (U : u <> f0) by (intros ->; apply NE; left; reflexivity).
  assert (D0 : fsub z2 z1 = fmul (finv u) (fsub s1 s2)).
  { match type of E10 with fadd (fsub ?q _) ?k = _ => transitivity (fsub (fadd (fsub q z1) k) (fadd (fsub q z2) k)); [ring|] end. rewrite E10, E20. ring. }
  assert (Dh : fsub z2 z1 = fmul u (fsub s1 s2)).
  { match type of E1h with fadd (fsub ?q _) ?k = _ => transitivity (fsub (fadd (fsub q z1) k) (fadd (fsub q z2) k)); [ring|] end. rewrite E1h, E2h. ring. }
  set (d := fsub s1 s2) in *.
  assert (Q : fmul d (fsub (fmul u u) f1) = f0).
  { transitivity (fmul u (fsub (fmul u d) (fmul (finv u) d))); [field; exact U|]. rewrite <- Dh, <- D0. ring. }
  apply fmul_integral in Q. destruct Q as [Q|Q].
  - apply I. left. apply fsub_eq. rewrite Dh, Q. ring.
  - apply NE. right. apply fsub_eq. exact Q.
Qed.

(** ** x *)
Lemma spread_lin2 us m a b l l' i :
  spread us m (fun j => fadd (fmul a (l j)) (fmul b (l' j))) i = fadd (fmul a (spread us m l i)) (fmul b (spread us m l' i)).
Proof.
  revert i. induction us as [|u us IH]; intros i; [reflexivity|]. cbn [spread].
  destruct (i <? m * 2 ^ length us); rewrite IH; ring.
Qed.
(** c + x s spread at two x *)
Lemma affine us b (c s : nat -> F) (ls : F -> nat -> F) x1 x2 : x1 <> x2 ->
  (forall x, In x [x1; x2] -> forall i, i < b * 2 ^ length us -> fadd (c i) (fmul x (s i)) = spread us b (ls x) i) ->
  exists l0 l1 : nat -> F, forall i, i < b * 2 ^ length us -> c i = spread us b l0 i /\ s i = spread us b l1 i.
Proof.
  intros N H. set (k := finv (fsub x1 x2)). assert (D : fsub x1 x2 <> f0) by (intros E; apply N, fsub_eq, E).
  exists (fun j => fadd (fmul (fneg (fmul x2 k)) (ls x1 j)) (fmul (fmul x1 k) (ls x2 j))), (fun j => fadd (fmul k (ls x1 j)) (fmul (fneg k) (ls x2 j))).
  intros i Hi. rewrite !spread_lin2. rewrite <- (H x1), <- (H x2) by (cbn; auto). unfold k. split; field; exact D.
Qed.
Lemma lin2_zero c s x1 x2 : x1 <> x2 -> fadd c (fmul x1 s) = f0 -> fadd c (fmul x2 s) = f0 -> c = f0 /\ s = f0.
Proof.
  intros N E1 E2. assert (Z : s = f0).
  { assert (E : fmul (fsub x1 x2) s = f0) by (transitivity (fsub (fadd c (fmul x1 s)) (fadd c (fmul x2 s))); [ring|]; rewrite E1, E2; ring).
    apply fmul_integral in E. destruct E as [E|E]; [|exact E]. exfalso. apply N, fsub_eq, E. }
  split; [|exact Z]. rewrite Z in E1. rewrite <- E1. ring.
Qed.
Lemma so_far_rb m us Ls Rs A S x y z : rb (so_far m us Ls Rs A S x y z) = fadd (fadd (rb A) (rb (lr_rep us Ls Rs))) (fmul x (rb S)).
Proof. cbn [rg rh rb rl only radd rscale lr_step so_far P_rep rzero]. ring. Qed.
Lemma so_far_g m us Ls Rs A S x y z i : rg (so_far m us Ls Rs A S x y z) i = fadd (rg (so_far m us Ls Rs A rzero f0 y z) i) (fmul x (rg S i)).
Proof. rewrite !so_far_rg. unfold lvec. cbn [rg rzero]. ring. Qed.
Lemma so_far_h m us Ls Rs A S x y z i : rh (so_far m us Ls Rs A S x y z) i = fadd (rh (so_far m us Ls Rs A rzero f0 y z) i) (fmul x (rh S i)).
Proof. cbn [rg rh rb rl only radd rscale lr_step so_far P_rep rzero]. ring. Qed.
Theorem right_x_z m us b Ls Rs V A S y z T1 T2 xs : Forall (fun u => u <> f0) us -> NoDup xs -> 3 <= length xs ->
  Forall (right_x m us b Ls Rs V A S y z T1 T2) xs -> right_z m us b Ls Rs V A S y z.
Proof.
  intros NZ ND C B. rewrite Forall_forall in B. pose proof (map_finv_nz us NZ) as NZ'.
  split; [intros i Hi; apply (quad _ (rg T1 i) (rg T2 i) xs ND C); intros x Hx; apply (B x Hx); exact Hi|].
  split; [intros i Hi; apply (quad _ (rh T1 i) (rh T2 i) xs ND C); intros x Hx; apply (B x Hx); exact Hi|].
  assert (NE : exists x1 x2, x1 <> x2 /\ In x1 xs /\ In x2 xs).
  { destruct xs as [|x1 [|x2 xs]]; cbn in C; try lia. inversion ND as [|? ? I _]; subst. exists x1, x2. cbn. split; [|auto]. intros ->. apply I. left. reflexivity. }
  destruct NE as (x1 & x2 & N & I1 & I2).
  set (v0 := so_far m us Ls Rs A rzero f0 y z).
  set (ls := fun x => lof us (only (so_far m us Ls Rs A S x y z) (t_x m V y z T1 T2 x))). set (rs := fun x => rof us y (only (so_far m us Ls Rs A S x y z) (t_x m V y z T1 T2 x))).
  assert (K : forall x, In x xs -> good_at us b f1 y (only (so_far m us Ls Rs A S x y z) (t_x m V y z T1 T2 x)) (ls x) (rs x)).
  { intros x Hx. apply good_canon; [exact NZ|]. apply (B x Hx). }
  assert (KG : forall x, In x xs -> forall i, i < b * 2 ^ length us -> fadd (rg v0 i) (fmul x (rg S i)) = spread us b (ls x) i).
  { intros x Hx i Hi. destruct (K x Hx) as (E & _). cbn [rg only] in E. rewrite <- E by exact Hi. symmetry. apply so_far_g. }
  assert (KH : forall x, In x xs -> forall i, i < b * 2 ^ length us -> fadd (fmul (fpow y i) (rh v0 i)) (fmul x (fmul (fpow y i) (rh S i))) = spread (map finv us) b (rs x) i).
  { intros x Hx i Hi. destruct (K x Hx) as (_ & E & _). cbn [rh only] in E. rewrite <- E by exact Hi. rewrite so_far_h. fold v0. ring. }
  destruct (affine us b (rg v0) (rg S) ls x1 x2 N) as (l0 & l1 & G).
  { intros x Hx. apply KG. destruct Hx as [<- |[<- |[]]]; assumption. }
  destruct (affine (map finv us) b (fun i => fmul (fpow y i) (rh v0 i)) (fun i => fmul (fpow y i) (rh S i)) rs x1 x2 N) as (r0 & r1 & H).
  { intros x Hx. rewrite map_length. apply KH. destruct Hx as [<- |[<- |[]]]; assumption. }
  rewrite map_length in H.
  destruct (lin2_zero (fadd (rb A) (rb (lr_rep us Ls Rs))) (rb S) x1 x2 N) as [Z0 Z1].
  { rewrite <- so_far_rb with (m := m) (y := y) (z := z). apply (B x1 I1). }
  { rewrite <- so_far_rb with (m := m) (y := y) (z := z). apply (B x2 I2). }
  split; [|split; [exact Z1|exists l1, r1; split; intros i Hi; [apply G|apply H]; exact Hi]].
  split; [unfold v0; rewrite so_far_rb, Z0; cbn [rg rh rb rl only radd rscale lr_step so_far P_rep rzero]; ring|].
  exists l0, r0. fold v0. cbn [rg rh rb rl only]. split; [intros i Hi; apply G; exact Hi|]. split; [intros i Hi; apply H; exact Hi|]. split; [|reflexivity].
  assert (LX : forall x, In x xs -> forall j, j < b -> ls x j = fadd (fmul f1 (l0 j)) (fmul x (l1 j))).
  { intros x Hx. apply (spread_inj us b (ls x) (fun j => fadd (fmul f1 (l0 j)) (fmul x (l1 j))) NZ). intros i Hi. rewrite spread_lin2, <- (KG x Hx i Hi).
    destruct (G i Hi) as [-> ->]. ring. }
  assert (RX : forall x, In x xs -> forall j, j < b -> rs x j = fadd (fmul f1 (r0 j)) (fmul x (r1 j))).
  { intros x Hx. apply (spread_inj (map finv us) b (rs x) (fun j => fadd (fmul f1 (r0 j)) (fmul x (r1 j))) NZ'). intros i Hi. rewrite map_length in Hi. rewrite spread_lin2, <- (KH x Hx i Hi).
    destruct (H i Hi) as [-> ->]. ring. }
  apply fsub_eq.
  apply (quad _ (fsub (rb T1) (Sum b (fun i => fadd (fmul (l0 i) (r1 i)) (fmul (l1 i) (r0 i))))) (fsub (rb T2) (Sum b (fun i => fmul (l1 i) (r1 i)))) xs ND C).
  intros x Hx. destruct (K x Hx) as (_ & _ & E & _). cbn [rb only] in E. unfold t_x in E.
  assert (X : Sum b (fun i => fmul (ls x i) (rs x i)) = fadd (Sum b (fun i => fmul (l0 i) (r0 i)))
     (fadd (fmul x (Sum b (fun i => fadd (fmul (l0 i) (r1 i)) (fmul (l1 i) (r0 i))))) (fmul (fmul x x) (Sum b (fun i => fmul (l1 i) (r1 i)))))).
  { rewrite <- !Sum_scale, <- !Sum_add. apply Sum_ext. intros i Hi. rewrite LX, RX by assumption. ring. }
  rewrite X in E. set (q0 := Sum b (fun i => fmul (l0 i) (r0 i))) in *. set (q1 := Sum b (fun i => fadd _ _)) in *. set (q2 := Sum b (fun i => fmul (l1 i) (r1 i))) in *.
  set (tz := t_z m V y z) in *. clearbody q0 q1 q2 tz.
  transitivity (fsub (fadd tz (fadd (fmul x (rb T1)) (fmul (fmul x x) (rb T2)))) (fadd q0 (fadd (fmul x q1) (fmul (fmul x x) q2)))); [ring|].
  rewrite E. ring.
Qed.
Theorem bad_late_x_few m us b Ls Rs V A S y z T1 T2 xs : Forall (fun u => u <> f0) us -> NoDup xs ->
  Forall (bad_late_x m us b Ls Rs V A S y z T1 T2) xs -> length xs <= 2.
Proof.
  intros NZ ND B. destruct (Nat.le_gt_cases (length xs) 2) as [C|C]; [exact C|exfalso].
  assert (N : ~ right_z m us b Ls Rs V A S y z) by (destruct xs as [|x xs]; [cbn in C; lia|inversion B as [|? ? H _]; apply H]).
  apply N. apply (right_x_z m us b Ls Rs V A S y z T1 T2 xs NZ ND C). revert B. apply Forall_impl. intros x H. apply H.
Qed.

(** ** w *)
Theorem right_w_x m us b Ls Rs V A S y z T1 T2 x t taux mu w1 w2 : Forall (fun u => u <> f0) us -> w1 <> w2 ->
  right_w m us b Ls Rs V A S y z T1 T2 x t taux mu w1 -> right_w m us b Ls Rs V A S y z T1 T2 x t taux mu w2 ->
  right_x m us b Ls Rs V A S y z T1 T2 x.
Proof.
  intros NZ N [(G1 & G2 & G3 & _) W1] [_ W2]. unfold poly_rep in G1, G2, G3. cbn [rg rh rb] in G1, G2, G3.
  assert (D : forall c, fneg c = f0 -> c = f0) by (intros c Hc; replace c with (fneg (fneg c)) by ring; rewrite Hc; ring).
  split; [intros i Hi; apply D; apply G1; exact Hi|]. split; [intros i Hi; apply D; apply G2; exact Hi|].
  apply good_canon in W1; [|exact NZ]. apply good_canon in W2; [|exact NZ].
  destruct W1 as (A1 & A2 & A3 & _). destruct W2 as (_ & _ & B3 & _).
  assert (El : lof us (radd (P_rep m A S x y z w1 mu t) (lr_rep us Ls Rs)) = lof us (radd (P_rep m A S x y z w2 mu t) (lr_rep us Ls Rs))) by reflexivity.
  assert (Er : rof us y (radd (P_rep m A S x y z w1 mu t) (lr_rep us Ls Rs)) = rof us y (radd (P_rep m A S x y z w2 mu t) (lr_rep us Ls Rs))) by reflexivity.
  rewrite El, Er in A3. set (l := lof us (radd (P_rep m A S x y z w2 mu t) (lr_rep us Ls Rs))) in *.
  set (r := rof us y (radd (P_rep m A S x y z w2 mu t) (lr_rep us Ls Rs))) in *.
  rewrite El in A1. rewrite Er in A2. fold l in A1. fold r in A2. set (q := Sum b (fun i => fmul (l i) (r i))) in *.
  cbn [rb radd P_rep] in A3, B3. set (k := fadd (fadd (rb A) (fmul x (rb S))) (rb (lr_rep us Ls Rs))).
  destruct (lin2_zero k (fsub t q) w1 w2 N) as [Z0 Z1].
  { transitivity (fsub (fadd (fadd (fadd (rb A) (fmul x (rb S))) (fmul t w1)) (rb (lr_rep us Ls Rs))) (fmul w1 q)); [unfold k; ring|]. rewrite A3. ring. }
  { transitivity (fsub (fadd (fadd (fadd (rb A) (fmul x (rb S))) (fmul t w2)) (rb (lr_rep us Ls Rs))) (fmul w2 q)); [unfold k; ring|]. rewrite B3. ring. }
  split; [rewrite so_far_rb; rewrite <- Z0; unfold k; ring|].
  exists l, r. cbn [rg rh rb rl only]. split; [exact A1|]. split; [exact A2|]. split; [|reflexivity].
  fold q. apply fsub_eq in Z1. rewrite <- Z1. apply fsub_eq in G3. unfold t_x, t_z. rewrite G3. ring.
Qed.
Theorem bad_late_w_few m us b Ls Rs V A S y z T1 T2 x t taux mu ws : Forall (fun u => u <> f0) us -> NoDup ws ->
  Forall (bad_late_w m us b Ls Rs V A S y z T1 T2 x t taux mu) ws -> length ws <= 1.
Proof.
  intros NZ ND B. destruct ws as [|w1 [|w2 ws]]; cbn [length]; try lia. exfalso.
  inversion B as [|? ? B1 B']; subst. inversion B' as [|? ? B2 _]; subst. inversion ND as [|? ? I _]; subst.
  apply (proj1 B1). apply (right_w_x m us b Ls Rs V A S y z T1 T2 x t taux mu w1 w2 NZ); [intros E; apply I; left; symmetry; exact E|apply B1|apply B2].
Qed.

(** ** The chain *)
Lemma balanced_dec us b y v c : Forall (fun u => u <> f0) us -> dec (balanced us b y v c).
Proof. intros NZ. apply dec_and; [apply dec_eq|apply good_dec; exact NZ]. Qed.
Lemma balanced_req us b y v v' c : req v v' -> balanced us b y v c -> balanced us b y v' c.
Proof.
  intros (E1 & E2 & E3 & E4) [H G]. split; [rewrite <- E3; exact H|]. revert G. apply good_req.
  split; [exact E1|]. split; [exact E2|]. split; reflexivity.
Qed.
Lemma spans_dec us b y v : Forall (fun u => u <> f0) us -> dec (spans us b y v).
Proof.
  intros NZ. apply (dec_iff (good us b f1 y (only v (Sum b (fun i => fmul (lof us v i) (rof us y v i)))))); [|apply good_dec; exact NZ].
  split.
  - intros (l & r & H1 & H2 & _). exists l, r. split; assumption.
  - intros (l & r & H1 & H2). 
    assert (G : good us b f1 y (only v (fmul f1 (Sum b (fun i => fmul (l i) (r i)))))) by (exists l, r; split; [exact H1|]; split; [exact H2|]; split; reflexivity).
    apply good_canon in G; [|exact NZ]. destruct G as (G1 & G2 & _ & _). exists (lof us v), (rof us y v).
    split; [exact G1|]. split; [exact G2|]. split; [|reflexivity]. cbn [rb only]. ring.
Qed.
Lemma right_z_dec m us b Ls Rs V A S y z : Forall (fun u => u <> f0) us -> dec (right_z m us b Ls Rs V A S y z).
Proof.
  intros NZ. unfold right_z. apply dec_and; [|apply dec_and; [|apply dec_and; [|apply dec_and]]].
  1, 2: apply dec_all; intros; apply dec_eq. 1: apply balanced_dec; exact NZ. 1: apply dec_eq. apply spans_dec; exact NZ.
Qed.
Lemma right_x_dec m us b Ls Rs V A S y z T1 T2 x : Forall (fun u => u <> f0) us -> dec (right_x m us b Ls Rs V A S y z T1 T2 x).
Proof.
  intros NZ. unfold right_x. apply dec_and; [|apply dec_and; [|apply balanced_dec; exact NZ]]; apply dec_all; intros; apply dec_eq.
Qed.
Lemma spans_app us u b y v : spans (us ++ [u]) b y v -> spans us (2 * b) y v.
Proof.
  intros (l & r & H1 & H2). exists (spread [u] b l), (spread [finv u] b r).
  assert (SZ : b * 2 ^ length (us ++ [u]) = 2 * b * 2 ^ length us) by (rewrite app_length; cbn [length]; rewrite Nat.add_1_r, Nat.pow_succ_r'; lia).
  rewrite SZ in H1, H2. assert (M2 : forall x : F, b * 2 ^ length [x] = 2 * b) by (intros; cbn; lia). split.
  - intros i Hi. rewrite H1 by exact Hi. rewrite spread_app, M2. reflexivity.
  - intros i Hi. rewrite H2 by exact Hi. rewrite map_app, spread_app. cbn [map]. rewrite M2. reflexivity.
Qed.
Lemma descend (Q Bd : nat -> Prop) lo hi : lo <= hi -> Q hi -> (forall j, lo <= j -> j < hi -> Q (j + 1) -> Q j \/ Bd j) ->
  Q lo \/ exists j, lo <= j /\ j < hi /\ Bd j.
Proof.
  intros L H St. assert (K : forall d, d <= hi - lo -> Q (hi - d) \/ exists j, lo <= j /\ j < hi /\ Bd j).
  { induction d as [|d IH]; intros Hd; [left; rewrite Nat.sub_0_r; exact H|]. destruct (IH ltac:(lia)) as [I|I]; [|right; exact I].
    destruct (St (hi - Datatypes.S d)) as [I'|I']; [lia|lia| |left; exact I'|right].
    - replace (hi - Datatypes.S d + 1) with (hi - d) by lia. exact I.
    - exists (hi - Datatypes.S d). split; [lia|]. split; [lia|exact I']. }
  destruct (K (hi - lo) (le_n _)) as [I|I]; [left|right; exact I]. replace (hi - (hi - lo)) with lo in I by lia. exact I.
Qed.
(** the final check is the statement after all rounds *)
Lemma final_good m us Ls Rs a b A S x y z w mu t : 2 ^ length us = 64 * m -> y <> f0 ->
  vanishes (64 * m) (ip_rep m us Ls Rs a b A S x y z w mu t) -> good us 1 w y (radd (P_rep m A S x y z w mu t) (lr_rep us Ls Rs)).
Proof.
  intros HK Y (I1 & I2 & I3 & I4). exists (fun _ => a), (fun _ => b). rewrite Nat.mul_1_l, HK.
  set (v := radd (P_rep m A S x y z w mu t) (lr_rep us Ls Rs)) in *. unfold ip_rep in I1, I2, I3, I4. fold v in I1, I2, I3, I4.
  unfold radd, rscale in I1, I2, I3, I4. cbn [rg rh rb rl] in I1, I2, I3, I4. split; [|split; [|split]].
  - intros i Hi. rewrite svec_spread by lia. symmetry. apply fsub_eq. etransitivity; [|exact (I1 i Hi)]. ring.
  - intros i Hi. rewrite svec_spread by (rewrite map_length; lia). specialize (I2 i Hi). rewrite cpowers_nth in I2 by assumption.
    symmetry. apply fsub_eq. pose proof (fpow_nz y i Y) as Ny.
    transitivity (fmul (fpow y i) (fadd (fmul b (fmul (nth i (svec (map finv us)) f0) (finv (fpow y i)))) (fmul (fneg f1) (rh v i)))); [field; exact Ny|].
    rewrite I2. ring.
  - unfold Sum. cbn [seq map fsum fold_right]. symmetry. apply fsub_eq. etransitivity; [|exact I3]. ring.
  - replace (rl v) with (fneg (fadd f0 (fmul (fneg f1) (rl v)))) by ring. rewrite I4. ring.
Qed.
Lemma right_z_ok m V A S y z : y <> f0 -> right_z m [] (64 * m) [] [] V A S y z -> ok_z m V A y z.
Proof.
  intros Y (H1 & H2 & (_ & (l & r & G1 & G2 & G3 & _)) & _). split; [exact H1|]. split; [exact H2|].
  cbn [length spread map rg rh rb only] in G1, G2, G3. rewrite Nat.pow_0_r, Nat.mul_1_r in G1, G2.
  fold (t_z m V y z). rewrite G3. transitivity (Sum (64 * m) (fun i => fmul (l i) (r i))); [|ring]. apply Sum_ext. intros i Hi.
  rewrite <- G1, <- G2 by exact Hi. f_equal.
  - cbn [so_far radd rg lr_rep rzero P_rep]. ring.
  - rewrite <- (P_rh m A rzero f0 y z f0 f0 f0 i Y Hi). cbn [so_far radd rh lr_rep rzero]. ring.
Qed.
Section Chain.
Context (m : nat) (V : nat -> rep) (A S : rep) (y z : F) (T1 T2 : rep) (x t taux mu w : F) (us : list F) (Ls Rs : list rep).
Context (HK : 2 ^ length us = 64 * m) (HL : length Ls = length us) (HR : length Rs = length us).
(** the rounds before number j, and the length left *)
Definition pre {X} (j : nat) (l : list X) : list X := firstn j l.
Definition left_ (j : nat) : nat := 2 ^ (length us - j).
Lemma left_S j : j < length us -> left_ j = 2 * left_ (j + 1).
Proof. intros H. unfold left_. replace (length us - j) with (Datatypes.S (length us - (j + 1))) by lia. apply Nat.pow_succ_r'. Qed.
Lemma bal_step v c j : j < length us -> Forall (fun u => u <> f0) us ->
  balanced (pre (j + 1) us) (left_ (j + 1)) y (radd v (lr_rep (pre (j + 1) us) (pre (j + 1) Ls) (pre (j + 1) Rs))) c ->
  balanced (pre j us) (left_ j) y (radd v (lr_rep (pre j us) (pre j Ls) (pre j Rs))) c \/ bad_step us Ls Rs y v c j.
Proof.
  intros Hj NZ H. destruct (balanced_dec (pre j us) (left_ j) y (radd v (lr_rep (pre j us) (pre j Ls) (pre j Rs))) c) as [Y|N];
    [apply Forall_firstn; exact NZ|left; exact Y|right; right].
  split; [change (~ balanced (pre j us) (2 * left_ (j + 1)) y (radd v (lr_rep (pre j us) (pre j Ls) (pre j Rs))) c); rewrite <- left_S by exact Hj; exact N|]. rewrite <- (firstn_snoc f0 us j Hj). fold (pre (j + 1) us).
  revert H. apply balanced_req. apply lr_rep_snoc; assumption.
Qed.
Theorem chain_any_order jz jx jw a b : jz <= jx -> jx <= jw -> jw <= length us ->
  vanishes (64 * m) (poly_rep m V y z T1 T2 x t taux) -> vanishes (64 * m) (ip_rep m us Ls Rs a b A S x y z w mu t) ->
  jz = 0 /\ (ok_A m V A \/ bad_y m V A y \/ bad_z m V A y z) \/
  0 < jz /\ (y = f0 \/ (exists j, j < jz /\ bad_early (nth j us f0)) \/ bad_late_z m (pre jz us) (left_ jz) (pre jz Ls) (pre jz Rs) V A S y z) \/
  (exists j, jz <= j /\ j < jx /\ bad_step us Ls Rs y (P_rep m A rzero f0 y z f0 f0 f0) (t_z m V y z) j) \/
  bad_late_x m (pre jx us) (left_ jx) (pre jx Ls) (pre jx Rs) V A S y z T1 T2 x \/
  (exists j, jx <= j /\ j < jw /\ bad_step us Ls Rs y (P_rep m A S x y z f0 f0 f0) (t_x m V y z T1 T2 x) j) \/
  bad_late_w m (pre jw us) (left_ jw) (pre jw Ls) (pre jw Rs) V A S y z T1 T2 x t taux mu w \/
  exists j, jw <= j /\ j < length us /\ bad_round m us Ls Rs A S x y z w mu t j.
Proof.
  intros Lz Lx Lw HP HI.
  destruct (F_eq_dec y f0) as [Y0|Y].
  { destruct (Nat.eq_dec jz 0) as [E|E]; [left; split; [exact E|right; left; left; exact Y0]|right; left; split; [lia|left; exact Y0]]. }
  destruct (Forall_Exists_dec (fun u => u <> f0) (fun u => match F_eq_dec u f0 with left e => right (fun n => n e) | right n => left n end) us) as [NZ|Z].
  2:{ apply Exists_exists in Z. destruct Z as (u & Hu & E). apply In_nth with (d := f0) in Hu. destruct Hu as (j & Hj & Ej).
      assert (U : nth j us f0 = f0) by (rewrite Ej; destruct (F_eq_dec u f0); [assumption|contradiction]).
      destruct (Nat.lt_ge_cases j jz) as [C|C]; [right; left; split; [lia|right; left; exists j; split; [exact C|left; exact U]]|].
      destruct (Nat.lt_ge_cases j jx) as [C1|C1]; [do 2 right; left; exists j; split; [exact C|split; [exact C1|left; exact U]]|].
      destruct (Nat.lt_ge_cases j jw) as [C2|C2]; [do 4 right; left; exists j; split; [exact C1|split; [exact C2|left; exact U]]|].
      do 6 right. exists j. split; [exact C2|]. split; [exact Hj|]. left. exact U. }
  assert (NZf : forall j, Forall (fun u => u <> f0) (pre j us)) by (intros j; apply Forall_firstn; exact NZ).
  pose proof (final_good m us Ls Rs a b A S x y z w mu t HK Y HI) as G. set (P := P_rep m A S x y z w mu t) in *.
  destruct (descend (fun j => good (pre j us) (left_ j) w y (radd P (lr_rep (pre j us) (pre j Ls) (pre j Rs))))
     (bad_round m us Ls Rs A S x y z w mu t) jw (length us) Lw) as [Gw|B]; [| | |do 6 right; exact B].
  { unfold pre, left_. rewrite Nat.sub_diag. rewrite <- HL at 3. rewrite <- HR at 3. rewrite !firstn_all. exact G. }
  { intros j H1 H2 H. destruct (good_dec (pre j us) (left_ j) w y (radd P (lr_rep (pre j us) (pre j Ls) (pre j Rs))) (NZf j)) as [Yj|N]; [left; exact Yj|right; right].
    split; [rewrite left_S in N by exact H2; exact N|]. rewrite <- (firstn_snoc f0 us j H2). revert H. apply good_req. apply lr_rep_snoc; assumption. }
  destruct (right_x_dec m (pre jw us) (left_ jw) (pre jw Ls) (pre jw Rs) V A S y z T1 T2 x (NZf jw)) as [Rx|N];
    [|do 5 right; left; split; [exact N|split; [exact HP|exact Gw]]].
  destruct (descend (fun j => right_x m (pre j us) (left_ j) (pre j Ls) (pre j Rs) V A S y z T1 T2 x)
     (bad_step us Ls Rs y (P_rep m A S x y z f0 f0 f0) (t_x m V y z T1 T2 x)) jx jw Lx Rx) as [Rx'|B]; [| |do 4 right; left; exact B].
  { intros j H1 H2 (Q1 & Q2 & Q3). destruct (bal_step _ _ j ltac:(lia) NZ Q3) as [Q|Q]; [left|right; exact Q]. split; [exact Q1|]. split; [exact Q2|exact Q]. }
  destruct (right_z_dec m (pre jx us) (left_ jx) (pre jx Ls) (pre jx Rs) V A S y z (NZf jx)) as [Rz|N];
    [|do 3 right; left; split; [exact N|exact Rx']].
  destruct (descend (fun j => right_z m (pre j us) (left_ j) (pre j Ls) (pre j Rs) V A S y z)
     (bad_step us Ls Rs y (P_rep m A rzero f0 y z f0 f0 f0) (t_z m V y z)) jz jx Lz Rz) as [Rz'|B]; [| |do 2 right; left; exact B].
  { intros j H1 H2 (Q1 & Q2 & Q3 & Q4 & Q5). destruct (bal_step _ _ j ltac:(lia) NZ Q3) as [Q|Q]; [left|right; exact Q].
    split; [exact Q1|]. split; [exact Q2|]. split; [exact Q|]. split; [exact Q4|]. rewrite left_S by lia.
    unfold pre in Q5. rewrite (firstn_snoc f0 us j ltac:(lia)) in Q5. apply spans_app in Q5. exact Q5. }
  destruct (Nat.eq_dec jz 0) as [E|E]; [left; split; [exact E|]|right; left; split; [lia|]; right; right; exact Rz'].
  subst jz. unfold pre, left_ in Rz'. cbn [firstn] in Rz'. rewrite Nat.sub_0_r, HK in Rz'. apply right_z_ok in Rz'; [|exact Y].
  destruct (ok_y_dec m V A y) as [Hy|Ny]; [|right; right; split; assumption].
  destruct (ok_A_dec m V A) as [HA|NA]; [left; exact HA|right; left; right; split; assumption].
Qed.
End Chain.
