(** Extraction of representations from an aggregated range proof, and its soundness *)
From Coq Require Import String ZArith List Lia Bool Arith Field.
From Verif Require Import GoModel Fld Rist RistFacts SpecVector VectorFacts SpecPedersen PedersenFacts InnerProductFacts IPPVerifyFacts SpecIPP SpecRange RangeFacts RangeRun
  SpecSound Poly IPSound RangeSound SoundPoints SpecOrder SoundOrder SpecRewind RewindIP.
Import ListNotations.
Local Open Scope nat_scope.

(** ** Lagrange interpolation: coefficients lam with sum_i lam j i z_i^k = [j = k] *)
Definition sumx (n : nat) (cs : list F) : list F := map (fun j => nth j cs f0) (seq 0 n).
Definition mulx (r : F) (cs : list F) : list F :=
  map (fun j => fsub (nth j (f0 :: cs) f0) (fmul r (nth j cs f0))) (seq 0 (S (length cs))).
Lemma peval_nth cs x : peval cs x = Sum (length cs) (fun i => fmul (fpow x i) (nth i cs f0)).
Proof. rewrite <- (peval_Sum (length cs) (fun i => nth i cs f0) x), (map_nth_seq cs). reflexivity. Qed.
Lemma mulx_length r cs : length (mulx r cs) = S (length cs).
Proof. unfold mulx. rewrite map_length, seq_length. reflexivity. Qed.
Lemma mulx_peval r cs x : peval (mulx r cs) x = fmul (fsub x r) (peval cs x).
Proof.
  unfold mulx. rewrite peval_Sum.
  rewrite (Sum_ext _ _ (fun i => fadd (fmul (fpow x i) (nth i (f0 :: cs) f0)) (fmul (fneg r) (fmul (fpow x i) (nth i cs f0))))) by (intros; ring).
  rewrite Sum_add, Sum_scale. rewrite Sum_first. rewrite (Sum_S (length cs) (fun i => fmul (fpow x i) (nth i cs f0))), (nth_overflow cs f0 (le_n _)).
  rewrite <- peval_nth. cbn [nth]. rewrite (Sum_ext _ _ (fun i => fmul x (fmul (fpow x i) (nth i cs f0)))) by (intros; cbn [fpow nth]; ring).
  rewrite Sum_scale, <- peval_nth. ring.
Qed.
Definition proots (rs : list F) : list F := fold_right mulx [f1] rs.
Lemma proots_length rs : length (proots rs) = S (length rs).
Proof. induction rs as [|r rs IH]; [reflexivity|]. cbn [proots fold_right]. fold (proots rs). rewrite mulx_length, IH. reflexivity. Qed.
Lemma proots_zero rs x : peval (proots rs) x = f0 <-> In x rs.
Proof.
  induction rs as [|r rs IH]; cbn [proots fold_right In].
  - split; [|tauto]. intros E. exfalso. apply f1_neq_f0. rewrite <- E. unfold peval. cbn [fold_right]. ring.
  - fold (proots rs). rewrite mulx_peval. split; intros H.
    + apply fmul_integral in H. destruct H as [H|H]; [left; symmetry; apply fsub_eq; exact H|right; apply IH; exact H].
    + destruct H as [<- |H]; [ring|]. apply IH in H. rewrite H. ring.
Qed.
Definition others (i : nat) (zs : list F) : list F := firstn i zs ++ skipn (S i) zs.
Definition lag (zs : list F) (i j : nat) : F :=
  fmul (finv (peval (proots (others i zs)) (nth i zs f0))) (nth j (proots (others i zs)) f0).
Lemma others_length i zs : i < length zs -> S (length (others i zs)) = length zs.
Proof. intros H. unfold others. rewrite app_length, firstn_length, skipn_length. lia. Qed.
Lemma others_in i zs : NoDup zs -> i < length zs -> ~ In (nth i zs f0) (others i zs) /\ forall k, k < length zs -> k <> i -> In (nth k zs f0) (others i zs).
Proof.
  revert i. induction zs as [|z zs IH]; intros [|i] ND H; cbn [length] in H; try lia; inversion ND as [|? ? N ND']; subst.
  - unfold others. cbn [firstn skipn nth app length]. split; [exact N|]. intros [|k] Hk Hn; [lia|]. apply nth_In. lia.
  - destruct (IH i ND' ltac:(lia)) as [I1 I2]. unfold others in *. cbn [firstn skipn nth app]. split.
    + intros [E|I]; [|contradiction]. apply N. rewrite E. apply nth_In. lia.
    + intros [|k] Hk Hn; [left; reflexivity|]. right. cbn [length] in Hk. apply I2; lia.
Qed.
Definition unit_ (j k : nat) : F := if j =? k then f1 else f0.
Lemma lag_peval zs i k : NoDup zs -> i < length zs -> k < length zs ->
  Sum (length zs) (fun j => fmul (fpow (nth k zs f0) j) (lag zs i j)) = unit_ i k.
Proof.
  intros ND Hi Hk. destruct (others_in i zs ND Hi) as [N I]. unfold lag. set (c := finv _).
  rewrite (Sum_ext _ _ (fun j => fmul c (fmul (fpow (nth k zs f0) j) (nth j (proots (others i zs)) f0)))) by (intros; ring).
  rewrite Sum_scale. rewrite <- (others_length i zs Hi), <- proots_length, <- peval_nth. unfold unit_.
  destruct (Nat.eqb_spec i k) as [E|E].
  - subst k. unfold c. field. intros Z. apply proots_zero in Z. contradiction.
  - replace (peval (proots (others i zs)) (nth k zs f0)) with f0; [ring|]. symmetry. apply proots_zero. apply I; [exact Hk|lia].
Qed.
Lemma Sum_swap n m (f : nat -> nat -> F) : Sum n (fun i => Sum m (f i)) = Sum m (fun j => Sum n (fun i => f i j)).
Proof.
  induction n as [|n IH]; [symmetry; apply Sum_zero; reflexivity|]. rewrite Sum_S, IH, <- Sum_add. apply Sum_ext. intros j _. rewrite Sum_S. reflexivity.
Qed.
Lemma Sum_unit n k (f : nat -> F) : k < n -> Sum n (fun i => fmul (f i) (unit_ i k)) = f k.
Proof.
  induction n as [|n IH]; intros H; [lia|]. rewrite Sum_S. unfold unit_ at 2. destruct (Nat.eqb_spec n k) as [E|E].
  - subst. rewrite Sum_zero; [ring|]. intros i Hi. unfold unit_. destruct (Nat.eqb_spec i k); [lia|ring].
  - rewrite IH by lia. ring.
Qed.
Theorem lagrange zs j k : NoDup zs -> j < length zs -> k < length zs ->
  Sum (length zs) (fun i => fmul (lag zs i j) (fpow (nth i zs f0) k)) = unit_ j k.
Proof.
  intros ND Hj Hk.
  assert (Z : Forall (fun c => c = f0) (map (fun j => fsub (Sum (length zs) (fun i => fmul (lag zs i j) (fpow (nth i zs f0) k))) (unit_ j k)) (seq 0 (length zs)))).
  { apply (roots_zero zs); [exact ND|rewrite map_length, seq_length; lia|]. apply Forall_forall. intros x Hx.
    apply (In_nth _ _ f0) in Hx. destruct Hx as (l & Hl & <-). rewrite peval_Sum.
    rewrite (Sum_ext _ _ (fun j => fadd (Sum (length zs) (fun i => fmul (fpow (nth i zs f0) k) (fmul (fpow (nth l zs f0) j) (lag zs i j))))
       (fmul (fneg f1) (fmul (fpow (nth l zs f0) j) (unit_ j k))))).
    2: { intros i Hi. transitivity (fadd (fmul (fpow (nth l zs f0) i) (Sum (length zs) (fun i0 => fmul (lag zs i0 i) (fpow (nth i0 zs f0) k))))
           (fmul (fneg f1) (fmul (fpow (nth l zs f0) i) (unit_ i k)))); [ring|]. f_equal. rewrite <- Sum_scale. apply Sum_ext. intros; ring. }
    rewrite Sum_add, Sum_scale, Sum_unit by exact Hk. rewrite Sum_swap.
    rewrite (Sum_ext _ _ (fun i => fmul (fpow (nth i zs f0) k) (unit_ i l))).
    2: { intros i Hi. rewrite Sum_scale, lag_peval by assumption. reflexivity. }
    rewrite Sum_unit by exact Hl. ring. }
  apply fsub_eq. exact (Forall_map_seq _ _ Z j Hj).
Qed.

(** sums of representations and of points *)
Fixpoint rsum (n : nat) (f : nat -> rep) : rep := match n with 0 => rzero | S n' => radd (rsum n' f) (f n') end.
Fixpoint psumn (R : rist) (n : nat) (f : nat -> pt R) : pt R := match n with 0 => pt0 R | S n' => padd R (psumn R n' f) (f n') end.

Section Points.
Context {R : rist} (OK : rist_ok R).
Local Notation "p [+] q" := (padd R p q) (at level 50, left associativity).
Local Notation "s [*] p" := (smul R s p) (at level 40, left associativity).
Lemma reval_rsum N n f : reval R N (rsum n f) = psumn R n (fun i => reval R N (f i)).
Proof. induction n as [|n IH]; cbn [rsum psumn]; [apply (reval_zero OK)|]. rewrite (reval_add OK), IH. reflexivity. Qed.
Lemma msm_psumn m (f : nat -> F) (g : nat -> pt R) : msm R (map f (seq 0 m)) (map g (seq 0 m)) = psumn R m (fun k => f k [*] g k).
Proof.
  induction m as [|m IH]; [reflexivity|]. rewrite seq_S, !map_app. rewrite (msm_app OK) by (rewrite !map_length; reflexivity). rewrite IH.
  cbn [map psumn Nat.add]. f_equal. change (msm R [f m] [g m]) with (f m [*] g m [+] pt0 R). lin OK.
Qed.
Lemma psumn_ext n f g : (forall i, i < n -> f i = g i) -> psumn R n f = psumn R n g.
Proof. induction n as [|n IH]; intros H; [reflexivity|]. cbn [psumn]. rewrite IH by (intros; apply H; lia). rewrite H by lia. reflexivity. Qed.
Lemma psumn_add n (a b : nat -> F) (g : nat -> pt R) : psumn R n (fun k => fadd (a k) (b k) [*] g k) = psumn R n (fun k => a k [*] g k) [+] psumn R n (fun k => b k [*] g k).
Proof. induction n as [|n IH]; cbn [psumn]; [lin OK|]. rewrite IH. lin OK. Qed.
Lemma psumn_scale n c (a : nat -> F) (g : nat -> pt R) : psumn R n (fun k => fmul c (a k) [*] g k) = c [*] psumn R n (fun k => a k [*] g k).
Proof. induction n as [|n IH]; cbn [psumn]; [lin OK|]. rewrite IH. lin OK. Qed.
Lemma psumn_zero n (a : nat -> F) (g : nat -> pt R) : (forall k, k < n -> a k = f0) -> psumn R n (fun k => a k [*] g k) = pt0 R.
Proof. induction n as [|n IH]; intros H; [reflexivity|]. cbn [psumn]. rewrite IH by (intros; apply H; lia). rewrite H by lia. lin OK. Qed.
Lemma psumn_swap n m (c : nat -> F) (d : nat -> nat -> F) (g : nat -> pt R) :
  psumn R n (fun i => c i [*] psumn R m (fun k => d i k [*] g k)) = psumn R m (fun k => Sum n (fun i => fmul (c i) (d i k)) [*] g k).
Proof.
  induction n as [|n IH].
  - symmetry. apply psumn_zero. reflexivity.
  - cbn [psumn]. rewrite IH, <- psumn_scale, <- psumn_add. apply psumn_ext. intros k _. rewrite Sum_S. reflexivity.
Qed.
Lemma psumn_unit n j (g : nat -> pt R) : j < n -> psumn R n (fun k => unit_ j k [*] g k) = g j.
Proof.
  induction n as [|n IH]; intros H; [lia|]. cbn [psumn]. unfold unit_ at 2. destruct (Nat.eqb_spec j n) as [E|E].
  - subst. rewrite psumn_zero; [lin OK|]. intros i Hi. unfold unit_. destruct (Nat.eqb_spec n i); [lia|reflexivity].
  - rewrite IH by lia. lin OK.
Qed.
End Points.

(** ** The extractor *)
Section Extract.
Context (m k : nat) (q : questions) (an : answers).
Definition hd0 (l : list F) : F := nth 0 l f0.
Definition leaf_at (y z x w : F) (us : list F) : rep := leaf_rep m us (an_a an y z x w us) (an_b an y z x w us) y w.
(** A + x S *)
Definition AS_at (y z x : F) : rep :=
  let w := hd0 (q_w q y z x) in
  radd (v_of (leaf_at y z x w) (q_u q y z x w) k []) (rscale (fneg f1) (P_rep m rzero rzero x y z w (an_mu an y z x) (an_t an y z x))).
(** sum of z^(j+2) V_j, + x T1 + x^2 T2 *)
Definition W_at (y z x : F) : rep := mkRep (fun _ => f0) (fun _ => f0) (fsub (an_t an y z x) (delta y z m)) (an_taux an y z x).
Definition x_at (y z : F) (i : nat) : F := nth i (q_x q y z) f0.
Definition over_x (f : F -> F -> F -> rep -> rep -> rep -> rep) (g : F -> rep) (y z : F) : rep :=
  f (x_at y z 0) (x_at y z 1) (x_at y z 2) (g (x_at y z 0)) (g (x_at y z 1)) (g (x_at y z 2)).
Definition y_0 : F := hd0 (q_y q).
Definition z_0 : F := hd0 (q_z q y_0).
Definition zs_0 : list F := firstn m (q_z q y_0).
Definition extract : script rep := mkScript
  (fun j => rsum m (fun i => let z := nth i zs_0 f0 in rscale (fmul (lag zs_0 i j) (finv (fmul z z))) (over_x quad0 (W_at y_0 z) y_0 z)))
  (over_x quad0 (AS_at y_0 z_0) y_0 z_0) (over_x quad1 (AS_at y_0 z_0) y_0 z_0)
  (fun y z => over_x quad1 (W_at y z) y z) (fun y z => over_x quad2 (W_at y z) y z)
  (fun y z x w => L_of (leaf_at y z x w) (q_u q y z x w) k) (fun y z x w => R_of (leaf_at y z x w) (q_u q y z x w) k).

Context (HM : 0 < m) (HK : 2 ^ k = 64 * m) (W : wide m k q).
Lemma in_hd0 l : 0 < length l -> In (hd0 l) l. Proof. intros H. apply nth_In. exact H. Qed.

Lemma in_x y z i : In y (q_y q) -> In z (q_z q y) -> i < 3 -> In (x_at y z i) (q_x q y z).
Proof.
  intros Hy Hz Hi. destruct W as [_ W1]. destruct (W1 y Hy) as [_ W2]. destruct (W2 z Hz) as [[_ L] _]. apply nth_In. lia.
Qed.
Lemma in_w y z x : In y (q_y q) -> In z (q_z q y) -> In x (q_x q y z) -> In (hd0 (q_w q y z x)) (q_w q y z x).
Proof.
  intros Hy Hz Hx. destruct W as [_ W1]. destruct (W1 y Hy) as [_ W2]. destruct (W2 z Hz) as [_ W3]. destruct (W3 x Hx) as [[_ L] _]. apply in_hd0. lia.
Qed.
(** some challenges for the rounds *)
Lemma some_rounds y z x w : In y (q_y q) -> In z (q_z q y) -> In x (q_x q y z) -> In w (q_w q y z x) -> exists us, asked q k y z x w us.
Proof.
  intros Hy Hz Hx Hw. assert (E : exists us, length us = k /\ path (q_u q y z x w) [] us).
  { assert (G : forall j, j <= k -> exists us, length us = j /\ path (q_u q y z x w) [] us).
    { induction j as [|j IH]; intros Hj; [exists []; split; [reflexivity|exact I]|]. destruct (IH ltac:(lia)) as (us & L & P).
      destruct W as [_ W1]. destruct (W1 y Hy) as [_ W2]. destruct (W2 z Hz) as [_ W3]. destruct (W3 x Hx) as [_ W4].
      destruct (W4 w Hw us ltac:(lia) P) as (_ & L4 & _). exists (us ++ [hd0 (q_u q y z x w us)]).
      split; [rewrite app_length; cbn [length]; lia|]. apply (proj2 (path_app _ _ _ _)). split; [exact P|]. apply in_hd0. cbn [app]. lia. }
    exact (G k (le_n _)). }
  destruct E as (us & L & P). exists us. split; [|split; [|split; [|split; [|split]]]]; assumption.
Qed.

Section OverR.
Context {R : rist} (OK : rist_ok R) (s : script (pt R)).
Context (ACC : forall y z x w us, asked q k y z x w us -> accepts R m s an y z x w us).
Local Notation "p [+] q" := (padd R p q) (at level 50, left associativity).
Local Notation "s [*] p" := (smul R s p) (at level 40, left associativity).

Lemma wide_y : NoDup (q_y q) /\ 64 * m + 1 <= length (q_y q) /\ ~ In f0 (q_y q). Proof. apply W. Qed.
Lemma rounds_points y z x w : In y (q_y q) -> In z (q_z q y) -> In x (q_x q y z) -> In w (q_w q y z x) ->
  reval R (64 * m) (v_of (leaf_at y z x w) (q_u q y z x w) k []) = rp_P R m (s_A s) (s_S s) x y z (an_mu an y z x) (an_t an y z x) (w [*] rp_Base R) /\
  forall us, length us < k -> path (q_u q y z x w) [] us ->
    reval R (64 * m) (s_L extract y z x w us) = s_L s y z x w us /\ reval R (64 * m) (s_R extract y z x w us) = s_R s y z x w us.
Proof.
  intros Hy Hz Hx Hw.
  destruct (extract_rounds OK (64 * m) (leaf_at y z x w) (q_u q y z x w) (s_L s y z x w) (s_R s y z x w) k k []
    (rp_P R m (s_A s) (s_S s) x y z (an_mu an y z x) (an_t an y z x) (w [*] rp_Base R))) as [E1 E2].
  - reflexivity.
  - exact I.
  - destruct W as [_ W1]. destruct (W1 y Hy) as [_ W2]. destruct (W2 z Hz) as [_ W3]. destruct (W3 x Hx) as [_ W4].
    intros us Hl Hp. exact (W4 w Hw us Hl Hp).
  - intros suf HS PS. cbn [app]. assert (AK : asked q k y z x w suf) by (split; [|split; [|split; [|split; [|split]]]]; assumption).
    destruct (ACC _ _ _ _ _ AK) as [H _]. unfold ip_holds in H. cbv zeta in H. unfold leaf_at. rewrite <- (leaf_points OK) by (rewrite HS; exact HK).
    exact H.
  - split; [exact E1|]. exact E2.
Qed.
Lemma over_x_points y z g C0 C1 C2 : In y (q_y q) -> In z (q_z q y) ->
  (forall x, In x (q_x q y z) -> reval R (64 * m) (g x) = C0 [+] x [*] C1 [+] fmul x x [*] C2) ->
  reval R (64 * m) (over_x quad0 g y z) = C0 /\ reval R (64 * m) (over_x quad1 g y z) = C1 /\ reval R (64 * m) (over_x quad2 g y z) = C2.
Proof.
  intros Hy Hz H. destruct W as [_ W1]. destruct (W1 y Hy) as [_ W2]. destruct (W2 z Hz) as [[ND L] _].
  unfold over_x, x_at. revert ND L H. destruct (q_x q y z) as [|x1 [|x2 [|x3 xs]]]; cbn [length]; try lia. intros ND L H. cbn [nth].
  apply (quad_points OK (64 * m) x1 x2 x3 xs _ _ _ C0 C1 C2 ND); apply H; cbn [In]; tauto.
Qed.
Lemma AS_points y z x : In y (q_y q) -> In z (q_z q y) -> In x (q_x q y z) -> reval R (64 * m) (AS_at y z x) = s_A s [+] x [*] s_S s [+] fmul x x [*] pt0 R.
Proof.
  intros Hy Hz Hx. unfold AS_at. cbv zeta. rewrite (reval_add OK), (reval_scale OK).
  destruct (rounds_points y z x (hd0 (q_w q y z x)) Hy Hz Hx (in_w y z x Hy Hz Hx)) as [-> _]. rewrite (P_points OK). lin OK.
Qed.
Definition zV_point (z : F) : pt R := psumn R m (fun j => fpow z (j + 2) [*] s_V s j).
Lemma W_points y z x : In y (q_y q) -> In z (q_z q y) -> In x (q_x q y z) ->
  reval R (64 * m) (W_at y z x) = zV_point z [+] x [*] s_T1 s y z [+] fmul x x [*] s_T2 s y z.
Proof.
  intros Hy Hz Hx. destruct (some_rounds y z x _ Hy Hz Hx (in_w y z x Hy Hz Hx)) as (us & AK). destruct (ACC _ _ _ _ _ AK) as [_ H].
  unfold poly_holds, rp_poly_lhs, rp_poly_rhs, z_msm in H. rewrite (msm_psumn OK) in H. fold (zV_point z) in H.
  unfold reval, W_at. cbn [rg rh rb rl]. rewrite !(msm_fun_const OK) by apply chain_length.
  transitivity ((an_t an y z x [*] rp_Base R [+] an_taux an y z x [*] rp_Blind R) [+] fneg (delta y z m) [*] rp_Base R); [lin OK|].
  rewrite H. lin OK.
Qed.
Theorem extract_represents : represents R m k q extract s.
Proof.
  assert (Y0 : In y_0 (q_y q)) by (apply in_hd0; pose proof wide_y; lia).
  assert (WZ : NoDup (q_z q y_0) /\ m + 2 <= length (q_z q y_0) /\ ~ In f0 (q_z q y_0)) by (apply W; exact Y0).
  destruct WZ as (NDz & Lz & NZz).
  assert (Z0 : In z_0 (q_z q y_0)) by (apply in_hd0; lia).
  destruct (over_x_points y_0 z_0 (AS_at y_0 z_0) (s_A s) (s_S s) (pt0 R) Y0 Z0) as (EA & ES & _); [intros x Hx; apply AS_points; assumption|].
  assert (EW : forall y z, In y (q_y q) -> In z (q_z q y) -> reval R (64 * m) (over_x quad0 (W_at y z) y z) = zV_point z /\
    reval R (64 * m) (over_x quad1 (W_at y z) y z) = s_T1 s y z /\ reval R (64 * m) (over_x quad2 (W_at y z) y z) = s_T2 s y z).
  { intros y z Hy Hz. apply over_x_points; [exact Hy|exact Hz|]. intros x Hx. apply W_points; assumption. }
  assert (LZ : length zs_0 = m) by (apply firstn_length_le; lia).
  assert (INZ : forall i, i < m -> In (nth i zs_0 f0) (q_z q y_0)).
  { intros i Hi. rewrite <- (firstn_skipn m (q_z q y_0)). apply in_or_app. left. apply nth_In. fold zs_0. lia. }
  split; [|split; [|split; [|split]]].
  - intros j Hj. cbn [extract s_V]. rewrite (reval_rsum OK). symmetry.
    rewrite (psumn_ext m _ (fun i => fmul (lag zs_0 i j) (finv (fmul (nth i zs_0 f0) (nth i zs_0 f0))) [*] psumn R m (fun l => fpow (nth i zs_0 f0) (l + 2) [*] s_V s l))).
    2: { intros i Hi. cbv zeta. rewrite (reval_scale OK). destruct (EW y_0 (nth i zs_0 f0) Y0 (INZ i Hi)) as [-> _]. reflexivity. }
    rewrite (psumn_swap OK). rewrite <- (psumn_unit OK m j (s_V s) Hj). apply psumn_ext. intros l Hl. f_equal.
    rewrite <- (lagrange zs_0 j l) by (try apply NoDup_firstn; try rewrite LZ; assumption). rewrite LZ. apply Sum_ext. intros i Hi.
    rewrite Nat.add_comm. cbn [Nat.add fpow]. field. intros E. apply NZz. rewrite <- E. apply INZ. exact Hi.
  - symmetry. exact EA.
  - symmetry. exact ES.
  - intros y z Hy Hz. destruct (EW y z Hy Hz) as (_ & E1 & E2). split; symmetry; assumption.
  - intros y z x w us Hy Hz Hx Hw HL HP. destruct (rounds_points y z x w Hy Hz Hx Hw) as [_ H]. destruct (H us HL HP) as [E1 E2]. split; symmetry; assumption.
Qed.
Lemma rounds_eq {X} (qu : list F -> list F) (f g : list F -> X) us : forall pre, path qu [] pre -> path qu pre us ->
  (forall vs, length vs < length pre + length us -> path qu [] vs -> f vs = g vs) -> rounds f pre us = rounds g pre us.
Proof.
  induction us as [|u us IH]; intros pre HP HU H; [reflexivity|]. cbn [rounds path length] in *. destruct HU as [Hu HU]. f_equal.
  - apply H; [lia|exact HP].
  - apply IH; [apply (proj2 (path_app _ _ _ _)); split; assumption|exact HU|]. intros vs Hv. apply H. rewrite app_length in Hv. cbn [length] in Hv. lia.
Qed.
(** the coefficients satisfy the two equations up to relations among the generators *)
Theorem gaps_zero e : represents R m k q e s -> forall y z x w us, asked q k y z x w us ->
  reval R (64 * m) (ip_gap m e an y z x w us) = pt0 R /\ reval R (64 * m) (poly_gap m e an y z x) = pt0 R.
Proof.
  intros (EV & EA & ES & ET & EL) y z x w us AK. destruct (ACC _ _ _ _ _ AK) as [H1 H2]. destruct AK as (Hy & Hz & Hx & Hw & LU & PU). split.
  - unfold ip_holds in H1. cbv zeta in H1. rewrite (leaf_points OK) in H1 by (rewrite LU; exact HK). rewrite (P_points OK) in H1.
    unfold ip_gap, ip_rep. fold (leaf_rep m us (an_a an y z x w us) (an_b an y z x w us) y w).
    rewrite (reval_add OK), (reval_scale OK), (reval_add OK), H1, (P_rep_split OK m (s_A e)), <- EA, <- ES.
    rewrite <- (reval_lr OK), !rounds_map.
    rewrite (rounds_eq (q_u q y z x w) (s_L s y z x w) (fun us0 => reval R (64 * m) (s_L e y z x w us0)) us []);
      [|exact I|exact PU|intros vs Hv Pv; apply EL; try assumption; cbn [length] in Hv; lia].
    rewrite (rounds_eq (q_u q y z x w) (s_R s y z x w) (fun us0 => reval R (64 * m) (s_R e y z x w us0)) us []);
      [|exact I|exact PU|intros vs Hv Pv; apply EL; try assumption; cbn [length] in Hv; lia].
    lin OK.
  - unfold poly_gap. destruct (ET y z Hy Hz) as [E1 E2].
    rewrite <- (E2_rep OK (64 * m) m (map (s_V s) (seq 0 m)) (s_V e) y z (s_T1 e y z) (s_T2 e y z) x (an_t an y z x) (an_taux an y z x)).
    + rewrite <- E1, <- E2. unfold poly_holds in H2. rewrite H2. lin OK.
    + rewrite firstn_all2 by (rewrite map_length, seq_length; lia). apply map_ext_in. intros j Hj. apply in_seq in Hj. apply EV. lia.
Qed.
End OverR.

(** ** If all these relations are trivial, the values are in range *)
Theorem rewind_ok e : (forall y z x w us, asked q k y z x w us ->
    vanishes (64 * m) (ip_gap m e an y z x w us) /\ vanishes (64 * m) (poly_gap m e an y z x)) -> ok_A m (s_V e) (s_A e).
Proof.
  intros H. destruct W as [(NDy & Ly & NZy) W1].
  assert (OY : forall y, In y (q_y q) -> ok_y m (s_V e) (s_A e) y).
  { intros y Hy. destruct (W1 y Hy) as [(NDz & Lz & _) W2]. assert (Ny : y <> f0) by (intros E; apply NZy; rewrite <- E; exact Hy).
    assert (OZ : forall z, In z (q_z q y) -> ok_z m (s_V e) (s_A e) y z).
    { intros z Hz. destruct (W2 z Hz) as [(NDx & Lx) W3].
      assert (OX : forall x, In x (q_x q y z) -> ok_x m (s_V e) (s_A e) (s_S e) y z (s_T1 e y z) (s_T2 e y z) x).
      { intros x Hx. destruct (W3 x Hx) as [(NDw & Lw) W4].
        assert (OW : forall w, In w (q_w q y z x) -> ok_w m (s_V e) (s_A e) (s_S e) y z (s_T1 e y z) (s_T2 e y z) x (an_t an y z x) (an_taux an y z x) (an_mu an y z x) w).
        { intros w Hw. split.
          - destruct (some_rounds y z x w Hy Hz Hx Hw) as (us & AK). apply (H y z x w us AK).
          - pose proof (good_rounds (q_u q y z x w) (s_L e y z x w) (s_R e y z x w) w y
              (P_rep m (s_A e) (s_S e) x y z w (an_mu an y z x) (an_t an y z x)) k k [] eq_refl I (Forall_nil _) (W4 w Hw)) as G.
            rewrite HK in G. assert (G' := G ltac:(intros us LU PU;
              apply (final_good m us (rounds (s_L e y z x w) [] us) (rounds (s_R e y z x w) [] us) (an_a an y z x w us) (an_b an y z x w us));
              [rewrite LU; exact HK|exact Ny|apply (H y z x w us); split; [|split; [|split; [|split; [|split]]]]; assumption])).
            revert G'. apply good_req. cbn [rounds lr_rep]. split; [|split; [|split]]; intros; cbn [radd rzero rg rh rb rl]; ring. }
        destruct (ok_x_dec m (s_V e) (s_A e) (s_S e) y z (s_T1 e y z) (s_T2 e y z) x) as [O|N]; [exact O|exfalso].
        assert (B := bad_w_few m (s_V e) (s_A e) (s_S e) y z (s_T1 e y z) (s_T2 e y z) x (an_t an y z x) (an_taux an y z x) (an_mu an y z x) (q_w q y z x) Ny NDw).
        enough (length (q_w q y z x) <= 1) by lia. apply B. apply Forall_forall. intros w Hw. split; [exact N|apply OW; exact Hw]. }
      destruct (ok_z_dec m (s_V e) (s_A e) y z) as [O|N]; [exact O|exfalso].
      enough (length (q_x q y z) <= 2) by lia. apply (bad_x_few m (s_V e) (s_A e) (s_S e) y z (s_T1 e y z) (s_T2 e y z)); [exact NDx|].
      apply Forall_forall. intros x Hx. split; [exact N|apply OX; exact Hx]. }
    destruct (ok_y_dec m (s_V e) (s_A e) y) as [O|N]; [exact O|exfalso].
    enough (length (q_z q y) <= m + 1) by lia. apply (bad_z_few m (s_V e) (s_A e) y); [exact NDz|].
    apply Forall_forall. intros z Hz. split; [exact N|apply OZ; exact Hz]. }
  destruct (ok_A_dec m (s_V e) (s_A e)) as [O|N]; [exact O|exfalso].
  enough (length (q_y q) <= 64 * m) by lia. apply (bad_y_few m (s_V e) (s_A e)); [exact HM|exact NDy|].
  apply Forall_forall. intros y Hy. right. split; [exact N|apply OY; exact Hy].
Qed.
End Extract.
