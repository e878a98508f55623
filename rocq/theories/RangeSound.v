(** Soundness of range proofs for algebraic provers: how a false statement can become true *)
From Coq Require Import String ZArith List Lia Bool Arith Field.
From Verif Require Import GoModel Fld Rist RistFacts SpecVector VectorFacts InnerProductFacts IPPVerifyFacts SpecIPP SpecRange RangeFacts RangeRun
  SpecSound Poly IPSound.
Import ListNotations.
Local Open Scope nat_scope.

Lemma fsub_eq a b : fsub a b = f0 -> a = b.
Proof. intros H. replace a with (fadd (fsub a b) b) by ring. rewrite H. ring. Qed.
Lemma Forall_zero_nth cs i : Forall (fun c => c = f0) cs -> nth i cs f0 = f0.
Proof. revert i. induction cs as [|c cs IH]; intros [|i] H; try reflexivity; inversion H; subst; [reflexivity|apply IH; assumption]. Qed.
Lemma Forall_map_seq (f : nat -> F) n : Forall (fun c => c = f0) (map f (seq 0 n)) -> forall i, i < n -> f i = f0.
Proof.
  intros H i Hi. rewrite Forall_forall in H. apply H. apply in_map. apply in_seq. lia.
Qed.
Lemma length_filter_split {A} (p : A -> bool) l : length l = length (filter p l) + length (filter (fun x => negb (p x)) l).
Proof. induction l as [|x l IH]; [reflexivity|]. cbn [filter length]. destruct (p x); cbn [negb length]; lia. Qed.
Lemma fsum_powers x n : fsum (powers x n) = Sum n (fpow x). Proof. reflexivity. Qed.

(** ** y *)
Theorem bad_y_few m V A ys : 0 < m -> NoDup ys -> Forall (bad_y m V A) ys -> length ys <= 64 * m.
Proof.
  intros Hm ND B. destruct (Nat.le_gt_cases (length ys) (64 * m)) as [C|C]; [exact C|exfalso].
  set (nz := fun u => negb (feqb u f0)). set (xs := filter nz ys).
  assert (Z : length (filter (fun u => negb (nz u)) ys) <= length [f0]).
  { apply NoDup_incl_length; [apply NoDup_filter; exact ND|]. intros u Hu. apply filter_In in Hu. destruct Hu as [_ Hu].
    unfold nz in Hu. rewrite negb_involutive in Hu. apply feqb_eq in Hu. left. symmetry. exact Hu. }
  cbn [length] in Z. pose proof (length_filter_split nz ys) as E. fold xs in E.
  assert (NX : NoDup xs) by (apply NoDup_filter; exact ND).
  assert (Q : forall y, In y xs -> ~ ok_A m V A /\ ok_y m V A y).
  { intros y Hy. apply filter_In in Hy. destruct Hy as [Hy N]. rewrite Forall_forall in B. destruct (B y Hy) as [-> |H]; [|exact H].
    unfold nz in N. rewrite feqb_refl in N. discriminate. }
  assert (R1 : forall i, i < 64 * m -> fmul (rg A i) (rh A i) = f0).
  { apply (Forall_map_seq (fun i => fmul (rg A i) (rh A i))). apply (roots_zero xs); [exact NX|rewrite map_length, seq_length; lia|].
    apply Forall_forall. intros y Hy. rewrite peval_Sum. apply (Q y Hy). }
  assert (R2 : forall i, i < 64 * m -> fsub (fsub (rg A i) (rh A i)) f1 = f0).
  { apply (Forall_map_seq (fun i => fsub (fsub (rg A i) (rh A i)) f1)). apply (roots_zero xs); [exact NX|rewrite map_length, seq_length; lia|].
    apply Forall_forall. intros y Hy. rewrite peval_Sum. apply (Q y Hy). }
  destruct xs as [|y xs]; [cbn in E; lia|]. destruct (Q y (or_introl eq_refl)) as [N (K & _ & _)]. apply N.
  split; [exact K|]. split; [exact R1|]. intros i Hi. apply fsub_eq. apply R2. exact Hi.
Qed.

(** ** z *)
Lemma z_two_length z m : length (z_two z m) = 64 * m.
Proof.
  unfold z_two. induction m as [|m IH]; [reflexivity|]. rewrite seq_S, map_app, concat_app, app_length, IH. cbn [map concat].
  rewrite app_nil_r, vscale_length, powers_length. lia.
Qed.
Lemma bitpow_block m z j i : j < m -> i < 64 -> bitpow m z (64 * j + i) = fmul (fpow z (j + 2)) (fpow two i).
Proof.
  unfold bitpow. induction m as [|m IH]; intros Hj Hi; [lia|].
  assert (E : z_two z (S m) = z_two z m ++ vscale (fpow z (m + 2)) (powers two 64)).
  { unfold z_two. rewrite seq_S, map_app, concat_app. cbn [map concat]. rewrite app_nil_r. reflexivity. }
  rewrite E. destruct (Nat.eq_dec j m) as [-> |N].
  - rewrite app_nth2; rewrite z_two_length; [|lia]. replace (64 * m + i - 64 * m) with i by lia.
    unfold vscale, powers. rewrite map_map. apply nth_error_nth. rewrite nth_error_map.
    rewrite (nth_error_nth' (seq 0 64) 0) by (rewrite seq_length; exact Hi). rewrite seq_nth by exact Hi. reflexivity.
  - rewrite app_nth1; [apply IH; lia|]. rewrite z_two_length. lia.
Qed.
Lemma zV_peval m V z c : zV m V z c = peval (f0 :: f0 :: map (fun j => c (V j)) (seq 0 m)) z.
Proof.
  change (peval (f0 :: f0 :: map (fun j => c (V j)) (seq 0 m)) z) with (fadd f0 (fmul z (fadd f0 (fmul z (peval (map (fun j => c (V j)) (seq 0 m)) z))))).
  rewrite peval_Sum. unfold zV. transitivity (fmul (fmul z z) (Sum m (fun j => fmul (fpow z j) (c (V j))))); [|ring].
  rewrite <- Sum_scale. apply Sum_ext. intros j _. rewrite Nat.add_comm. cbn [Nat.add fpow]. ring.
Qed.
Definition zc0 (m : nat) (A : rep) (y : F) : F := Sum (64 * m) (fun i => fmul (fpow y i) (fmul (rg A i) (rh A i))).
Definition zc1 (m : nat) (A : rep) (y : F) : F := Sum (64 * m) (fun i => fmul (fpow y i) (fsub (fsub (rg A i) (rh A i)) f1)).
Definition zcj (V : nat -> rep) (A : rep) (j : nat) : F := fsub (Sum 64 (fun i => fmul (fpow two i) (rg A (64 * j + i)))) (rb (V j)).
Lemma key_z m V A y z :
  Sum (64 * m) (fun i => fmul (lvec A rzero f0 z i) (rvec m A rzero f0 y z i)) =
  fadd (fadd (delta y z m) (zV m V z rb)) (peval (zc0 m A y :: zc1 m A y :: map (zcj V A) (seq 0 m)) z).
Proof.
  transitivity (fadd (fadd (fadd (zc0 m A y) (fmul z (zc1 m A y))) (fmul (fsub z (fmul z z)) (Sum (64 * m) (fpow y))))
    (fsub (Sum (64 * m) (fun i => fmul (bitpow m z i) (rg A i))) (fmul z (Sum (64 * m) (bitpow m z))))).
  { unfold zc0, zc1. rewrite <- !Sum_scale, <- !Sum_add.
    transitivity (fadd (Sum (64 * m) (fun i => fadd (fadd (fmul (fpow y i) (fmul (rg A i) (rh A i))) (fmul z (fmul (fpow y i) (fsub (fsub (rg A i) (rh A i)) f1))))
      (fmul (fsub z (fmul z z)) (fpow y i)))) (fadd (Sum (64 * m) (fun i => fmul (bitpow m z i) (rg A i))) (Sum (64 * m) (fun i => fmul (fneg z) (bitpow m z i))))).
    - rewrite <- !Sum_add. apply Sum_ext. intros i _. unfold lvec, rvec, rzero. cbn [rg rh]. ring.
    - rewrite !Sum_scale. ring. }
  rewrite (Sum_blocks 64 m (fun i => fmul (bitpow m z i) (rg A i))), (Sum_blocks 64 m (bitpow m z)).
  rewrite (Sum_ext m _ (fun j => fmul (fpow z (j + 2)) (Sum 64 (fun i => fmul (fpow two i) (rg A (64 * j + i)))))).
  2:{ intros j Hj. rewrite <- Sum_scale. apply Sum_ext. intros i Hi. rewrite bitpow_block by assumption. ring. }
  rewrite (Sum_ext m (fun j => Sum 64 (fun i => bitpow m z (64 * j + i))) (fun j => fmul (Sum 64 (fpow two)) (fmul (fmul z z) (fpow z j)))).
  2:{ intros j Hj. transitivity (fmul (fpow z (j + 2)) (Sum 64 (fpow two))).
      - rewrite <- Sum_scale. apply Sum_ext. intros i Hi. apply bitpow_block; assumption.
      - rewrite Nat.add_comm. cbn [Nat.add fpow]. ring. }
  rewrite !Sum_scale.
  change (peval (zc0 m A y :: zc1 m A y :: map (zcj V A) (seq 0 m)) z)
    with (fadd (zc0 m A y) (fmul z (fadd (zc1 m A y) (fmul z (peval (map (zcj V A) (seq 0 m)) z))))).
  rewrite peval_Sum.
  assert (X : Sum m (fun j => fmul (fpow z (j + 2)) (Sum 64 (fun i => fmul (fpow two i) (rg A (64 * j + i))))) =
    fadd (zV m V z rb) (fmul (fmul z z) (Sum m (fun j => fmul (fpow z j) (zcj V A j))))).
  { unfold zV. rewrite <- Sum_scale, <- Sum_add. apply Sum_ext. intros j _. unfold zcj. rewrite Nat.add_comm. cbn [Nat.add fpow]. ring. }
  rewrite X. unfold delta. rewrite !fsum_powers. ring.
Qed.
Theorem bad_z_few m V A y zs : NoDup zs -> Forall (bad_z m V A y) zs -> length zs <= m + 1.
Proof.
  intros ND B. destruct (Nat.le_gt_cases (length zs) (m + 1)) as [C|C]; [exact C|exfalso].
  rewrite Forall_forall in B.
  assert (P : forall c, (forall z, In z zs -> zV m V z c = f0) -> forall j, j < m -> c (V j) = f0).
  { intros c H. apply (Forall_map_seq (fun j => c (V j))).
    assert (X : Forall (fun c => c = f0) (f0 :: f0 :: map (fun j => c (V j)) (seq 0 m))).
    { apply (roots_zero zs); [exact ND|cbn [length]; rewrite map_length, seq_length; lia|]. apply Forall_forall. intros z Hz.
      rewrite <- zV_peval. apply H. exact Hz. }
    inversion X as [|? ? _ X']; subst. inversion X'; subst; assumption. }
  assert (X : Forall (fun c => c = f0) (zc0 m A y :: zc1 m A y :: map (zcj V A) (seq 0 m))).
  { apply (roots_zero zs); [exact ND|cbn [length]; rewrite map_length, seq_length; lia|]. apply Forall_forall. intros z Hz.
    destruct (B z Hz) as [_ (_ & _ & E)]. rewrite (key_z m V A y z) in E. set (d := fadd (delta y z m) (zV m V z rb)) in *.
    set (p := peval _ _) in *. replace p with (fsub (fadd d p) d) by ring. rewrite E. ring. }
  inversion X as [|? ? X0 X']; subst. inversion X' as [|? ? X1 X2]; subst.
  destruct zs as [|z zs]; [cbn in C; lia|]. destruct (B z (or_introl eq_refl)) as [N _]. apply N.
  split; [|split; [exact X0|exact X1]]. intros j Hj. split; [|split].
  - intros i Hi. apply (P (fun v => rg v i)); [|exact Hj]. intros z' Hz. apply (B z' Hz). exact Hi.
  - intros i Hi. apply (P (fun v => rh v i)); [|exact Hj]. intros z' Hz. apply (B z' Hz). exact Hi.
  - symmetry. apply fsub_eq. exact (Forall_map_seq (zcj V A) m X2 j Hj).
Qed.

(** ** x *)
Lemma quad c0 c1 c2 xs : NoDup xs -> 3 <= length xs -> (forall x, In x xs -> fadd c0 (fadd (fmul x c1) (fmul (fmul x x) c2)) = f0) -> c0 = f0.
Proof.
  intros ND L H. assert (Z : Forall (fun c => c = f0) [c0; c1; c2]).
  { apply (roots_zero xs); [exact ND|cbn; lia|]. apply Forall_forall. intros x Hx. rewrite <- (H x Hx). unfold peval. cbn [fold_right]. ring. }
  inversion Z; assumption.
Qed.
Lemma key_x m A S x y z : Sum (64 * m) (fun i => fmul (lvec A S x z i) (rvec m A S x y z i)) =
  fadd (Sum (64 * m) (fun i => fmul (lvec A rzero f0 z i) (rvec m A rzero f0 y z i)))
    (fadd (fmul x (Sum (64 * m) (fun i => fadd (fmul (rg S i) (rvec m A rzero f0 y z i)) (fmul (lvec A rzero f0 z i) (fmul (fpow y i) (rh S i))))))
       (fmul (fmul x x) (Sum (64 * m) (fun i => fmul (rg S i) (fmul (fpow y i) (rh S i)))))).
Proof.
  rewrite <- !Sum_scale, <- !Sum_add. apply Sum_ext. intros i _. unfold lvec, rvec, rzero. cbn [rg rh]. ring.
Qed.
Theorem bad_x_few m V A S y z T1 T2 xs : NoDup xs -> Forall (bad_x m V A S y z T1 T2) xs -> length xs <= 2.
Proof.
  intros ND B. destruct (Nat.le_gt_cases (length xs) 2) as [C|C]; [exact C|exfalso]. rewrite Forall_forall in B.
  assert (N : ~ ok_z m V A y z) by (destruct xs as [|x xs]; [cbn in C; lia|apply (B x (or_introl eq_refl))]). apply N.
  split; [|split].
  - intros i Hi. apply (quad _ (rg T1 i) (rg T2 i) xs ND C). intros x Hx. apply (B x Hx). exact Hi.
  - intros i Hi. apply (quad _ (rh T1 i) (rh T2 i) xs ND C). intros x Hx. apply (B x Hx). exact Hi.
  - apply fsub_eq. set (q1 := Sum (64 * m) (fun i => fadd (fmul (rg S i) (rvec m A rzero f0 y z i)) (fmul (lvec A rzero f0 z i) (fmul (fpow y i) (rh S i))))).
    set (q2 := Sum (64 * m) (fun i => fmul (rg S i) (fmul (fpow y i) (rh S i)))).
    apply (quad _ (fsub q1 (rb T1)) (fsub q2 (rb T2)) xs ND C). intros x Hx. destruct (B x Hx) as [_ (_ & _ & E)].
    rewrite key_x in E. fold q1 q2 in E. clearbody q1 q2. set (q0 := Sum _ _) in *. set (d := fadd (delta y z m) (zV m V z rb)) in *.
    transitivity (fsub (fadd q0 (fadd (fmul x q1) (fmul (fmul x x) q2))) (fadd d (fadd (fmul x (rb T1)) (fmul (fmul x x) (rb T2))))); [ring|].
    rewrite E. ring.
Qed.

(** ** w *)
Lemma fpow_nz y i : y <> f0 -> fpow y i <> f0.
Proof. intros N. induction i as [|i IH]; cbn [fpow]; [apply f1_neq_f0|]. intros E. apply fmul_integral in E. tauto. Qed.
Lemma cpowers_nth y n i : y <> f0 -> i < n -> nth i (cpowers (finv y) n) f0 = finv (fpow y i).
Proof.
  intros N Hi. rewrite cpowers_nz by (apply finv_neq0; exact N). unfold powers.
  rewrite (nth_indep _ f0 (fpow (finv y) 0)) by (rewrite map_length, seq_length; exact Hi). rewrite map_nth, seq_nth by exact Hi. cbn [Nat.add].
  clear Hi. induction i as [|i IH]; cbn [fpow]; [field; apply f1_neq_f0|]. rewrite IH. field. pose proof (fpow_nz y i N). split; assumption.
Qed.
Lemma P_rh m A S x y z w mu t i : y <> f0 -> i < 64 * m -> fmul (fpow y i) (rh (P_rep m A S x y z w mu t) i) = rvec m A S x y z i.
Proof.
  intros N Hi. unfold P_rep, rvec. cbn [rh]. rewrite cpowers_nth by assumption. field. apply fpow_nz. exact N.
Qed.
Lemma good_nil m A S x y z w mu t : y <> f0 -> good [] (64 * m) w y (P_rep m A S x y z w mu t) ->
  fadd (fadd (rb A) (fmul x (rb S))) (fmul t w) = fmul w (Sum (64 * m) (fun i => fmul (lvec A S x z i) (rvec m A S x y z i))).
Proof.
  intros N (l & r & H1 & H2 & H3 & _). cbn [rb P_rep] in H3. rewrite H3. f_equal. apply Sum_ext.
  intros i Hi. cbn [length spread map] in H1, H2. rewrite Nat.pow_0_r, Nat.mul_1_r in H1, H2. rewrite <- H1, <- H2 by exact Hi.
  rewrite P_rh by assumption. reflexivity.
Qed.
Theorem bad_w_few m V A S y z T1 T2 x t taux mu ws : y <> f0 -> NoDup ws ->
  Forall (bad_w m V A S y z T1 T2 x t taux mu) ws -> length ws <= 1.
Proof.
  intros N ND B. destruct ws as [|w1 [|w2 ws]]; cbn [length]; try lia. exfalso.
  inversion B as [|? ? B1 B']; subst. inversion B' as [|? ? B2 _]; subst. inversion ND as [|? ? I _]; subst.
  destruct B1 as [O [(G1 & G2 & G3 & _) W1]]. destruct B2 as [_ [_ W2]]. apply O.
  apply good_nil in W1; [|exact N]. apply good_nil in W2; [|exact N]. set (q := Sum _ _) in *.
  assert (E : fmul (fsub t q) (fsub w1 w2) = f0).
  { set (k := fadd (rb A) (fmul x (rb S))) in *. transitivity (fsub (fsub (fadd k (fmul t w1)) (fmul w1 q)) (fsub (fadd k (fmul t w2)) (fmul w2 q))); [ring|].
    rewrite W1, W2. ring. }
  apply fmul_integral in E. destruct E as [E|E]; [|exfalso; apply I; left; symmetry; apply fsub_eq; exact E].
  apply fsub_eq in E. unfold poly_rep in G1, G2, G3. cbn [rg rh rb] in G1, G2, G3.
  assert (D : forall c, fneg c = f0 -> c = f0) by (intros c Hc; replace c with (fneg (fneg c)) by ring; rewrite Hc; ring).
  split; [intros i Hi; apply D; apply G1; exact Hi|]. split; [intros i Hi; apply D; apply G2; exact Hi|].
  fold q. rewrite <- E. apply fsub_eq in G3. rewrite G3. ring.
Qed.

(** ** The chain *)
Lemma ok_y_dec m V A y : dec (ok_y m V A y).
Proof. unfold ok_y. repeat (apply dec_and || (apply dec_all; intros)); apply dec_eq. Qed.
Lemma ok_A_dec m V A : dec (ok_A m V A).
Proof. unfold ok_A. repeat (apply dec_and || (apply dec_all; intros)); apply dec_eq. Qed.
Lemma ok_z_dec m V A y z : dec (ok_z m V A y z).
Proof. unfold ok_z. repeat (apply dec_and || (apply dec_all; intros)); apply dec_eq. Qed.
Lemma ok_x_dec m V A S y z T1 T2 x : dec (ok_x m V A S y z T1 T2 x).
Proof. unfold ok_x. repeat (apply dec_and || (apply dec_all; intros)); apply dec_eq. Qed.
Lemma vanishes_dec n v : dec (vanishes n v).
Proof. unfold vanishes. repeat (apply dec_and || (apply dec_all; intros)); apply dec_eq. Qed.

Definition req (a b : rep) : Prop := (forall i, rg a i = rg b i) /\ (forall i, rh a i = rh b i) /\ rb a = rb b /\ rl a = rl b.
Lemma good_req us m w y a b : req a b -> good us m w y a -> good us m w y b.
Proof.
  intros (E1 & E2 & E3 & E4) (l & r & H1 & H2 & H3 & H4). exists l, r.
  split; [intros i Hi; rewrite <- E1; apply H1; exact Hi|]. split; [intros i Hi; rewrite <- E2; apply H2; exact Hi|].
  split; [rewrite <- E3; exact H3|rewrite <- E4; exact H4].
Qed.
Lemma lr_rep_snoc us Ls Rs j : j < length us -> length Ls = length us -> length Rs = length us ->
  forall v, req (radd v (lr_rep (firstn (j + 1) us) (firstn (j + 1) Ls) (firstn (j + 1) Rs)))
    (lr_step (radd v (lr_rep (firstn j us) (firstn j Ls) (firstn j Rs))) (nth j Ls rzero) (nth j Rs rzero) (nth j us f0)).
Proof.
  revert j Ls Rs. induction us as [|u us IH]; intros j Ls Rs Hj H1 H2 v; [cbn in Hj; lia|].
  destruct Ls as [|L Ls]; [discriminate|]. destruct Rs as [|R Rs]; [discriminate|]. cbn [length] in *.
  destruct j as [|j].
  - cbn [Nat.add firstn nth]. cbn [lr_rep]. repeat split; intros; cbn; ring.
  - cbn [Nat.add firstn nth]. cbn [lr_rep]. 
    destruct (IH j Ls Rs ltac:(lia) ltac:(lia) ltac:(lia) v) as (E1 & E2 & E3 & E4). 
    repeat split; [intros i; specialize (E1 i)|intros i; specialize (E2 i)| |]; cbn in *.
    + set (q := rg (lr_rep (firstn (j + 1) us) (firstn (j + 1) Ls) (firstn (j + 1) Rs)) i) in *.
      replace q with (fsub (fadd (rg v i) q) (rg v i)) by ring. rewrite E1. ring.
    + set (q := rh (lr_rep (firstn (j + 1) us) (firstn (j + 1) Ls) (firstn (j + 1) Rs)) i) in *.
      replace q with (fsub (fadd (rh v i) q) (rh v i)) by ring. rewrite E2. ring.
    + set (q := rb (lr_rep (firstn (j + 1) us) (firstn (j + 1) Ls) (firstn (j + 1) Rs))) in *.
      replace q with (fsub (fadd (rb v) q) (rb v)) by ring. rewrite E3. ring.
    + set (q := rl (lr_rep (firstn (j + 1) us) (firstn (j + 1) Ls) (firstn (j + 1) Rs))) in *.
      replace q with (fsub (fadd (rl v) q) (rl v)) by ring. rewrite E4. ring.
Qed.
Lemma firstn_snoc {A} (d : A) l j : j < length l -> firstn (j + 1) l = firstn j l ++ [nth j l d].
Proof. revert j. induction l as [|x l IH]; intros [|j] H; cbn [length] in H; try lia; [reflexivity|]. cbn [Nat.add firstn nth app]. rewrite IH by lia. reflexivity. Qed.
Lemma Forall_firstn {A} (P : A -> Prop) l j : Forall P l -> Forall P (firstn j l).
Proof. intros H. revert j. induction H as [|x l Hx H IH]; intros [|j]; cbn; constructor; [exact Hx|apply IH]. Qed.

(** the inner-product rounds, last to first *)
Theorem rounds_chain m us Ls Rs A S x y z w mu t : length Ls = length us -> length Rs = length us ->
  good us 1 w y (radd (P_rep m A S x y z w mu t) (lr_rep us Ls Rs)) ->
  good [] (2 ^ length us) w y (P_rep m A S x y z w mu t) \/
  exists j, j < length us /\ bad_round m us Ls Rs A S x y z w mu t j.
Proof.
  intros HL HR G. set (P := P_rep m A S x y z w mu t) in *.
  destruct (Forall_Exists_dec (fun u => u <> f0) (fun u => match F_eq_dec u f0 with left e => right (fun n => n e) | right n => left n end) us) as [NZ|Z].
  2:{ right. apply Exists_exists in Z. destruct Z as (u & Hu & E). apply In_nth with (d := f0) in Hu. destruct Hu as (j & Hj & Ej). exists j. split; [exact Hj|].
      left. rewrite Ej. destruct (F_eq_dec u f0); [assumption|contradiction]. }
  assert (K : forall d, d <= length us -> let j := length us - d in
    good (firstn j us) (2 ^ d) w y (radd P (lr_rep (firstn j us) (firstn j Ls) (firstn j Rs))) \/
    exists j, j < length us /\ bad_round m us Ls Rs A S x y z w mu t j).
  { induction d as [|d IH]; intros Hd; cbv zeta.
    - left. rewrite Nat.sub_0_r. rewrite <- HL at 3. rewrite <- HR at 3. rewrite !firstn_all. exact G.
    - destruct (IH ltac:(lia)) as [H|H]; [|right; exact H]. cbv zeta in H. set (j := length us - Datatypes.S d).
      assert (Ej : length us - d = j + 1) by (unfold j; lia). rewrite Ej in H.
      destruct (good_dec (firstn j us) (2 ^ Datatypes.S d) w y (radd P (lr_rep (firstn j us) (firstn j Ls) (firstn j Rs)))) as [Y|N];
        [apply Forall_firstn; exact NZ|left; exact Y|right].
      exists j. split; [unfold j; lia|]. right. replace (length us - (j + 1)) with d by (unfold j; lia). split; [exact N|].
      rewrite (firstn_snoc f0 us j) in H by (unfold j; lia). revert H. apply good_req.
      rewrite <- (firstn_snoc f0 us j) by (unfold j; lia). apply lr_rep_snoc; [unfold j; lia|assumption|assumption]. }
  specialize (K (length us) (le_n _)). cbv zeta in K. rewrite Nat.sub_diag in K. cbn [firstn lr_rep] in K.
  destruct K as [K|K]; [left|right; exact K]. revert K. apply good_req. repeat split; intros; cbn; ring.
Qed.
Lemma svec_spread us a i : i < 2 ^ length us -> spread us 1 (fun _ => a) i = fmul a (nth i (svec us) f0).
Proof.
  revert i. induction us as [|u us IH]; intros i Hi; cbn [length] in Hi.
  - cbn in Hi. replace i with 0 by lia. cbn. ring.
  - rewrite Nat.pow_succ_r' in Hi. cbn [spread svec]. rewrite Nat.mul_1_l.
    assert (V : forall c j, nth j (vscale c (svec us)) f0 = fmul c (nth j (svec us) f0)).
    { intros c j. unfold vscale. replace f0 with (fmul c f0) at 1 by ring. apply map_nth. }
    destruct (Nat.ltb_spec i (2 ^ length us)) as [C|C].
    + rewrite app_nth1 by (rewrite vscale_length, svec_length; exact C). rewrite V, IH by exact C. ring.
    + rewrite app_nth2 by (rewrite vscale_length, svec_length; exact C). rewrite vscale_length, svec_length, V, IH by lia. ring.
Qed.
Theorem sound_chain m V A S y z T1 T2 x t taux mu w us Ls Rs a b : 2 ^ length us = 64 * m -> length Ls = length us -> length Rs = length us ->
  vanishes (64 * m) (poly_rep m V y z T1 T2 x t taux) -> vanishes (64 * m) (ip_rep m us Ls Rs a b A S x y z w mu t) ->
  ok_A m V A \/ bad_y m V A y \/ bad_z m V A y z \/ bad_x m V A S y z T1 T2 x \/ bad_w m V A S y z T1 T2 x t taux mu w \/
  exists j, j < length us /\ bad_round m us Ls Rs A S x y z w mu t j.
Proof.
  intros HK HL HR HP HI. destruct (F_eq_dec y f0) as [Y0|Y]; [right; left; left; exact Y0|].
  assert (G : good us 1 w y (radd (P_rep m A S x y z w mu t) (lr_rep us Ls Rs))).
  { destruct HI as (I1 & I2 & I3 & I4). exists (fun _ => a), (fun _ => b). rewrite Nat.mul_1_l, HK.
    set (v := radd (P_rep m A S x y z w mu t) (lr_rep us Ls Rs)) in *. unfold ip_rep in I1, I2, I3, I4. fold v in I1, I2, I3, I4.
    unfold radd, rscale in I1, I2, I3, I4. cbn [rg rh rb rl] in I1, I2, I3, I4. split; [|split; [|split]].
    - intros i Hi. rewrite svec_spread by lia. symmetry. apply fsub_eq. etransitivity; [|exact (I1 i Hi)]. ring.
    - intros i Hi. rewrite svec_spread by (rewrite map_length; lia). specialize (I2 i Hi). rewrite cpowers_nth in I2 by assumption.
      symmetry. apply fsub_eq. pose proof (fpow_nz y i Y) as Ny.
      transitivity (fmul (fpow y i) (fadd (fmul b (fmul (nth i (svec (map finv us)) f0) (finv (fpow y i)))) (fmul (fneg f1) (rh v i)))); [field; exact Ny|].
      rewrite I2. ring.
    - unfold Sum. cbn [seq map fsum fold_right]. symmetry. apply fsub_eq. etransitivity; [|exact I3]. ring.
    - replace (rl v) with (fneg (fadd f0 (fmul (fneg f1) (rl v)))) by ring. rewrite I4. ring. }
  destruct (rounds_chain m us Ls Rs A S x y z w mu t HL HR G) as [G0|B]; [|do 5 right; exact B]. rewrite HK in G0.
  destruct (ok_x_dec m V A S y z T1 T2 x) as [Hx|Nx]; [|do 4 right; left; split; [exact Nx|split; assumption]].
  destruct (ok_z_dec m V A y z) as [Hz|Nz]; [|do 3 right; left; split; assumption].
  destruct (ok_y_dec m V A y) as [Hy|Ny]; [|do 2 right; left; split; assumption].
  destruct (ok_A_dec m V A) as [HA|NA]; [left; exact HA|right; left; right; split; assumption].
Qed.

(** ** What ok_A means *)
Lemma bits_value (f : nat -> F) n : (forall i, i < n -> f i = f0 \/ f i = f1) ->
  exists k : Z, (0 <= k < 2 ^ Z.of_nat n)%Z /\ Sum n (fun i => fmul (fpow two i) (f i)) = of_Z k.
Proof.
  induction n as [|n IH]; intros H.
  - exists 0%Z. split; [cbn; lia|reflexivity].
  - destruct IH as (k & K & E); [intros; apply H; lia|]. rewrite Nat2Z.inj_succ, Z.pow_succ_r by lia. rewrite Sum_S, E.
    destruct (H n ltac:(lia)) as [-> | ->].
    + exists k. split; [lia|ring].
    + exists (k + 2 ^ Z.of_nat n)%Z. split; [lia|]. unfold two. rewrite fpow_of_Z, of_Z_add. ring.
Qed.
Theorem ok_A_range m V A j : ok_A m V A -> j < m ->
  (forall i, i < 64 * m -> rg (V j) i = f0) /\ (forall i, i < 64 * m -> rh (V j) i = f0) /\
  exists k : Z, (0 <= k < 2 ^ 64)%Z /\ rb (V j) = of_Z k.
Proof.
  intros (H1 & H2 & H3) Hj. destruct (H1 j Hj) as (G & H & E). split; [exact G|]. split; [exact H|]. rewrite E.
  apply (bits_value (fun i => rg A (64 * j + i)) 64). intros i Hi.
  pose proof (H2 (64 * j + i) ltac:(nia)) as B. pose proof (H3 (64 * j + i) ltac:(nia)) as D.
  apply fmul_integral in B. destruct B as [B|B]; [left; exact B|right]. rewrite B in D. rewrite <- D. ring.
Qed.
