(** Proofs about InnerProductModel.v *)
From Coq Require Import String ZArith List Lia Bool Arith Field.
From Verif Require Import GoModel GoFacts ReadModel ReadFacts Fld Rist RistFacts SpecVector VectorModel VectorFacts
  PedersenModel PedersenFacts InnerProductModel SpecIPP.
Import ListNotations.
Local Open Scope nat_scope.

(** ** Powers of two *)
Section Pow2.
Local Open Scope Z_scope.

(** bit i of x, or-ed over a window of w bits *)
Definition window (x : Z) (w : Z) (y : Z) : Prop :=
  0 <= y /\ forall i, 0 <= i -> (Z.testbit y i = true <-> exists j, 0 <= j < w /\ Z.testbit x (i + j) = true).

Lemma window_step x w y : 0 < w -> window x w y -> window x (2 * w) (Z.lor y (Z.shiftr y w)).
Proof.
  intros Hw [P H]. split.
  - apply Z.lor_nonneg. split; [exact P|]. apply Z.shiftr_nonneg. exact P.
  - intros i Hi. rewrite Z.lor_spec, Z.shiftr_spec, orb_true_iff by lia. rewrite (H i Hi), (H (i + w)) by lia.
    split.
    + intros [[j [A B]]|[j [A B]]].
      * exists j. split; [lia|exact B].
      * exists (w + j). split; [lia|]. rewrite Z.add_assoc. exact B.
    + intros [j [A B]]. destruct (Z_lt_ge_dec j w).
      * left. exists j. split; [lia|exact B].
      * right. exists (j - w). split; [lia|]. replace (i + w + (j - w)) with (i + j) by lia. exact B.
Qed.
Lemma window_1 x : 0 <= x -> window x 1 x.
Proof.
  intros H. split; [exact H|]. intros i Hi. split.
  - intros B. exists 0. split; [lia|]. rewrite Z.add_0_r. exact B.
  - intros [j [A B]]. replace j with 0 in B by lia. rewrite Z.add_0_r in B. exact B.
Qed.

Lemma window_32 x y : 0 < x < 2 ^ 32 -> window x 32 y -> y = 2 ^ (Z.log2 x + 1) - 1.
Proof.
  intros Hx [P H]. pose proof (Z.log2_nonneg x) as L0.
  assert (L1 : Z.log2 x < 32) by (apply Z.log2_lt_pow2; lia).
  transitivity (Z.ones (Z.log2 x + 1)); [|rewrite Z.ones_equiv; lia].
  apply Z.bits_inj'. intros i Hi. rewrite Z.testbit_ones_nonneg by lia.
  destruct (Z.ltb_spec i (Z.log2 x + 1)) as [C|C].
  - apply (H i Hi). exists (Z.log2 x - i). split; [lia|].
    replace (i + (Z.log2 x - i)) with (Z.log2 x) by lia. apply Z.bit_log2. lia.
  - destruct (Z.testbit y i) eqn:E; [|reflexivity]. apply (H i Hi) in E. destruct E as [j [A B]].
    rewrite Z.bits_above_log2 in B by lia. discriminate.
Qed.

Lemma nextPow2_eq n : 2 <= n <= 2 ^ 32 -> nextPow2 n = 2 ^ (Z.log2 (n - 1) + 1) - 1.
Proof.
  intros H. unfold nextPow2.
  replace (u64 (n - 1)) with (n - 1) by (unfold u64; rewrite Z.mod_small; lia).
  apply (window_32 (n - 1)); [lia|].
  apply (window_step _ 16); [lia|]. apply (window_step _ 8); [lia|]. apply (window_step _ 4); [lia|].
  apply (window_step _ 2); [lia|]. apply (window_step _ 1); [lia|]. apply window_1. lia.
Qed.

Lemma DiffNextPow2_1 : DiffNextPow2 1 = 0.
Proof. reflexivity. Qed.
Lemma DiffNextPow2_eq n : 2 <= n < 2 ^ 32 -> n + DiffNextPow2 n = 2 ^ (Z.log2 (n - 1) + 1).
Proof.
  intros H. unfold DiffNextPow2. rewrite nextPow2_eq by lia.
  assert (L : 0 <= Z.log2 (n - 1) < 32).
  { split; [apply Z.log2_nonneg|]. apply Z.log2_lt_pow2; lia. }
  pose proof (Z.log2_spec (n - 1) ltac:(lia)) as [A B]. rewrite <- Z.add_1_r in B.
  assert (C : 2 ^ (Z.log2 (n - 1) + 1) <= 2 ^ 32) by (apply Z.pow_le_mono_r; lia).
  assert (D : 2 ^ (Z.log2 (n - 1) + 1) = 2 * 2 ^ Z.log2 (n - 1)).
  { rewrite Z.pow_add_r by lia. lia. }
  unfold u32. rewrite (Z.mod_small (2 ^ (Z.log2 (n - 1) + 1) - 1)) by lia.
  rewrite Zplus_mod_idemp_l. rewrite Z.mod_small by lia. lia.
Qed.

Lemma isPower2_pow k : 0 <= k < 32 -> isPower2 (2 ^ k) = true.
Proof.
  intros H. unfold isPower2. apply Z.eqb_eq.
  assert (0 < 2 ^ k) by (apply Z.pow_pos_nonneg; lia).
  assert (2 ^ k <= 2 ^ 31) by (apply Z.pow_le_mono_r; lia).
  unfold u32. rewrite Z.mod_small by lia.
  replace (2 ^ k - 1) with (Z.ones k) by (rewrite Z.ones_equiv; lia).
  rewrite Z.land_ones by lia. apply Z.mod_same. lia.
Qed.

Lemma isPower2_inv n : 0 < n < 2 ^ 32 -> isPower2 n = true -> exists k, 0 <= k < 32 /\ n = 2 ^ k.
Proof.
  intros H E. unfold isPower2 in E. apply Z.eqb_eq in E.
  unfold u32 in E. rewrite Z.mod_small in E by lia.
  assert (L : 0 <= Z.log2 n < 32). { split; [apply Z.log2_nonneg|apply Z.log2_lt_pow2; lia]. }
  exists (Z.log2 n). split; [exact L|].
  destruct (Z.eq_dec n (2 ^ Z.log2 n)) as [C|C]; [exact C|exfalso].
  pose proof (Z.log2_spec n ltac:(lia)) as [A B].
  assert (Z.log2 (n - 1) = Z.log2 n).
  { apply Z.log2_unique; [lia|]. lia. }
  assert (T : Z.testbit (Z.land n (n - 1)) (Z.log2 n) = true).
  { rewrite Z.land_spec, Z.bit_log2 by lia. rewrite <- H0. rewrite Z.bit_log2 by lia. reflexivity. }
  rewrite E, Z.bits_0 in T. discriminate.
Qed.
End Pow2.

Lemma finv_finv x : finv (finv x) = x.
Proof.
  destruct (F_eq_dec x f0) as [->|H]; [rewrite !finv_0; reflexivity|].
  field. split; [exact H|exact f1_neq_f0].
Qed.

(** ** In-place loops *)
Definition mixed {A} (i : nat) (new orig : list A) : list A := firstn i new ++ skipn i orig.

Lemma mixed_0 {A} (new orig : list A) : mixed 0 new orig = orig.
Proof. reflexivity. Qed.
Lemma mixed_full {A} (new orig : list A) : length new = length orig -> mixed (length orig) new orig = new.
Proof. intros H. unfold mixed. rewrite skipn_all, app_nil_r. rewrite <- H. apply firstn_all. Qed.
Lemma nth_error_split_eq {A} (l : list A) i x : nth_error l i = Some x -> skipn i l = x :: skipn (S i) l /\ firstn (S i) l = firstn i l ++ [x].
Proof.
  revert i. induction l as [|y l IH]; intros [|i] H; cbn in *; try discriminate.
  - injection H as ->. auto.
  - destruct (IH i H) as [A1 A2]. split; [exact A1|]. rewrite A2. reflexivity.
Qed.
Lemma upd_app_mid {A} (a b : list A) x y : upd (a ++ x :: b) (length a) y = a ++ y :: b.
Proof. induction a as [|z a IH]; cbn; [reflexivity|]. rewrite IH. reflexivity. Qed.
Lemma mixed_step {A} i (new orig : list A) x y : length new = length orig ->
  nth_error orig i = Some x -> nth_error new i = Some y ->
  idx (mixed i new orig) i = Ok x /\ set_idx (mixed i new orig) i y = Ok (mixed (S i) new orig).
Proof.
  intros HL Hx Hy. assert (L : i < length orig) by (apply nth_error_Some; congruence).
  assert (F : length (firstn i new) = i) by (rewrite ?firstn_length, ?skipn_length; lia).
  unfold mixed. destruct (nth_error_split_eq _ _ _ Hx) as [A1 _]. destruct (nth_error_split_eq _ _ _ Hy) as [_ A2].
  rewrite A1, A2. split.
  - unfold idx. rewrite nth_error_app2 by lia. rewrite F, Nat.sub_diag. reflexivity.
  - unfold set_idx. destruct (Nat.ltb_spec i (length (firstn i new ++ x :: skipn (S i) orig))) as [C|C].
    + f_equal. pose proof (upd_app_mid (firstn i new) (skipn (S i) orig) x y) as U. rewrite F in U.
      rewrite U, <- app_assoc. reflexivity.
    + rewrite app_length, F in C. cbn in C. lia.
Qed.

Lemma nth_error_ex {A} (l : list A) i : i < length l -> exists x, nth_error l i = Some x.
Proof. intros H. destruct (nth_error l i) eqn:E; [eauto|]. apply nth_error_None in E. lia. Qed.
Lemma idx_some {A} (l : list A) i x : nth_error l i = Some x -> idx l i = Ok x.
Proof. intros H. unfold idx. rewrite H. reflexivity. Qed.
Lemma nth_error_skipn {A} (l : list A) k i : nth_error (skipn k l) i = nth_error l (k + i).
Proof. revert l. induction k as [|k IH]; intros l; [reflexivity|]. destruct l; cbn; [destruct i; reflexivity|]. apply IH. Qed.
Lemma nth_error_firstn {A} (l : list A) k i : i < k -> nth_error (firstn k l) i = nth_error l i.
Proof.
  revert l i. induction k as [|k IH]; intros l i H; [lia|]. destruct l as [|x l]; [destruct i; reflexivity|].
  destruct i; cbn; [reflexivity|]. apply IH. lia.
Qed.
Lemma zipw_length_min {A B C} (f : A -> B -> C) a b : length (zipw f a b) = Nat.min (length a) (length b).
Proof. revert b. induction a as [|x a IH]; intros [|y b]; cbn; auto. Qed.
Lemma zipw_nth_inv {A B C} (f : A -> B -> C) a b i : nth_error (zipw f a b) i =
  match nth_error a i, nth_error b i with Some x, Some y => Some (f x y) | _, _ => None end.
Proof.
  revert b i. induction a as [|x a IH]; intros b i.
  - cbn. destruct i; reflexivity.
  - destruct b as [|y b].
    + cbn. destruct i; cbn; [reflexivity|]. destruct (nth_error a i); reflexivity.
    + destruct i; cbn; [reflexivity|]. apply IH.
Qed.
Lemma zipw_firstn {A B C} (f : A -> B -> C) k a b : zipw f (firstn k a) (firstn k b) = firstn k (zipw f a b).
Proof. revert a b. induction k as [|k IH]; intros [|x a] [|y b]; cbn; try reflexivity. rewrite IH. reflexivity. Qed.
Lemma zipw_skipn {A B C} (f : A -> B -> C) k a b : zipw f (skipn k a) (skipn k b) = skipn k (zipw f a b).
Proof.
  revert a b. induction k as [|k IH]; intros [|x a] [|y b]; cbn; try reflexivity.
  - destruct (skipn k a); reflexivity.
  - apply IH.
Qed.
Lemma zipw_app {A B C} (f : A -> B -> C) a a' b b' : length a = length b ->
  zipw f (a ++ a') (b ++ b') = zipw f a b ++ zipw f a' b'.
Proof. revert b. induction a as [|x a IH]; intros [|y b] H; cbn in *; try discriminate; [reflexivity|]. rewrite IH by lia. reflexivity. Qed.
Lemma zipw_map {A B C D E} (f : A -> B -> C) (g : D -> A) (h : E -> B) a b :
  zipw f (map g a) (map h b) = zipw (fun x y => f (g x) (h y)) a b.
Proof. revert b. induction a as [|x a IH]; intros [|y b]; cbn; try reflexivity. rewrite IH. reflexivity. Qed.
Lemma zipw_ext {A B C} (f g : A -> B -> C) a b : (forall x y, f x y = g x y) -> zipw f a b = zipw g a b.
Proof. intros H. revert b. induction a as [|x a IH]; intros [|y b]; cbn; try reflexivity. rewrite IH, H. reflexivity. Qed.
Lemma zipw_more {A B C} (f : A -> B -> C) a b c : length a <= length b -> zipw f a (b ++ c) = zipw f a b.
Proof. revert b. induction a as [|x a IH]; intros [|y b] H; cbn in *; try reflexivity; try lia. rewrite IH by lia. reflexivity. Qed.

Lemma mul_factors_ok v fs off : off + length v <= length fs -> mul_factors v fs off = Ok (zipw fmul v (skipn off fs)).
Proof.
  intros H. unfold mul_factors.
  assert (HL : length (zipw fmul v (skipn off fs)) = length v) by (rewrite zipw_length_min, ?firstn_length, !skipn_length; lia).
  edestruct (for_loop_inv (fun i s => s = mixed i (zipw fmul v (skipn off fs)) v)) as [s' [E P]]; cycle 2.
  - rewrite E. rewrite P. cbn [plus]. rewrite mixed_full by exact HL. reflexivity.
  - reflexivity.
  - intros i s Hi ->. destruct (nth_error_ex v i) as [x Hx]; [lia|].
    destruct (nth_error_ex fs (i + off)) as [f Hf]; [lia|].
    destruct (mixed_step i (zipw fmul v (skipn off fs)) v x (fmul x f)) as [A1 A2]; [exact HL|exact Hx| |].
    + rewrite zipw_nth_inv, Hx, nth_error_skipn, (Nat.add_comm off), Hf. reflexivity.
    + rewrite A1. cbn [bind]. rewrite (idx_some _ _ _ Hf). cbn [bind]. rewrite A2. eauto.
Qed.
Lemma for_loop_panic {S} (body : nat -> S -> res S) (P : nat -> S -> Prop) k m lo st :
  P lo st -> (forall i s, lo <= i < lo + k -> P i s -> exists s', body i s = Ok s' /\ P (1 + i) s') ->
  (forall s, P (lo + k) s -> body (lo + k) s = Panic) -> for_loop lo (k + (1 + m)) body st = Panic.
Proof.
  intros H0 H1 H2. rewrite for_loop_app.
  destruct (for_loop_inv P body k lo st H0 H1) as [s' [E Q]]. rewrite E. cbn [bind plus for_loop].
  rewrite (H2 s' Q). reflexivity.
Qed.
Lemma mul_factors_short v fs off : length fs < off + length v -> 0 < length v -> mul_factors v fs off = Panic.
Proof.
  intros H V. unfold mul_factors.
  set (k := length fs - off).
  replace (length v) with (k + (1 + (length v - k - 1))) by (unfold k; lia).
  apply (for_loop_panic _ (fun i s => length s = length v)).
  - reflexivity.
  - intros i s Hi Hs. destruct (nth_error_ex s i) as [x Hx]; [unfold k in Hi; lia|].
    destruct (nth_error_ex fs (i + off)) as [f Hf]; [unfold k in Hi; lia|].
    rewrite (idx_some _ _ _ Hx), (idx_some _ _ _ Hf). cbn [bind]. unfold set_idx.
    destruct (Nat.ltb_spec i (length s)); [|unfold k in Hi; lia].
    eexists. split; [reflexivity|]. rewrite upd_length. exact Hs.
  - intros s Hs. destruct (nth_error_ex s (0 + k)) as [x Hx]; [unfold k; lia|].
    rewrite (idx_some _ _ _ Hx). cbn [bind].
    replace (idx fs (0 + k + off)) with (@Panic F); [reflexivity|].
    symmetry. apply idx_Panic. unfold k. lia.
Qed.

Section Fold.
Context {R : rist} (OK : rist_ok R).
Local Notation "p [+] q" := (padd R p q) (at level 50, left associativity).
Local Notation "s [*] p" := (smul R s p) (at level 40, left associativity).

(** folded vectors: first half times u plus second half times v *)
Definition vfold (u v : F) (x y : list F) : list F := vadd (vscale u x) (vscale v y).
Definition pfold (u v : F) (x y : list (pt R)) : list (pt R) := pvadd R (pscale R u x) (pscale R v y).

Lemma vfold_zipw u v x y : vfold u v x y = zipw (fun a b => fadd (fmul a u) (fmul b v)) x y.
Proof. unfold vfold, vadd, vscale. rewrite zipw_map. apply zipw_ext. intros. ring. Qed.
Lemma pfold_zipw u v x y : pfold u v x y = zipw (fun a b => u [*] a [+] v [*] b) x y.
Proof. unfold pfold, pvadd, pscale. rewrite zipw_map. reflexivity. Qed.
Lemma vfold_length u v x y : length (vfold u v x y) = Nat.min (length x) (length y).
Proof. rewrite vfold_zipw. apply zipw_length_min. Qed.
Lemma pfold_length u v x y : length (pfold u v x y) = Nat.min (length x) (length y).
Proof. rewrite pfold_zipw. apply zipw_length_min. Qed.

Lemma fold_next_ok n u uinv aL aR bL bR GL GR HL HR :
  length aL = n -> length aR = n -> length bL = n -> length bR = n ->
  length GL = n -> length GR = n -> length HL = n -> length HR = n ->
  fold_next R n u uinv aL aR bL bR GL GR HL HR =
  Ok (vfold u uinv aL aR, vfold uinv u bL bR, pfold uinv u GL GR, pfold u uinv HL HR).
Proof.
  intros H1 H2 H3 H4 H5 H6 H7 H8. unfold fold_next.
  edestruct (for_loop_inv (fun i '(a, b, G, H) =>
     a = mixed i (vfold u uinv aL aR) aL /\ b = mixed i (vfold uinv u bL bR) bL /\
     G = mixed i (pfold uinv u GL GR) GL /\ H = mixed i (pfold u uinv HL HR) HL)) as [s' [E P]]; cycle 2.
  - rewrite E. destruct s' as [[[a b] G] H]. destruct P as [-> [-> [-> ->]]]. cbn [plus].
    rewrite <- H1 at 1. rewrite <- H3 at 1. rewrite <- H5 at 1. rewrite <- H7 at 1.
    rewrite !mixed_full; [reflexivity|..]; rewrite ?vfold_length, ?pfold_length; lia.
  - cbn. auto.
  - intros i [[[a b] G] H] Hi [-> [-> [-> ->]]].
    destruct (nth_error_ex aL i) as [x1 X1]; [lia|]. destruct (nth_error_ex aR i) as [y1 Y1]; [lia|].
    destruct (nth_error_ex bL i) as [x2 X2]; [lia|]. destruct (nth_error_ex bR i) as [y2 Y2]; [lia|].
    destruct (nth_error_ex GL i) as [x3 X3]; [lia|]. destruct (nth_error_ex GR i) as [y3 Y3]; [lia|].
    destruct (nth_error_ex HL i) as [x4 X4]; [lia|]. destruct (nth_error_ex HR i) as [y4 Y4]; [lia|].
    destruct (mixed_step i (vfold u uinv aL aR) aL x1 (fadd (fmul x1 u) (fmul y1 uinv))) as [A1 B1];
      [rewrite vfold_length; lia|exact X1|rewrite vfold_zipw, zipw_nth_inv, X1, Y1; reflexivity|].
    destruct (mixed_step i (vfold uinv u bL bR) bL x2 (fadd (fmul x2 uinv) (fmul y2 u))) as [A2 B2];
      [rewrite vfold_length; lia|exact X2|rewrite vfold_zipw, zipw_nth_inv, X2, Y2; reflexivity|].
    destruct (mixed_step i (pfold uinv u GL GR) GL x3 (uinv [*] x3 [+] u [*] y3)) as [A3 B3];
      [rewrite pfold_length; lia|exact X3|rewrite pfold_zipw, zipw_nth_inv, X3, Y3; reflexivity|].
    destruct (mixed_step i (pfold u uinv HL HR) HL x4 (u [*] x4 [+] uinv [*] y4)) as [A4 B4];
      [rewrite pfold_length; lia|exact X4|rewrite pfold_zipw, zipw_nth_inv, X4, Y4; reflexivity|].
    rewrite A1, (idx_some _ _ _ Y1). cbn [bind]. rewrite B1. cbn [bind].
    rewrite A2, (idx_some _ _ _ Y2). cbn [bind]. rewrite B2. cbn [bind].
    rewrite A3, (idx_some _ _ _ Y3). cbn [bind]. rewrite B3. cbn [bind].
    rewrite A4, (idx_some _ _ _ Y4). cbn [bind]. rewrite B4. cbn [bind].
    eexists. split; [reflexivity|]. cbn. auto.
Qed.

Lemma fold_first_ok n u uinv fs aL aR bL bR GL GR HL HR :
  length aL = n -> length aR = n -> length bL = n -> length bR = n ->
  length GL = n -> length GR = n -> length HL = n -> length HR = n -> n + n <= length fs ->
  fold_first R n u uinv fs aL aR bL bR GL GR HL HR =
  Ok (vfold u uinv aL aR, vfold uinv u bL bR, pfold uinv u GL GR,
      pfold u uinv (zipw (smul R) fs HL) (zipw (smul R) (skipn n fs) HR)).
Proof.
  intros H1 H2 H3 H4 H5 H6 H7 H8 H9. unfold fold_first.
  set (new := pfold u uinv (zipw (smul R) fs HL) (zipw (smul R) (skipn n fs) HR)).
  assert (NL : length new = n).
  { unfold new. rewrite pfold_length, !zipw_length_min, skipn_length. lia. }
  edestruct (for_loop_inv (fun i '(a, b, G, H) =>
     a = mixed i (vfold u uinv aL aR) aL /\ b = mixed i (vfold uinv u bL bR) bL /\
     G = mixed i (pfold uinv u GL GR) GL /\ H = mixed i new HL)) as [s' [E P]]; cycle 2.
  - rewrite E. destruct s' as [[[a b] G] H]. destruct P as [-> [-> [-> ->]]]. cbn [plus].
    rewrite <- H1 at 1. rewrite <- H3 at 1. rewrite <- H5 at 1. rewrite <- H7 at 1.
    rewrite !mixed_full; [reflexivity|..]; rewrite ?vfold_length, ?pfold_length; lia.
  - cbn. auto.
  - intros i [[[a b] G] H] Hi [-> [-> [-> ->]]].
    destruct (nth_error_ex aL i) as [x1 X1]; [lia|]. destruct (nth_error_ex aR i) as [y1 Y1]; [lia|].
    destruct (nth_error_ex bL i) as [x2 X2]; [lia|]. destruct (nth_error_ex bR i) as [y2 Y2]; [lia|].
    destruct (nth_error_ex GL i) as [x3 X3]; [lia|]. destruct (nth_error_ex GR i) as [y3 Y3]; [lia|].
    destruct (nth_error_ex HL i) as [x4 X4]; [lia|]. destruct (nth_error_ex HR i) as [y4 Y4]; [lia|].
    destruct (nth_error_ex fs i) as [f Hf]; [lia|]. destruct (nth_error_ex fs (i + n)) as [g Hg]; [lia|].
    destruct (mixed_step i (vfold u uinv aL aR) aL x1 (fadd (fmul x1 u) (fmul y1 uinv))) as [A1 B1];
      [rewrite vfold_length; lia|exact X1|rewrite vfold_zipw, zipw_nth_inv, X1, Y1; reflexivity|].
    destruct (mixed_step i (vfold uinv u bL bR) bL x2 (fadd (fmul x2 uinv) (fmul y2 u))) as [A2 B2];
      [rewrite vfold_length; lia|exact X2|rewrite vfold_zipw, zipw_nth_inv, X2, Y2; reflexivity|].
    destruct (mixed_step i (pfold uinv u GL GR) GL x3 (uinv [*] x3 [+] u [*] y3)) as [A3 B3];
      [rewrite pfold_length; lia|exact X3|rewrite pfold_zipw, zipw_nth_inv, X3, Y3; reflexivity|].
    destruct (mixed_step i new HL x4 (fmul f u [*] x4 [+] fmul g uinv [*] y4)) as [A4 B4];
      [lia|exact X4| |].
    { unfold new. rewrite pfold_zipw, zipw_nth_inv, !zipw_nth_inv, nth_error_skipn, (Nat.add_comm n), Hf, Hg, X4, Y4.
      f_equal. lin OK. }
    rewrite A1, (idx_some _ _ _ Y1). cbn [bind]. rewrite B1. cbn [bind].
    rewrite A2, (idx_some _ _ _ Y2). cbn [bind]. rewrite B2. cbn [bind].
    rewrite A3, (idx_some _ _ _ Y3). cbn [bind]. rewrite B3. cbn [bind].
    rewrite (idx_some _ _ _ Hf). cbn [bind]. rewrite A4. cbn [bind].
    rewrite (idx_some _ _ _ Hg), (idx_some _ _ _ Y4). cbn [bind]. rewrite B4. cbn [bind].
    eexists. split; [reflexivity|]. cbn. auto.
Qed.

Lemma split_ignore_ok {A} (x : list A) n : length x = n + n -> 0 < n -> (Z.of_nat (length x) < 2 ^ 32)%Z ->
  split_ignore x (Z.of_nat n) = (firstn n x, skipn n x).
Proof.
  intros HL Hn HB. unfold split_ignore, Split.
  destruct (Nat.leb_spec (length x) 0) as [C|C]; [lia|].
  unfold u32. rewrite Z.mod_small by lia.
  destruct (Z.leb_spec (Z.of_nat (length x)) (Z.of_nat n)) as [D|D]; [lia|].
  rewrite Nat2Z.id. reflexivity.
Qed.

(** the points sent in one round *)
Definition Lpt (n : nat) (a b : list F) (G H : list (pt R)) (Q : pt R) : pt R :=
  msm R (firstn n a) (skipn n G) [+] msm R (skipn n b) (firstn n H) [+] dot (firstn n a) (skipn n b) [*] Q.
Definition Rpt (n : nat) (a b : list F) (G H : list (pt R)) (Q : pt R) : pt R :=
  msm R (skipn n a) (firstn n G) [+] msm R (firstn n b) (skipn n H) [+] dot (skipn n a) (firstn n b) [*] Q.

(** state after one round on full vectors *)
Definition next_state (n : nat) (Q : pt R) (st : gstate R) : gstate R :=
  let '(mkG _ a b G H hs Ls Rs) := st in
  let L := Lpt n a b G H Q in
  let Rp := Rpt n a b G H Q in
  let hs := hs ++ pbytes R L ++ pbytes R Rp in
  let u := sderive R hs in
  mkG R (vfold u (finv u) (firstn n a) (skipn n a)) (vfold (finv u) u (firstn n b) (skipn n b))
    (pfold (finv u) u (firstn n G) (skipn n G)) (pfold u (finv u) (firstn n H) (skipn n H))
    hs (Ls ++ [L]) (Rs ++ [Rp]).

Definition st_len (n : nat) (st : gstate R) : Prop :=
  length (g_a R st) = n /\ length (g_b R st) = n /\ length (g_G R st) = n /\ length (g_H R st) = n.

Lemma half_len {A} (x : list A) n : length x = n + n -> length (firstn n x) = n /\ length (skipn n x) = n.
Proof. intros H. rewrite firstn_length, skipn_length. lia. Qed.

Lemma i64_len n : (Z.of_nat n < 2 ^ 32)%Z -> i64 (Z.of_nat n * 1) = Z.of_nat n.
Proof. intros H. rewrite Z.mul_1_r. apply i64_small. lia. Qed.

Lemma round_next_ok n Q st : st_len (n + n) st -> 0 < n -> (Z.of_nat (n + n) < 2 ^ 32)%Z ->
  round_next R (Z.of_nat n) Q st = Ok (next_state n Q st).
Proof.
  intros [H1 [H2 [H3 H4]]] Hn HB. destruct st as [a b G H hs Ls Rs]. cbn [g_a g_b g_G g_H] in *.
  unfold round_next. cbn [g_a g_b g_G g_H g_hs g_L g_R].
  rewrite !split_ignore_ok by (lia || assumption).
  destruct (half_len a n H1) as [a1 a2]. destruct (half_len b n H2) as [b1 b2].
  destruct (half_len G n H3) as [G1 G2]. destruct (half_len H n H4) as [h1 h2].
  assert (IB : (i64 (Z.of_nat n * 1) <= Z.of_nat n)%Z) by (rewrite i64_len by lia; lia).
  rewrite (InnerProduct_ok (firstn n a)) by lia. cbn [bind].
  rewrite (InnerProduct_ok (skipn n a)) by lia. cbn [bind].
  rewrite !(Exp_ok OK) by (rewrite ?a1, ?a2, ?b1, ?b2; lia). cbn [bind].
  rewrite hc_Append_concat. cbn [concat]. rewrite app_nil_r.
  rewrite Nat2Z.id. unfold hc_Derive. rewrite fold_next_ok by assumption. reflexivity.
Qed.

Lemma round_first_ok n Q fs a b G H hs Ls Rs : st_len (n + n) (mkG R a b G H hs Ls Rs) -> 0 < n ->
  (Z.of_nat (n + n) < 2 ^ 32)%Z -> n + n <= length fs ->
  round_first R (Z.of_nat n) fs Q (mkG R a b G H hs Ls Rs) =
  Ok (next_state n Q (mkG R a b G (zipw (smul R) fs H) hs Ls Rs)).
Proof.
  intros [H1 [H2 [H3 H4]]] Hn HB HF. cbn [g_a g_b g_G g_H] in *.
  unfold round_first. cbn [g_a g_b g_G g_H g_hs g_L g_R].
  rewrite !split_ignore_ok by (lia || assumption).
  destruct (half_len a n H1) as [a1 a2]. destruct (half_len b n H2) as [b1 b2].
  destruct (half_len G n H3) as [G1 G2]. destruct (half_len H n H4) as [h1 h2].
  assert (IB : (i64 (Z.of_nat n * 1) <= Z.of_nat n)%Z) by (rewrite i64_len by lia; lia).
  rewrite (InnerProduct_ok (firstn n a)) by lia.
  rewrite (InnerProduct_ok (skipn n a)) by lia. cbn [bind].
  rewrite (Exp_ok OK (firstn n a)) by (rewrite ?a1; lia). cbn [bind].
  rewrite mul_factors_ok by lia. cbn [bind].
  assert (Z1 : length (zipw fmul (skipn n b) (skipn 0 fs)) = n) by (rewrite zipw_length_min, ?firstn_length, !skipn_length; lia).
  rewrite (Exp_ok OK (zipw fmul (skipn n b) (skipn 0 fs))) by (rewrite ?Z1; lia). cbn [bind].
  rewrite (Exp_ok OK (skipn n a)) by (rewrite ?a2; lia). cbn [bind].
  rewrite Nat2Z.id. rewrite mul_factors_ok by lia. cbn [bind].
  assert (Z2 : length (zipw fmul (firstn n b) (skipn n fs)) = n) by (rewrite zipw_length_min, ?firstn_length, !skipn_length; lia).
  rewrite (Exp_ok OK (zipw fmul (firstn n b) (skipn n fs))) by (rewrite ?Z2; lia). cbn [bind].
  assert (M1 : msm R (zipw fmul (skipn n b) (skipn 0 fs)) (firstn n H) =
               msm R (skipn n b) (firstn n (zipw (smul R) fs H))).
  { cbn [skipn]. rewrite <- (firstn_skipn n fs) at 1. rewrite zipw_more by (rewrite ?firstn_length, ?skipn_length; lia).
    rewrite (msm_had OK) by (rewrite ?firstn_length, ?skipn_length; lia).
    rewrite zipw_firstn. reflexivity. }
  assert (M2 : msm R (zipw fmul (firstn n b) (skipn n fs)) (skipn n H) =
               msm R (firstn n b) (skipn n (zipw (smul R) fs H))).
  { rewrite <- zipw_skipn. rewrite <- (firstn_skipn n (skipn n fs)).
    rewrite zipw_more by (rewrite ?firstn_length, ?skipn_length; lia).
    rewrite (msm_had OK) by (rewrite ?firstn_length, ?skipn_length; lia).
    f_equal. rewrite <- (app_nil_r (skipn n H)) at 2.
    rewrite zipw_app by (rewrite ?firstn_length, ?skipn_length; lia).
    destruct (skipn n (skipn n fs)); cbn; rewrite app_nil_r; reflexivity. }
  rewrite M1, M2.
  rewrite hc_Append_concat. cbn [concat]. rewrite app_nil_r. unfold hc_Derive.
  rewrite fold_first_ok by assumption. cbn [bind next_state].
  assert (T1 : zipw (smul R) fs (firstn n H) = firstn n (zipw (smul R) fs H)).
  { rewrite <- zipw_firstn. rewrite <- (firstn_skipn n fs) at 1.
    rewrite <- (app_nil_r (firstn n H)) at 1. rewrite zipw_app by (rewrite ?firstn_length, ?skipn_length; lia).
    destruct (skipn n fs); cbn; rewrite app_nil_r; reflexivity. }
  rewrite T1, zipw_skipn. reflexivity.
Qed.

Lemma next_state_len n Q st : st_len (n + n) st -> st_len n (next_state n Q st).
Proof.
  intros [H1 [H2 [H3 H4]]]. destruct st as [a b G H hs Ls Rs]. cbn [g_a g_b g_G g_H] in *.
  unfold st_len. cbn [next_state g_a g_b g_G g_H]. rewrite !vfold_length, !pfold_length, !firstn_length, !skipn_length. lia.
Qed.

(** one round preserves the statement *)
Lemma ipp_point_step n u a b G H Q : u <> f0 ->
  length a = n + n -> length b = n + n -> length G = n + n -> length H = n + n ->
  ipp_point R (vfold u (finv u) (firstn n a) (skipn n a)) (vfold (finv u) u (firstn n b) (skipn n b))
    (pfold (finv u) u (firstn n G) (skipn n G)) (pfold u (finv u) (firstn n H) (skipn n H)) Q =
  ipp_point R a b G H Q [+] (fmul u u [*] Lpt n a b G H Q [+] fmul (finv u) (finv u) [*] Rpt n a b G H Q).
Proof.
  intros Hu H1 H2 H3 H4.
  destruct (half_len a n H1) as [a1 a2]. destruct (half_len b n H2) as [b1 b2].
  destruct (half_len G n H3) as [G1 G2]. destruct (half_len H n H4) as [h1 h2].
  unfold ipp_point, vfold, pfold, Lpt, Rpt.
  rewrite (msm_firstn_skipn OK n a G), (msm_firstn_skipn OK n b H), (dot_firstn_skipn n a b) by lia.
  rewrite !(msm_vadd OK) by (rewrite !vscale_length; lia).
  rewrite !(msm_pvadd OK) by (unfold pscale; rewrite !map_length; lia).
  rewrite !dot_vadd_l by (rewrite !vscale_length; lia).
  rewrite !dot_vadd_r by (rewrite !vscale_length; lia).
  rewrite !(msm_vscale OK), !(msm_pscale OK), !dot_vscale_l, !dot_vscale_r.
  linf OK.
Qed.

Lemma svec_length us : length (svec us) = 2 ^ length us.
Proof. induction us as [|u us IH]; cbn [svec length]; [reflexivity|]. rewrite app_length, !vscale_length, IH. cbn. lia. Qed.

Lemma svec_fold u us n G : length G = n + n -> n = 2 ^ length us ->
  msm R (svec (u :: us)) G = msm R (svec us) (pfold (finv u) u (firstn n G) (skipn n G)).
Proof.
  intros HG Hn. destruct (half_len G n HG) as [G1 G2]. cbn [svec].
  rewrite <- (firstn_skipn n G) at 1. rewrite (msm_app OK) by (rewrite vscale_length, svec_length; lia).
  unfold pfold. rewrite (msm_pvadd OK) by (unfold pscale; rewrite !map_length; lia).
  rewrite !(msm_vscale OK), !(msm_pscale OK). reflexivity.
Qed.
Lemma svec_fold_inv u us n G : length G = n + n -> n = 2 ^ length us ->
  msm R (svec (map finv (u :: us))) G = msm R (svec (map finv us)) (pfold u (finv u) (firstn n G) (skipn n G)).
Proof.
  intros HG Hn. cbn [map]. rewrite (svec_fold (finv u) (map finv us) n) by (rewrite ?map_length; assumption).
  rewrite finv_finv. reflexivity.
Qed.

Lemma challenges_length hs Ls Rs : length Ls = length Rs -> length (challenges R hs Ls Rs) = length Ls.
Proof.
  revert hs Rs. induction Ls as [|l Ls IH]; intros hs [|r Rs] H; cbn in *; try discriminate; [reflexivity|].
  rewrite IH by lia. reflexivity.
Qed.

(** all rounds *)
Lemma rounds_ok : forall k fuel Q st, st_len (2 ^ k) st -> k <= fuel -> k < 32 ->
  exists st' Ls Rs A B, rounds R fuel (Z.of_nat (2 ^ k)) Q st = Ok st' /\
    g_L R st' = g_L R st ++ Ls /\ g_R R st' = g_R R st ++ Rs /\ length Ls = k /\ length Rs = k /\
    g_a R st' = [A] /\ g_b R st' = [B] /\
    (let us := challenges R (g_hs R st) Ls Rs in
     Forall (fun u => u <> f0) us ->
     ipp_point R (g_a R st) (g_b R st) (g_G R st) (g_H R st) Q [+] lr_sum R us Ls Rs =
     A [*] msm R (svec us) (g_G R st) [+] B [*] msm R (svec (map finv us)) (g_H R st) [+] fmul A B [*] Q).
Proof.
  induction k as [|k IH]; intros fuel Q st HL HF HK.
  - destruct HL as [H1 [H2 [H3 H4]]]. cbn in H1, H2, H3, H4.
    destruct st as [a b G H hs Ls Rs]. cbn [g_a g_b g_G g_H g_L g_R] in *.
    destruct a as [|A [|? ?]]; try discriminate. destruct b as [|B [|? ?]]; try discriminate.
    destruct G as [|g [|? ?]]; try discriminate. destruct H as [|h [|? ?]]; try discriminate.
    exists (mkG R [A] [B] [g] [h] hs Ls Rs), [], [], A, B. cbn [g_L g_R g_a g_b]. rewrite !app_nil_r.
    split; [destruct fuel; reflexivity|]. repeat (split; [reflexivity|]).
    cbn zeta. intros _. unfold ipp_point. cbn [challenges lr_sum svec map]. rewrite !msm_cons, !msm_nil_l, dot_cons, dot_nil_l.
    lin OK.
  - destruct fuel as [|fuel]; [lia|].
    assert (P2 : 2 ^ S k = 2 ^ k + 2 ^ k) by (cbn; lia). rewrite P2 in *.
    assert (PB : (Z.of_nat (2 ^ k + 2 ^ k) < 2 ^ 32)%Z).
    { rewrite <- P2. change (2 ^ 32)%Z with (Z.of_nat 2 ^ Z.of_nat 32)%Z. rewrite Nat2Z.inj_pow. apply Z.pow_lt_mono_r; lia. }
    assert (PP : 0 < 2 ^ k) by (apply Nat.neq_0_lt_0; apply Nat.pow_nonzero; lia).
    cbn [rounds]. destruct (Z.ltb_spec 1 (Z.of_nat (2 ^ k + 2 ^ k))) as [C|C]; [|lia].
    replace (Z.of_nat (2 ^ k + 2 ^ k) / 2)%Z with (Z.of_nat (2 ^ k)) by (rewrite Nat2Z.inj_add, Z.add_diag, Z.mul_comm, Z.div_mul by lia; reflexivity).
    rewrite (round_next_ok _ Q st HL PP PB). cbn [bind].
    pose proof (next_state_len (2 ^ k) Q st HL) as HL'.
    destruct (IH fuel Q (next_state (2 ^ k) Q st) HL') as [st' [Ls [Rs [A [B [E [E1 [E2 [E3 [E4 [E5 [E6 E7]]]]]]]]]]]]; [lia|lia|].
    destruct HL as [H1 [H2 [H3 H4]]]. destruct st as [a b G H hs Ls0 Rs0]. cbn [g_a g_b g_G g_H g_L g_R g_hs next_state] in *.
    set (L := Lpt (2 ^ k) a b G H Q) in *. set (Rp := Rpt (2 ^ k) a b G H Q) in *.
    exists st', (L :: Ls), (Rp :: Rs), A, B.
    split; [exact E|]. split; [rewrite E1, <- app_assoc; reflexivity|]. split; [rewrite E2, <- app_assoc; reflexivity|].
    split; [cbn; lia|]. split; [cbn; lia|]. split; [exact E5|]. split; [exact E6|].
    cbn zeta. cbn [challenges]. set (u := sderive R (hs ++ pbytes R L ++ pbytes R Rp)) in *.
    set (us := challenges R (hs ++ pbytes R L ++ pbytes R Rp) Ls Rs) in *.
    assert (UL : length us = k) by (unfold us; rewrite challenges_length; lia).
    intros HU. inversion HU as [|? ? U1 U2]; subst.
    specialize (E7 U2). cbn [lr_sum].
    rewrite (svec_fold u us (2 ^ length us)) by (rewrite ?UL; auto).
    rewrite (svec_fold_inv u us (2 ^ length us)) by (rewrite ?UL; auto).
    rewrite UL, <- E7. rewrite (ipp_point_step (2 ^ length Ls) u a b G H Q U1) by assumption.
    fold L Rp. lin OK.
Qed.
End Fold.
