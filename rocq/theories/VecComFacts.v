(** What a Pedersen vector commitment binds *)
From Coq Require Import String ZArith List Arith Lia Bool.
From Coq Require Import Init.Byte.
From Verif Require Import GoModel GoFacts Fld Rist RistFacts SpecVector VectorFacts PedersenModel SpecPedersen PedersenFacts PedersenProps SpecVecCom.
Import ListNotations.
Local Open Scope nat_scope.

Lemma map_nth_seq (v : list F) m : length v <= m -> map (fun i => nth i v f0) (seq 0 m) = v ++ repeat f0 (m - length v).
Proof.
  intros L. apply nth_ext with (d := f0) (d' := f0).
  - rewrite map_length, seq_length, app_length, repeat_length. lia.
  - intros i Hi. rewrite map_length, seq_length in Hi.
    rewrite (nth_indep _ f0 (nth 0 v f0)) by (rewrite map_length, seq_length; exact Hi).
    rewrite (map_nth (fun i => nth i v f0) (seq 0 m) 0 i), seq_nth by exact Hi. cbn [Nat.add].
    destruct (Nat.lt_ge_cases i (length v)) as [C|C]; [symmetry; apply app_nth1; exact C|].
    rewrite app_nth2, nth_repeat, nth_overflow by exact C. reflexivity.
Qed.
Lemma coeff_cons v vs j i : coeff (v :: vs) (S j) i = coeff vs j i.
Proof. reflexivity. Qed.

Section Facts.
Context {R : rist} (OK : rist_ok R).
Local Notation "p [+] q" := (padd R p q) (at level 50, left associativity).
Local Notation "s [*] p" := (smul R s p) (at level 40, left associativity).

Lemma msm_zero_l n : forall P, msm R (repeat f0 n) P = pt0 R.
Proof.
  induction n as [|n IH]; intros [|p P]; try reflexivity. cbn [repeat]. rewrite msm_cons, IH, (smul_0_l OK). apply (padd_0_r OK).
Qed.
Lemma msm_map_sub {A} (f g : A -> F) l : forall P, msm R (map (fun x => fsub (f x) (g x)) l) P [+] msm R (map g l) P = msm R (map f l) P.
Proof.
  induction l as [|x l IH]; intros [|p P]; cbn [map]; rewrite ?msm_nil_l, ?msm_nil_r; try apply (padd_0_r OK).
  rewrite !msm_cons, <- IH. replace (f x) with (fadd (fsub (f x) (g x)) (g x)) at 2 by ring. lin OK.
Qed.
Lemma vec_term_pad seed v m : length v <= m -> vec_term R seed v = msm R (map (fun i => nth i v f0) (seq 0 m)) (chain R seed m).
Proof.
  intros L. rewrite (map_nth_seq v m L). unfold vec_term. replace m with (length v + (m - length v)) at 2 by lia.
  rewrite chain_app, (msm_app OK) by (rewrite chain_length; reflexivity). rewrite msm_zero_l. symmetry. apply (padd_0_r OK).
Qed.
Lemma vec_terms_pad data m n : forall s vs, length vs <= n -> Forall (fun v => length v <= m) vs ->
  vec_terms R low_byte data s vs =
  msm R (map (fun q => coeff vs (fst q - s) (snd q)) (list_prod (seq s n) (seq 0 m)))
    (concat (map (fun j => chain R (data ++ [low_byte j]) m) (seq s n))).
Proof.
  induction n as [|n IH]; intros s vs L A.
  - destruct vs; [reflexivity|cbn [length] in L; lia].
  - cbn [seq list_prod map concat]. rewrite map_app, (msm_app OK) by (rewrite !map_length, seq_length, chain_length; reflexivity).
    rewrite map_map. cbn [fst snd]. rewrite Nat.sub_diag.
    assert (T : forall v vs', coeff vs 0 = (fun i => nth i v f0) -> (forall j i, coeff vs (S j) i = coeff vs' j i) ->
      map (fun q => coeff vs (fst q - s) (snd q)) (list_prod (seq (S s) n) (seq 0 m)) =
      map (fun q => coeff vs' (fst q - S s) (snd q)) (list_prod (seq (S s) n) (seq 0 m))).
    { intros v vs' _ E. apply map_ext_in. intros [j i] Hq. apply in_prod_iff in Hq. destruct Hq as [Hj _]. apply in_seq in Hj. cbn [fst snd].
      replace (j - s) with (S (j - S s)) by lia. apply E. }
    destruct vs as [|v vs].
    + rewrite (T [] []); [|reflexivity|intros [|j] [|i]; reflexivity]. rewrite <- IH by (cbn [length]; lia || constructor). cbn [vec_terms].
      change (fun x => coeff [] 0 x) with (fun i => nth i (@nil F) f0). rewrite map_nth_seq by apply Nat.le_0_l. cbn [app].
      rewrite msm_zero_l. symmetry. apply (padd_0_r OK).
    + inversion A; subst. rewrite (T v vs); [|reflexivity|reflexivity]. rewrite <- IH by (cbn [length] in L; lia || assumption). cbn [vec_terms].
      f_equal. apply vec_term_pad. assumption.
Qed.
Lemma vec_commit_pad data r vs k m : vs <> [] -> length vs <= k -> Forall (fun v => length v <= m) vs ->
  vec_commit R low_byte data r vs = r [*] pbase R [+] msm R (grid k m (coeff vs)) (gens_of R data k m).
Proof.
  intros N L A. destruct vs as [|v vs]; [congruence|]. inversion A as [|? ? A1 A2]; subst. destruct k as [|k]; [cbn [length] in L; lia|].
  unfold vec_commit, grid, gens_of. cbn [seq list_prod map concat]. rewrite map_app, (msm_app OK) by (rewrite !map_length, seq_length, chain_length; reflexivity).
  rewrite map_map. cbn [fst snd seed_of]. rewrite (vec_term_pad data v m A1), (vec_terms_pad data m k 1 vs) by (cbn [length] in L; lia || assumption).
  rewrite <- (padd_assoc R OK). f_equal. f_equal. f_equal.
  - apply map_ext_in. intros [j i] Hq. apply in_prod_iff in Hq. destruct Hq as [Hj _]. apply in_seq in Hj. cbn [fst snd].
    replace j with (S (j - 1)) at 2 by lia. reflexivity.
  - f_equal. apply map_ext_in. intros j Hj. apply in_seq in Hj. destruct j; [lia|reflexivity].
Qed.
Lemma gens_of_length data k m : length (gens_of R data k m) = k * m.
Proof.
  unfold gens_of. generalize 0. induction k as [|k IH]; intros s; [reflexivity|]. cbn [seq map concat]. rewrite app_length, chain_length, IH. lia.
Qed.
Lemma grid_length {A} k m (f : nat -> nat -> A) : length (grid k m f) = k * m.
Proof. unfold grid. rewrite map_length, prod_length, !seq_length. reflexivity. Qed.
Lemma coeff_out vs k m j i : length vs <= k -> Forall (fun v => length v <= m) vs -> ~ (j < k /\ i < m) -> coeff vs j i = f0.
Proof.
  intros L A N. unfold coeff. destruct (Nat.lt_ge_cases j (length vs)) as [C|C].
  - rewrite Forall_forall in A. specialize (A (nth j vs []) (nth_In _ _ C)). apply nth_overflow. lia.
  - rewrite (nth_overflow vs) by exact C. destruct i; reflexivity.
Qed.
Lemma vec_commit_relation data b b' vs vs' k m : vs <> [] -> vs' <> [] ->
  length vs <= k -> Forall (fun v => length v <= m) vs -> length vs' <= k -> Forall (fun v => length v <= m) vs' ->
  vec_commit R low_byte data b vs = vec_commit R low_byte data b' vs' ->
  msm R (fsub b b' :: grid k m (fun j i => fsub (coeff vs j i) (coeff vs' j i))) (pbase R :: gens_of R data k m) = pt0 R.
Proof.
  intros N N' L A L' A' E. rewrite (vec_commit_pad data b vs k m), (vec_commit_pad data b' vs' k m) in E by assumption.
  unfold grid in *. pose proof (msm_map_sub (fun q => coeff vs (fst q) (snd q)) (fun q => coeff vs' (fst q) (snd q)) (list_prod (seq 0 k) (seq 0 m)) (gens_of R data k m)) as S.
  rewrite <- S in E. rewrite msm_cons. set (D := msm R (map (fun x => fsub _ _) _) _) in *. set (V := msm R (map (fun q => coeff vs' (fst q) (snd q)) _) _) in *.
  pose proof (f_equal (fun x => padd R x (smul R (fneg f1) (padd R (smul R b' (pbase R)) V))) E) as E'. cbn beta in E'.
  transitivity (b' [*] pbase R [+] V [+] fneg f1 [*] (b' [*] pbase R [+] V)); [rewrite <- E'|]; lin OK.
Qed.
Lemma grid_zero vs vs' k m : length vs <= k -> Forall (fun v => length v <= m) vs -> length vs' <= k -> Forall (fun v => length v <= m) vs' ->
  Forall (fun x => x = f0) (grid k m (fun j i => fsub (coeff vs j i) (coeff vs' j i))) -> forall j i, coeff vs j i = coeff vs' j i.
Proof.
  intros L A L' A' Z j i. destruct (Nat.lt_ge_cases j k) as [J|J]; [destruct (Nat.lt_ge_cases i m) as [I|I]|].
  - rewrite Forall_forall in Z. assert (D : fsub (coeff vs j i) (coeff vs' j i) = f0).
    { apply Z. unfold grid. apply in_map_iff. exists (j, i). split; [reflexivity|]. apply in_prod; apply in_seq; lia. }
    transitivity (fadd (fsub (coeff vs j i) (coeff vs' j i)) (coeff vs' j i)); [ring|]. rewrite D. ring.
  - rewrite !(coeff_out _ k m) by (assumption || lia). reflexivity.
  - rewrite !(coeff_out _ k m) by (assumption || lia). reflexivity.
Qed.
Lemma vec_commit_same data b vs vs' : vs <> [] -> vs' <> [] -> (forall j i, coeff vs j i = coeff vs' j i) ->
  vec_commit R low_byte data b vs = vec_commit R low_byte data b vs'.
Proof.
  intros N N' E.
  assert (B : forall (l : list (list F)), Forall (fun v => length v <= list_max (map (@length F) l)) l).
  { intros l. apply Forall_forall. intros v Hv. assert (H := proj1 (list_max_le (map (@length F) l) _) (le_n _)). rewrite Forall_forall in H. apply H, in_map, Hv. }
  set (k := Nat.max (length vs) (length vs')). set (m := Nat.max (list_max (map (@length F) vs)) (list_max (map (@length F) vs'))).
  rewrite (vec_commit_pad data b vs k m), (vec_commit_pad data b vs' k m); try assumption; try (unfold k; lia).
  - f_equal. f_equal. unfold grid. apply map_ext. intros q. apply E.
  - eapply Forall_impl; [|apply B]. cbn beta. unfold m. intros v Hv. lia.
  - eapply Forall_impl; [|apply B]. cbn beta. unfold m. intros v Hv. lia.
Qed.
End Facts.
