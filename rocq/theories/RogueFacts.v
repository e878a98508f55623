(** Facts about rogue keys *)
From Coq Require Import String ZArith List Lia Bool Arith Znumtheory.
From Verif Require Import GoModel Bn BlsModel SpecBls BlsFacts BlsOps BlsProps SpecRogue.
Import ListNotations.
Local Open Scope Z_scope.

Lemma zdot_add a b x : length a = length b -> zdot (zadd a b) x = zdot a x + zdot b x.
Proof.
  revert b x. induction a as [|u a IH]; intros [|v b] x E; try discriminate; [reflexivity|]. destruct x as [|y x]; [reflexivity|]. cbn [zadd zdot].
  rewrite IH by (injection E as E; exact E). ring.
Qed.
Lemma zdot_scale k a x : zdot (map (Z.mul k) a) x = k * zdot a x.
Proof. revert x. induction a as [|u a IH]; intros [|y x]; cbn [map zdot]; try ring. rewrite IH. ring. Qed.
Lemma zadd_length a b : length a = length b -> length (zadd a b) = length a.
Proof. revert b. induction a as [|u a IH]; intros [|v b] E; try discriminate; [reflexivity|]. cbn. f_equal. apply IH. injection E as E. exact E. Qed.
Lemma zdot_zero q a x : Forall (Z.divide q) a -> (q | zdot a x).
Proof.
  intros F. revert x. induction F as [|u a D F IH]; intros [|y x]; cbn; try apply Z.divide_0_r. apply Z.divide_add_r; [apply Z.divide_mul_l, D|apply IH].
Qed.

Section Rogue.
Context {B : bn} (OK : bn_ok B).
Local Notation G2 a := (mul2 B a (gen2 B)).
Local Notation q := (ord B).

Lemma lin2_exp us xs : lin2 us (map (fun x => G2 x) xs) = G2 (zdot us xs).
Proof.
  unfold lin2. revert xs. induction us as [|u us IH]; intros [|x xs]; try reflexivity. cbn [map combine fst snd sum2 fold_right zdot].
  unfold sum2 in IH. rewrite IH, (mul2_gen B OK), (add2_gen B OK). reflexivity.
Qed.
Lemma exponents Ps : exists xs, Ps = map (fun x => G2 x) xs.
Proof.
  induction Ps as [|P Ps [xs ->]]; [exists []; reflexivity|]. destruct (cyc2 B OK P) as [x ->]. exists (x :: xs). reflexivity.
Qed.
Lemma made_exp xs r : made_key (map (fun x => G2 x) xs) r = G2 (fst r + zdot (snd r) xs).
Proof. unfold made_key. rewrite lin2_exp. apply (add2_gen B OK). Qed.
Lemma sum2_app l l' : sum2 (B := B) (l ++ l') = add2 B (sum2 l) (sum2 l').
Proof.
  assert (X : forall k, exists a, sum2 (B := B) k = G2 a) by (intros k; destruct (cyc2 B OK (sum2 k)) as [a E]; exists a; exact E).
  induction l as [|P l IH]; cbn [app].
  - destruct (X l') as [a E]. rewrite E. unfold sum2. cbn [fold_right]. rewrite (add2_gen B OK). reflexivity.
  - unfold sum2 in *. cbn [fold_right]. rewrite IH. apply (add2_assoc OK).
Qed.
Lemma apk_app l l' : apk_of (B := B) (l ++ l') = add2 B (apk_of l) (apk_of l').
Proof. unfold apk_of. rewrite map_app. apply sum2_app. Qed.
Lemma apk_plain xs : apk_of (map (fun x => G2 x) xs) = G2 (zdot (map (fun x => ht (G2 x)) xs) xs).
Proof.
  unfold apk_of. induction xs as [|x xs IH]; [reflexivity|]. cbn [map sum2 fold_right zdot]. unfold sum2 in IH. rewrite IH, (mul2_gen B OK), (add2_gen B OK). reflexivity.
Qed.
Lemma factors_length Ps rs : Forall (fun r => length (snd r) = length Ps) rs -> length (factors (B := B) Ps rs) = length Ps.
Proof.
  induction 1 as [|r rs E F IH]; cbn [factors]; [apply map_length|]. rewrite zadd_length; rewrite map_length; [exact E|]. rewrite IH. exact E.
Qed.
Lemma apk_made xs rs : let Ps := map (fun x => G2 x) xs in Forall (fun r => length (snd r) = length Ps) rs ->
  apk_of (Ps ++ map (made_key Ps) rs) = G2 (zdot (factors Ps rs) xs + known Ps rs).
Proof.
  intros Ps F. rewrite apk_app. unfold Ps at 1. rewrite apk_plain.
  assert (E : apk_of (map (made_key Ps) rs) = G2 (zdot (factors Ps rs) xs - zdot (map (fun x => ht (G2 x)) xs) xs + known Ps rs)).
  { induction F as [|r rs E F IH].
    - cbn [map factors known fold_right]. unfold Ps. rewrite map_map. unfold apk_of. cbn [map sum2 fold_right]. f_equal. ring.
    - cbn [map factors known fold_right]. change (made_key Ps r :: map (made_key Ps) rs) with ([made_key Ps r] ++ map (made_key Ps) rs). rewrite apk_app, IH.
      rewrite zdot_add by (rewrite map_length, factors_length by exact F; exact E). rewrite zdot_scale.
      unfold apk_of. cbn [map sum2 fold_right]. unfold Ps at 2. rewrite made_exp. fold Ps. rewrite (mul2_gen B OK), !(add2_gen B OK). f_equal. unfold known. ring. }
  rewrite E, (add2_gen B OK). f_equal. ring.
Qed.
(** the aggregate in terms of the keys *)
Lemma apk_factors Ps rs : Forall (fun r => length (snd r) = length Ps) rs ->
  apk_of (Ps ++ map (made_key Ps) rs) = add2 B (lin2 (factors Ps rs) Ps) (G2 (known Ps rs)).
Proof.
  intros F. destruct (exponents Ps) as [xs ->]. rewrite (apk_made xs rs F), lin2_exp, (add2_gen B OK). reflexivity.
Qed.
Lemma apk_rogue Ps rs : Forall (fun r => length (snd r) = length Ps) rs -> Forall (Z.divide q) (factors Ps rs) ->
  apk_of (Ps ++ map (made_key Ps) rs) = G2 (known Ps rs).
Proof.
  intros F D. destruct (exponents Ps) as [xs ->]. rewrite (apk_made xs rs F). apply (mul2_eq B OK).
  replace (_ - _) with (zdot (factors (map (fun x => G2 x) xs) rs) xs) by ring. apply zdot_zero. exact D.
Qed.
(** a signature of the known part through the API *)
Lemma rogue_accepted m pks P Ps rs msg : Forall2 (pk_is m) pks ((P :: Ps) ++ map (made_key (P :: Ps)) rs) ->
  Forall (fun r => length (snd r) = length (P :: Ps)) rs -> Forall (Z.divide q) (factors (P :: Ps) rs) ->
  exists m', (do apk <- AggregateApk B pks; do u <- UnsafeSign B (known (P :: Ps) rs) msg; do b <- usig_Marshal B u; do s <- UnmarshalSignature B b;
    Verify B apk msg s) m = (Ok tt, m') /\ ext m m'.
Proof.
  intros FP F D. pose proof (apk_rogue _ _ F D) as A. cbn [app] in FP, A. inversion FP as [|pk P' pks' Ps' H1 H2]; subst.
  destruct (AggregateApk_ok OK m pk pks' _ _ H1 H2) as [apk [ma [Ea [Xa Ia]]]]. rewrite (mbind_ok _ _ _ _ _ Ea). rewrite A in Ia.
  destruct (UnsafeSign_ok ma (known (P :: Ps) rs) msg) as [u [mb [Eb [Xb Ub]]]]. rewrite (mbind_ok _ _ _ _ _ Eb).
  rewrite (mbind_ok _ _ _ _ _ (usig_Marshal_ok mb u _ Ub)).
  destruct (UnmarshalSignature_ok mb (marshal1 B (usig_of (known (P :: Ps) rs) msg)) (usig_of (known (P :: Ps) rs) msg)) as [s [mc [Ec [Xc Sc]]]].
  { rewrite <- (app_nil_r (marshal1 B _)). apply (sig_dec_marshal OK). }
  rewrite (mbind_ok _ _ _ _ _ Ec). exists mc. split.
  - apply (proj2 (Verify_ok_iff OK mc apk _ msg s _ (apk_is_ext _ _ _ _ Xc (apk_is_ext _ _ _ _ Xb Ia)) Sc)), (usig_valid OK).
  - eapply ext_trans; [exact Xa|]. eapply ext_trans; [exact Xb|exact Xc].
Qed.
(** and only with a relation between the keys of the others *)
Lemma accepted_relation Ps rs m apk msg s y : Forall (fun r => length (snd r) = length Ps) rs -> ~ (q | hm (B := B) msg) ->
  apk_is m apk (apk_of (Ps ++ map (made_key Ps) rs)) -> sig_is m s (usig_of y msg) ->
  (Verify B apk msg s m = (Ok tt, m) <-> lin2 (factors Ps rs) Ps = G2 (y - known Ps rs)).
Proof.
  intros F N IA IS. rewrite (Verify_ok_iff OK m apk _ msg s _ IA IS). destruct (exponents Ps) as [xs ->]. rewrite (apk_made xs rs F), lin2_exp.
  unfold usig_of. rewrite (mul1_gen B OK), (valid_exp OK), (mul2_eq B OK).
  set (Ps := map (fun x => G2 x) xs) in *.
  replace (hm msg * (zdot (factors Ps rs) xs + known Ps rs) - y * hm msg) with (hm (B := B) msg * (zdot (factors Ps rs) xs - (y - known Ps rs))) by ring.
  split; intros D.
  - apply prime_mult in D; [|apply (ord_prime B OK)]. destruct D as [D|D]; [contradiction|exact D].
  - apply Z.divide_mul_r. exact D.
Qed.
(** for a single key: its private key *)
Lemma single_key P k y f : (q | k * f - 1) -> lin2 [f] [P] = G2 y -> P = G2 (k * y).
Proof.
  intros D. destruct (exponents [P]) as [xs E]. destruct xs as [|x [|]]; try discriminate. injection E as ->.
  change [G2 x] with (map (fun x => G2 x) [x]). rewrite lin2_exp. cbn [zdot]. rewrite !(mul2_eq B OK). intros E.
  replace (x - k * y) with (k * (f * x + 0 - y) - (k * f - 1) * x) by ring. apply Z.divide_sub_r; [apply Z.divide_mul_r, E|apply Z.divide_mul_l, D].
Qed.
End Rogue.
