(** Facts about MlsagModel.v: loops, challenges, verification *)
From Coq Require Import String ZArith List Lia Bool Arith Permutation Field.
From Coq Require Import Init.Byte.
From Verif Require Import GoModel GoFacts ReadModel ReadFacts Fld Rist RistFacts SpecVector VectorFacts SpecMlsag MlsagModel.
Import ListNotations.
Local Open Scope nat_scope.

(** ** Loops *)
Lemma app_loop {A} (g : nat -> res (list A)) (h : nat -> list A) n : forall lo st,
  (forall i, lo <= i < lo + n -> g i = Ok (h i)) ->
  for_loop lo n (fun i buf => let! x := g i in Ok (buf ++ x)) st = Ok (st ++ concat (map h (seq lo n))).
Proof.
  induction n as [|n IH]; intros lo st H; cbn [for_loop seq map concat].
  - rewrite app_nil_r. reflexivity.
  - rewrite (H lo) by lia. cbn [bind]. rewrite IH by (intros i Hi; apply H; lia). rewrite app_assoc. reflexivity.
Qed.
Lemma app_loop_panic {A} (g : nat -> res (list A)) n : forall lo st,
  (forall i, exists x, g i = Ok x \/ g i = Panic) -> (exists i, lo <= i < lo + n /\ g i = Panic) ->
  for_loop lo n (fun i buf => let! x := g i in Ok (buf ++ x)) st = Panic.
Proof.
  induction n as [|n IH]; intros lo st H [i [Hi E]]; [lia|]. cbn [for_loop].
  destruct (H lo) as [x [E'|E']]; rewrite E'; cbn [bind]; [|reflexivity].
  apply IH; [exact H|]. exists i. split; [|exact E]. destruct (Nat.eq_dec i lo) as [->|]; [congruence|lia].
Qed.
Lemma zipw_seq_le {A B C} (f : A -> B -> C) a b da db : length b <= length a ->
  map (fun i => f (nth i a da) (nth i b db)) (seq 0 (length b)) = zipw f a b.
Proof.
  revert b. induction a as [|x a IH]; intros [|y b] L; cbn in *; try lia; try reflexivity.
  f_equal. rewrite <- IH by lia. rewrite <- seq_shift, map_map. reflexivity.
Qed.
Lemma zipw_nil_r {A B C} (f : A -> B -> C) a : zipw f a [] = [].
Proof. destruct a; reflexivity. Qed.

Lemma combine_nth_error {A B} (a : list A) (b : list B) i x y :
  nth_error a i = Some x -> nth_error b i = Some y -> nth_error (combine a b) i = Some (x, y).
Proof.
  revert a b. induction i as [|i IH]; intros [|a0 a] [|b0 b] E1 E2; cbn in *; try discriminate; [congruence|]. apply IH; assumption.
Qed.

Fixpoint run_list {A S} (body : A -> S -> res S) (l : list A) (st : S) : res S :=
  match l with
  | [] => Ok st
  | a :: l => let! st := body a st in run_list body l st
  end.
Lemma run_list_app {A S} (body : A -> S -> res S) a b st :
  run_list body (a ++ b) st = (let! st := run_list body a st in run_list body b st).
Proof.
  revert st. induction a as [|x a IH]; intros st; [reflexivity|]. cbn [app run_list].
  destruct (body x st); cbn [bind]; auto.
Qed.
Lemma run_list_ext {A B S} (f : A -> S -> res S) (g : B -> S -> res S) la lb :
  Forall2 (fun a b => forall s, f a s = g b s) la lb -> forall st, run_list f la st = run_list g lb st.
Proof.
  induction 1 as [|a b la lb E _ IH]; intros st; [reflexivity|]. cbn [run_list]. rewrite E. destruct (g b st); cbn [bind]; auto.
Qed.
Lemma run_list_fold {A S} (body : A -> S -> res S) (f : S -> A -> S) l : Forall (fun a => forall s, body a s = Ok (f s a)) l ->
  forall st, run_list body l st = Ok (fold_left f l st).
Proof. induction 1 as [|a l E _ IH]; intros st; [reflexivity|]. cbn. rewrite E. cbn. apply IH. Qed.
Lemma run_list_panic {A S} (body : A -> S -> res S) l : (forall a s, (exists s', body a s = Ok s') \/ body a s = Panic) ->
  Exists (fun a => forall s, body a s = Panic) l -> forall st, run_list body l st = Panic.
Proof.
  intros H. induction 1 as [a l E|a l _ IH]; intros st; cbn [run_list].
  - rewrite E. reflexivity.
  - destruct (H a st) as [[s' E]|E]; rewrite E; cbn [bind]; auto.
Qed.

(** the loop leaves through its condition *)
Lemma ring_loop_from {S} n stop (body : nat -> S -> res S) cnt : 0 < n -> forall k fuel st, k < n ->
  (forall t, t < cnt -> (k + t) mod n <> stop) -> (k + cnt) mod n = stop -> cnt < fuel ->
  ring_loop fuel k stop n body st = run_list body (map (fun t => (k + t) mod n) (seq 0 cnt)) st.
Proof.
  intros Hn. induction cnt as [|cnt IH]; intros k fuel st Hk H1 H2 HF; (destruct fuel as [|fuel]; [lia|]); cbn [ring_loop].
  - rewrite Nat.add_0_r, Nat.mod_small in H2 by lia. subst stop. rewrite Nat.eqb_refl. reflexivity.
  - pose proof (H1 0 ltac:(lia)) as H0. rewrite Nat.add_0_r, Nat.mod_small in H0 by lia.
    destruct (Nat.eqb_spec k stop) as [C|_]; [contradiction|]. cbn [seq map run_list].
    rewrite Nat.add_0_r, (Nat.mod_small k n) by lia. destruct (body k st) as [s'|e|]; cbn [bind]; [|reflexivity|reflexivity].
    rewrite IH; [|apply Nat.mod_upper_bound; lia| | |lia].
    + f_equal. rewrite <- seq_shift, map_map. apply map_ext. intros t. rewrite Nat.add_mod_idemp_l by lia. f_equal. lia.
    + intros t Ht. rewrite Nat.add_mod_idemp_l by lia. replace (k + 1 + t) with (k + Datatypes.S t) by lia. apply H1. lia.
    + rewrite Nat.add_mod_idemp_l by lia. rewrite <- H2. f_equal. lia.
Qed.

Lemma prev_index_succ a n : 0 < n -> prev_index ((a + 1) mod n) n = a mod n.
Proof.
  intros Hn. unfold prev_index. pose proof (Nat.mod_upper_bound a n ltac:(lia)) as B.
  replace ((a + 1) mod n) with ((a mod n + 1) mod n) by (rewrite Nat.add_mod_idemp_l by lia; reflexivity).
  destruct (Nat.eq_dec (a mod n + 1) n) as [E|E].
  - rewrite E, Nat.mod_same by lia. destruct (Nat.eq_dec n 1) as [->|N].
    + cbn. lia.
    + replace (Z.of_nat 0 - 1)%Z with (-1)%Z by lia. change (-1)%Z with (- (1))%Z. rewrite Z.rem_opp_l by lia.
      rewrite Z.rem_small by lia. destruct (Z.ltb_spec (- (1)) 0); lia.
  - rewrite (Nat.mod_small (a mod n + 1)) by lia.
    replace (Z.of_nat (a mod n + 1) - 1)%Z with (Z.of_nat (a mod n)) by lia.
    rewrite Z.rem_small by lia. destruct (Z.ltb_spec (Z.of_nat (a mod n)) 0); lia.
Qed.

Section Facts.
Context {R : rist} (OK : rist_ok R).
Local Notation "p [+] q" := (padd R p q) (at level 50, left associativity).
Local Notation "s [*] p" := (smul R s p) (at level 40, left associativity).

(** ** The challenge of a row *)
Lemma generateChallenge_ok msg r I k c : length I <= length (pk_keys R k) <= length r ->
  generateChallenge R msg r I k c = Ok (ring_chal R msg I (pk_keys R k) r c).
Proof.
  intros [H1 H2]. unfold generateChallenge, pk_Len. set (K := pk_keys R k) in *.
  set (f := fun i => pbytes R (nth i r f0 [*] pbase R [+] c [*] nth i K (pt0 R))).
  rewrite (for_loop_ext _ (fun i buf => let! x := (let! r := idx r i in let! K := idx K i in Ok (pbytes R (r [*] pbase R [+] c [*] K))) in Ok (buf ++ x))).
  2:{ intros i s. destruct (idx r i); cbn [bind]; try reflexivity. destruct (idx K i); reflexivity. }
  rewrite (app_loop _ f).
  2:{ intros i Hi. rewrite (idx_nth r i f0) by lia. cbn [bind]. rewrite (idx_nth K i (pt0 R)) by lia. reflexivity. }
  cbn [bind].
  set (g := fun i => pbytes R (nth i r f0 [*] pderive R (pbytes R (nth i K (pt0 R))) [+] c [*] nth i I (pt0 R))).
  rewrite (for_loop_ext _ (fun i buf => let! x := (let! r := idx r i in let! K := idx K i in let! KI := idx I i in
    Ok (pbytes R (r [*] pderive R (pbytes R K) [+] c [*] KI))) in Ok (buf ++ x))).
  2:{ intros i s. destruct (idx r i); cbn [bind]; try reflexivity. destruct (idx K i); cbn [bind]; try reflexivity. destruct (idx I i); reflexivity. }
  rewrite (app_loop _ g).
  2:{ intros i Hi. rewrite (idx_nth r i f0) by lia. cbn [bind]. rewrite (idx_nth K i (pt0 R)) by lia. cbn [bind].
      rewrite (idx_nth I i (pt0 R)) by lia. reflexivity. }
  cbn [bind]. f_equal. unfold ring_chal, row_points. f_equal. rewrite <- app_assoc. f_equal.
  rewrite map_app, concat_app. f_equal.
  - f_equal. rewrite <- (zipw_seq_le _ r K f0 (pt0 R)) by lia. rewrite map_map. reflexivity.
  - f_equal. rewrite <- (zipw_seq_le _ r (combine K I) f0 (pt0 R, pt0 R)) by (rewrite combine_length; lia).
    rewrite map_map, combine_length, Nat.min_r by lia. apply map_ext_in. intros i Hi. apply in_seq in Hi. unfold g.
    assert (E : nth_error (combine K I) i = Some (nth i K (pt0 R), nth i I (pt0 R))).
    { apply combine_nth_error; apply nth_error_nth'; lia. }
    rewrite (nth_error_nth _ _ _ E). reflexivity.
Qed.
Lemma generateChallenge_panic msg r I k c : ~ (length I <= length (pk_keys R k) <= length r) ->
  generateChallenge R msg r I k c = Panic.
Proof.
  intros H. unfold generateChallenge, pk_Len. set (K := pk_keys R k) in *.
  assert (X : forall (A : Type) (l : list A) i, (exists x, idx l i = Ok x) \/ idx l i = Panic).
  { intros A l i. unfold idx. destruct (nth_error l i); [left; eexists; reflexivity|right; reflexivity]. }
  rewrite (for_loop_ext _ (fun i buf => let! x := (let! r := idx r i in let! K := idx K i in Ok (pbytes R (r [*] pbase R [+] c [*] K))) in Ok (buf ++ x))).
  2:{ intros i s. destruct (idx r i); cbn [bind]; try reflexivity. destruct (idx K i); reflexivity. }
  destruct (Nat.lt_ge_cases (length r) (length K)) as [C|C].
  - rewrite (@app_loop_panic Init.Byte.byte); [reflexivity| |].
    + intros i. destruct (X _ r i) as [[x ->]| ->]; cbn [bind]; [|exists []; right; reflexivity].
      destruct (X _ K i) as [[y ->]| ->]; cbn [bind]; [eexists; left; reflexivity|exists []; right; reflexivity].
    + exists (length r). split; [lia|]. rewrite (proj2 (idx_Panic r (length r))) by lia. reflexivity.
  - rewrite (app_loop _ (fun i => pbytes R (nth i r f0 [*] pbase R [+] c [*] nth i K (pt0 R)))).
    2:{ intros i Hi. rewrite (idx_nth r i f0) by lia. cbn [bind]. rewrite (idx_nth K i (pt0 R)) by lia. reflexivity. }
    cbn [bind].
    rewrite (for_loop_ext _ (fun i buf => let! x := (let! r := idx r i in let! K := idx K i in let! KI := idx I i in
      Ok (pbytes R (r [*] pderive R (pbytes R K) [+] c [*] KI))) in Ok (buf ++ x))).
    2:{ intros i s. destruct (idx r i); cbn [bind]; try reflexivity. destruct (idx K i); cbn [bind]; try reflexivity. destruct (idx I i); reflexivity. }
    rewrite (@app_loop_panic Init.Byte.byte); [reflexivity| |].
    + intros i. destruct (X _ r i) as [[x ->]| ->]; cbn [bind]; [|exists []; right; reflexivity].
      destruct (X _ K i) as [[y ->]| ->]; cbn [bind]; [|exists []; right; reflexivity].
      destruct (X _ I i) as [[z ->]| ->]; cbn [bind]; [eexists; left; reflexivity|exists []; right; reflexivity].
    + exists (length K). split; [lia|]. destruct (X _ r (length K)) as [[x ->]| ->]; cbn [bind]; [|reflexivity].
      rewrite (proj2 (idx_Panic K (length K))) by lia. reflexivity.
Qed.
Lemma row_dec (I : list (pt R)) k (r : list F) : {length I <= length (pk_keys R k) <= length r} + {~ (length I <= length (pk_keys R k) <= length r)}.
Proof. destruct (le_dec (length I) (length (pk_keys R k))), (le_dec (length (pk_keys R k)) (length r)); (left; lia) || (right; lia). Qed.

(** ** Verify *)
(** the rows of a signature *)
Definition sig_rows (s : sig R) : list (list (pt R) * list F) := combine (map (pk_keys R) (sg_pub R s)) (sg_r R s).
(** what Verify iterates: once through all rows, for a single row twice *)
Definition verify_rows (s : sig R) : list (list (pt R) * list F) :=
  if Nat.eqb (length (sg_r R s)) 1 then sig_rows s ++ sig_rows s else sig_rows s.

Definition vstep (s : sig R) (I : list (pt R)) (i : nat) (prev : F) : res F :=
  let! r := idx (sg_r R s) i in let! k := idx (sg_pub R s) i in generateChallenge R (sg_msg R s) r I k prev.
Definition vlist (n : nat) : list nat := if Nat.eqb n 1 then [0; 0] else seq 0 n.
Lemma Verify_list s I : sg_pub R s <> [] -> sg_r R s <> [] -> I <> [] ->
  sig_Verify R s I =
  (let! c := run_list (vstep s I) (vlist (length (sg_r R s))) (sg_c R s) in
   if negb (feqb c (sg_c R s)) then Err "c'0 does not equal c0"%string else Ok true).
Proof.
  intros H1 H2 H3. unfold sig_Verify.
  destruct (Nat.eqb_spec (length (sg_pub R s)) 0) as [C|_]; [destruct (sg_pub R s); [congruence|discriminate]|].
  destruct (Nat.eqb_spec (length (sg_r R s)) 0) as [C|N]; [destruct (sg_r R s); [congruence|discriminate]|].
  destruct (Nat.eqb_spec (length I) 0) as [C|_]; [destruct I; [congruence|discriminate]|]. cbn [orb].
  set (n := length (sg_r R s)) in *.
  assert (E : forall (X : Type) (f : F -> res X),
    (let! prev := ring_loop (n + 2) 1 (0 mod n) n (fun k prev => vstep s I (prev_index (k mod n) n) prev) (sg_c R s) in
     let! c := vstep s I (prev_index 0 n) prev in f c) = (let! c := run_list (vstep s I) (vlist n) (sg_c R s) in f c)).
  { intros X f. unfold vlist. rewrite Nat.mod_0_l by lia. destruct (Nat.eqb_spec n 1) as [E1|E1].
    - rewrite E1. change (1 + 2) with 3. cbn [ring_loop]. rewrite !Nat.mod_1_r. cbn [Nat.eqb run_list].
      change (prev_index 0 1) with 0.
      destruct (vstep s I 0 (sg_c R s)) as [c1|e|]; cbn [bind]; try reflexivity.
      destruct (vstep s I 0 c1) as [c2|e|]; cbn [bind]; reflexivity.
    - rewrite (ring_loop_from n 0 _ (n - 1)); [| lia | lia | | | lia].
      + assert (ES : seq 0 n = seq 0 (n - 1) ++ seq (0 + (n - 1)) 1) by (rewrite <- seq_app; f_equal; lia).
        rewrite ES, run_list_app. cbn [Nat.add seq run_list].
        replace (prev_index 0 n) with (n - 1).
        2:{ pose proof (prev_index_succ (n - 1) n ltac:(lia)) as P. replace (n - 1 + 1) with n in P by lia.
            rewrite Nat.mod_same, Nat.mod_small in P by lia. symmetry. exact P. }
        rewrite (run_list_ext _ (vstep s I) _ (seq 0 (n - 1))).
        * destruct (run_list (vstep s I) (seq 0 (n - 1)) (sg_c R s)); cbn [bind]; try reflexivity.
          destruct (vstep s I (n - 1) a); reflexivity.
        * assert (G : forall a, (forall t, In t a -> t < n - 1) -> Forall2 (fun k i => forall c, vstep s I (prev_index (k mod n) n) c = vstep s I i c)
            (map (fun t => (1 + t) mod n) a) a).
          { induction a as [|t a IH]; intros Ha; constructor; [|apply IH; intros u Hu; apply Ha; right; exact Hu].
            intros c. f_equal. rewrite Nat.mod_mod by lia. rewrite (Nat.add_comm 1 t), prev_index_succ by lia.
            apply Nat.mod_small. specialize (Ha t (or_introl eq_refl)). lia. }
          apply G. intros t Ht. apply in_seq in Ht. lia.
      + intros t Ht. rewrite Nat.mod_small by lia. lia.
      + replace (1 + (n - 1)) with n by lia. apply Nat.mod_same. lia. }
  specialize (E bool (fun c => if negb (feqb c (sg_c R s)) then Err "c'0 does not equal c0"%string else Ok true)).
  exact E.
Qed.

Lemma vstep_ok s I i K r c : nth_error (sg_r R s) i = Some r -> nth_error (sg_pub R s) i = Some K ->
  length I <= length (pk_keys R K) <= length r -> vstep s I i c = Ok (ring_chal R (sg_msg R s) I (pk_keys R K) r c).
Proof.
  intros E1 E2 H. unfold vstep, idx. rewrite E1, E2. cbn [bind]. apply generateChallenge_ok. exact H.
Qed.
Lemma vstep_total s I i c : (exists c', vstep s I i c = Ok c') \/ vstep s I i c = Panic.
Proof.
  unfold vstep, idx. destruct (nth_error (sg_r R s) i) as [r|]; [|right; reflexivity]. cbn [bind].
  destruct (nth_error (sg_pub R s) i) as [k|]; [|right; reflexivity]. cbn [bind].
  destruct (row_dec I k r) as [H|H]; [left; rewrite generateChallenge_ok by exact H; eexists; reflexivity|right; apply generateChallenge_panic; exact H].
Qed.
Lemma sig_rows_length s : length (sg_r R s) <= length (sg_pub R s) -> length (sig_rows s) = length (sg_r R s).
Proof. intros H. unfold sig_rows. rewrite combine_length, map_length. lia. Qed.
Lemma sig_rows_nth s i r k : nth_error (sg_r R s) i = Some r -> nth_error (sg_pub R s) i = Some k ->
  nth_error (sig_rows s) i = Some (pk_keys R k, r).
Proof.
  unfold sig_rows. generalize (sg_r R s) (sg_pub R s). induction i as [|i IH]; intros [|a l] [|b m] E1 E2; cbn in *; try discriminate.
  - congruence.
  - apply IH; assumption.
Qed.

Lemma run_seq_rows s I : length (sg_r R s) <= length (sg_pub R s) -> Forall (row_ok R I) (sig_rows s) ->
  forall c, run_list (vstep s I) (seq 0 (length (sg_r R s))) c = Ok (ring_chain R (sg_msg R s) I (sig_rows s) c).
Proof.
  intros L F.
  assert (G : forall n, n <= length (sg_r R s) -> forall c, run_list (vstep s I) (seq 0 n) c = Ok (ring_chain R (sg_msg R s) I (firstn n (sig_rows s)) c)).
  { induction n as [|n IH]; intros Hn c; [reflexivity|].
    replace (Datatypes.S n) with (n + 1) by lia. rewrite seq_app, run_list_app, IH by lia. cbn [bind Nat.add seq run_list].
    assert (E1 : exists r, nth_error (sg_r R s) n = Some r) by (destruct (nth_error (sg_r R s) n) eqn:E; [eauto|apply nth_error_None in E; lia]).
    assert (E2 : exists k, nth_error (sg_pub R s) n = Some k) by (destruct (nth_error (sg_pub R s) n) eqn:E; [eauto|apply nth_error_None in E; lia]).
    destruct E1 as [r E1], E2 as [k E2]. pose proof (sig_rows_nth s n r k E1 E2) as E3.
    rewrite (vstep_ok s I n k r _ E1 E2).
    2:{ rewrite Forall_forall in F. apply (F _ (nth_error_In _ _ E3)). }
    cbn [bind]. f_equal. rewrite Nat.add_1_r.
    assert (E4 : firstn (Datatypes.S n) (sig_rows s) = firstn n (sig_rows s) ++ [(pk_keys R k, r)]).
    { revert E3. generalize (sig_rows s). clear. induction n as [|n IH]; intros [|x l] E; cbn in E; try discriminate.
      - injection E as ->. reflexivity.
      - cbn [firstn app]. f_equal. apply IH. exact E. }
    rewrite E4. unfold ring_chain. rewrite fold_left_app. reflexivity. }
  intros c. rewrite G by lia. rewrite firstn_all2; [reflexivity|]. rewrite sig_rows_length by exact L. lia.
Qed.

(** [shape_ok]: Verify does not panic *)
Definition shape_ok (s : sig R) (I : list (pt R)) : Prop :=
  length (sg_r R s) <= length (sg_pub R s) /\ Forall (row_ok R I) (sig_rows s).
Lemma Verify_shape s I : sg_pub R s <> [] -> sg_r R s <> [] -> I <> [] -> shape_ok s I ->
  sig_Verify R s I = if feqb (ring_chain R (sg_msg R s) I (verify_rows s) (sg_c R s)) (sg_c R s) then Ok true else Err "c'0 does not equal c0"%string.
Proof.
  intros H1 H2 H3 [L F]. rewrite Verify_list by assumption. unfold verify_rows, vlist.
  destruct (Nat.eqb_spec (length (sg_r R s)) 1) as [E|E].
  - pose proof (run_seq_rows s I L F) as G. rewrite E in G. cbn [seq] in G.
    change [0; 0] with ([0] ++ [0]). rewrite run_list_app, G. cbn [bind]. rewrite G. cbn [bind].
    unfold ring_chain at 3. rewrite fold_left_app. fold (ring_chain R (sg_msg R s) I (sig_rows s) (sg_c R s)).
    fold (ring_chain R (sg_msg R s) I (sig_rows s) (ring_chain R (sg_msg R s) I (sig_rows s) (sg_c R s))).
    destruct (feqb _ _); reflexivity.
  - rewrite run_seq_rows by assumption. cbn [bind]. destruct (feqb _ _); reflexivity.
Qed.
Lemma Verify_bad s I : sg_pub R s <> [] -> sg_r R s <> [] -> I <> [] -> ~ shape_ok s I -> sig_Verify R s I = Panic.
Proof.
  intros H1 H2 H3 N. rewrite Verify_list by assumption.
  assert (E : Exists (fun i => forall c, vstep s I i c = Panic) (vlist (length (sg_r R s)))).
  { apply Exists_exists.
    assert (V : forall i, i < length (sg_r R s) -> In i (vlist (length (sg_r R s)))).
    { intros i Hi. unfold vlist. destruct (Nat.eqb_spec (length (sg_r R s)) 1); [left; lia|apply in_seq; lia]. }
    destruct (Nat.lt_ge_cases (length (sg_pub R s)) (length (sg_r R s))) as [C|C].
    - exists (length (sg_pub R s)). split; [apply V; exact C|]. intros c. unfold vstep.
      destruct (idx (sg_r R s) (length (sg_pub R s))) eqn:E; cbn [bind].
      + rewrite (proj2 (idx_Panic (sg_pub R s) _)) by lia. reflexivity.
      + unfold idx in E. destruct (nth_error (sg_r R s) (length (sg_pub R s))); discriminate.
      + reflexivity.
    - assert (X : Exists (fun x => ~ row_ok R I x) (sig_rows s)).
      { apply neg_Forall_Exists_neg; [|intros F; apply N; split; assumption].
        intros x. unfold row_ok. destruct (le_dec (length I) (length (fst x))), (le_dec (length (fst x)) (length (snd x))); (left; lia) || (right; lia). }
      apply Exists_exists in X. destruct X as [[K r] [X NX]]. apply In_nth_error in X. destruct X as [i Ei].
      assert (Li : i < length (sg_r R s)). { rewrite <- (sig_rows_length s C). apply nth_error_Some. congruence. }
      exists i. split; [apply V; exact Li|]. intros c.
      assert (E1 : exists r, nth_error (sg_r R s) i = Some r) by (destruct (nth_error (sg_r R s) i) eqn:E; [eauto|apply nth_error_None in E; lia]).
      assert (E2 : exists k, nth_error (sg_pub R s) i = Some k) by (destruct (nth_error (sg_pub R s) i) eqn:E; [eauto|apply nth_error_None in E; lia]).
      destruct E1 as [r' E1], E2 as [k E2]. pose proof (sig_rows_nth s i r' k E1 E2) as E3. rewrite Ei in E3. injection E3 as -> ->.
      unfold vstep, idx. rewrite E1, E2. cbn [bind]. apply generateChallenge_panic. exact NX. }
  rewrite (run_list_panic _ _ (fun i c => vstep_total s I i c) E). reflexivity.
Qed.
End Facts.
