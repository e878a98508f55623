(** Facts about programs over one shared variable *)
From Coq Require Import String ZArith List Lia Bool Arith.
From Verif Require Import GoModel GoFacts GlobModel.
Import ListNotations.
Local Open Scope nat_scope.

Lemma grun_bind {X Y} (p : gprog X) (f : X -> gprog Y) m : grun (gbind p f) m = grun (f (fst (grun p m))) (snd (grun p m)).
Proof. revert m. induction p as [x|k IH|m' k IH]; intros m; cbn; auto. Qed.
Lemma run_bind {X Y} {p : gprog X} {m x m'} (E : grun p m = (x, m')) (f : X -> gprog Y) : grun (gbind p f) m = grun (f x) m'.
Proof. rewrite grun_bind, E. reflexivity. Qed.
Lemma run_get {Y} (f : res Z -> gprog Y) m : grun (gbind getM f) m = grun (f (Ok m)) m.
Proof. reflexivity. Qed.
Lemma run_set {Y} (f : res unit -> gprog Y) m m' : grun (gbind (setM m') f) m = grun (f (Ok tt)) m'.
Proof. reflexivity. Qed.
Lemma run_lift {A Y} (r : res A) (f : res A -> gprog Y) m : grun (gbind (glift r) f) m = grun (f r) m.
Proof. reflexivity. Qed.

(** a program that never writes *)
Fixpoint readonly {X} (p : gprog X) : Prop :=
  match p with
  | GRet _ => True
  | GGet k => forall m, readonly (k m)
  | GSet _ _ => False
  end.
Lemma readonly_bind {X Y} (p : gprog X) (f : X -> gprog Y) :
  readonly p -> (forall x, readonly (f x)) -> readonly (gbind p f).
Proof. intros H HF. induction p as [x|k IH|m' k IH]; cbn in *; [apply HF|intros m; apply IH; apply H|contradiction]. Qed.
Lemma readonly_run {X} (p : gprog X) m : readonly p -> snd (grun p m) = m.
Proof. revert m. induction p as [x|k IH|m' k IH]; intros m H; cbn in *; [reflexivity|apply IH; apply H|contradiction]. Qed.

Lemma readonly_wrap {A} msg (p : gres A) : readonly p -> readonly (gwrap msg p).
Proof. intros H. apply readonly_bind; [exact H|]. intros x. exact I. Qed.
Lemma run_wrap {A} {p : gres A} {m x m'} msg (E : grun p m = (Ok x, m')) : grun (gwrap msg p) m = (Ok x, m').
Proof. unfold gwrap. rewrite (run_bind E). reflexivity. Qed.
Lemma run_wrap_err {A} {p : gres A} {m e m'} msg (E : grun p m = (Err e, m')) :
  grun (gwrap msg p) m = (Err (append msg (append ": " e)), m').
Proof. unfold gwrap. rewrite (run_bind E). reflexivity. Qed.

(** loops whose condition reads the variable *)
Section Loops.
Context {S : Type} (cond : nat -> Z -> bool) (body : nat -> S -> gres S).
Lemma readonly_once : (forall i st, readonly (body i st)) -> forall i st, readonly (gonce cond body i st).
Proof.
  intros H i st. unfold gonce, getM. intros m. cbn [gbind]. destruct (cond i m); [|exact I]. apply readonly_bind; [apply H|]. intros [x|e|]; exact I.
Qed.
Lemma readonly_while : (forall i st, readonly (body i st)) -> forall p i st, readonly (gwhile p cond body i st).
Proof.
  intros H. induction p as [p IH|p IH|]; intros i st; cbn [gwhile].
  - apply readonly_bind; [apply readonly_once; exact H|]. intros [[[] [i' st']]|e|]; try exact I.
    apply readonly_bind; [apply IH|]. intros [[[] [i2 st2]]|e|]; try exact I. apply IH.
  - apply readonly_bind; [apply IH|]. intros [[[] [i' st']]|e|]; try exact I. apply IH.
  - apply readonly_once. exact H.
Qed.
Lemma readonly_for : (forall i st, readonly (body i st)) -> forall lo st, readonly (gfor lo cond body st).
Proof.
  intros H lo st. unfold gfor. apply readonly_bind; [apply readonly_while; exact H|]. intros [[[] [i' st']]|e|]; exact I.
Qed.

Context (m : Z) (b : nat -> S -> res S) (HB : forall i st, grun (body i st) m = (b i st, m)).
(** k tests, one after the other *)
Fixpoint tests (k i : nat) (st : S) : res (bool * (nat * S)) :=
  match k with
  | O => Ok (true, (i, st))
  | Datatypes.S k => if cond i m then let! st' := b i st in tests k (i + 1) st' else Ok (false, (i, st))
  end.
Lemma tests_add k1 k2 : forall i st, tests (k1 + k2) i st =
  let! (go, (i, st)) := tests k1 i st in if go then tests k2 i st else Ok (false, (i, st)).
Proof.
  induction k1 as [|k1 IH]; intros i st; cbn [tests Nat.add bind]; [reflexivity|].
  destruct (cond i m); [|reflexivity]. destruct (b i st) as [st'|e|]; cbn [bind]; [apply IH|reflexivity|reflexivity].
Qed.
Lemma once_run i st : grun (gonce cond body i st) m = (tests 1 i st, m).
Proof.
  unfold gonce. rewrite run_get. cbv beta iota. cbn [tests]. destruct (cond i m); [|reflexivity].
  rewrite (run_bind (HB i st)). destruct (b i st); reflexivity.
Qed.
Lemma while_run p : forall i st, grun (gwhile p cond body i st) m = (tests (Pos.to_nat p) i st, m).
Proof.
  induction p as [p IH|p IH|]; intros i st; cbn [gwhile].
  - rewrite Pos2Nat.inj_xI. replace (Datatypes.S (2 * Pos.to_nat p)) with (1 + (Pos.to_nat p + Pos.to_nat p)) by lia.
    rewrite (run_bind (once_run i st)). rewrite (tests_add 1 (Pos.to_nat p + Pos.to_nat p)). destruct (tests 1 i st) as [[[] [i' st']]|e|]; cbn [bind]; cbv beta iota; try reflexivity.
    rewrite (run_bind (IH i' st')). rewrite tests_add. destruct (tests (Pos.to_nat p) i' st') as [[[] [i2 st2]]|e|]; cbn [bind]; try reflexivity. apply IH.
  - rewrite Pos2Nat.inj_xO. replace (2 * Pos.to_nat p) with (Pos.to_nat p + Pos.to_nat p) by lia.
    rewrite (run_bind (IH i st)). rewrite tests_add. destruct (tests (Pos.to_nat p) i st) as [[[] [i' st']]|e|]; cbn [bind]; try reflexivity. apply IH.
  - apply once_run.
Qed.
Lemma tests_for n : forall k i st, n < k -> (forall j, i <= j < i + n -> cond j m = true) -> cond (i + n) m = false ->
  tests k i st = let! st := for_loop i n b st in Ok (false, (i + n, st)).
Proof.
  induction n as [|n IH]; intros [|k] i st L C1 C2; try lia; cbn [tests for_loop bind].
  - rewrite Nat.add_0_r in *. rewrite C2. reflexivity.
  - rewrite C1 by lia. destruct (b i st) as [st'|e|]; cbn [bind]; try reflexivity. replace (i + 1) with (Datatypes.S i) by lia.
    rewrite IH; [|lia|intros j Hj; apply C1; lia|rewrite <- C2; f_equal; lia]. destruct (for_loop (Datatypes.S i) n b st'); cbn [bind]; try reflexivity.
    do 3 f_equal. lia.
Qed.
Lemma for_run lo n st : (Z.of_nat n < 2 ^ 63)%Z -> (forall j, lo <= j < lo + n -> cond j m = true) -> cond (lo + n) m = false ->
  grun (gfor lo cond body st) m = (for_loop lo n b st, m).
Proof.
  intros L C1 C2. unfold gfor. rewrite (run_bind (while_run (2 ^ 63) lo st)). rewrite (tests_for n).
  - destruct (for_loop lo n b st); reflexivity.
  - apply Nat2Z.inj_lt. rewrite positive_nat_Z. exact L.
  - exact C1.
  - exact C2.
Qed.
(** what each pass keeps, the loop keeps *)
Lemma tests_keep (P : S -> Prop) : (forall i st st', P st -> b i st = Ok st' -> P st') ->
  forall k i st go i' st', P st -> tests k i st = Ok (go, (i', st')) -> P st'.
Proof.
  intros K. induction k as [|k IH]; intros i st go i' st' H E; cbn [tests] in E; [injection E as _ _ <-; exact H|].
  destruct (cond i m); [|injection E as _ _ <-; exact H].
  destruct (b i st) as [x|e|] eqn:B; cbn [bind] in E; try discriminate. exact (IH _ _ _ _ _ (K _ _ _ H B) E).
Qed.
Lemma for_keep (P : S -> Prop) lo st st' : (forall i st st', P st -> b i st = Ok st' -> P st') -> P st ->
  fst (grun (gfor lo cond body st) m) = Ok st' -> P st'.
Proof.
  intros K H. unfold gfor. rewrite (run_bind (while_run (2 ^ 63) lo st)).
  generalize (Pos.to_nat (2 ^ 63)). intros k.
  destruct (tests k lo st) as [[[] [i' x]]|e|] eqn:E; cbv beta iota; cbn [grun fst]; try discriminate.
  intros X. injection X as <-. exact (tests_keep P K _ _ _ _ _ _ H E).
Qed.
End Loops.

(** a program that, as long as it reads m, only writes m *)
Fixpoint stable (m : Z) {X} (p : gprog X) : Prop :=
  match p with
  | GRet _ => True
  | GGet k => stable m (k m)
  | GSet m' k => m' = m /\ stable m k
  end.
Lemma readonly_stable {X} (p : gprog X) m : readonly p -> stable m p.
Proof. induction p as [x|k IH|m' k IH]; cbn; intros H; [exact I|apply IH; apply H|contradiction]. Qed.
Lemma stable_bind {X Y} m (p : gprog X) (f : X -> gprog Y) :
  stable m p -> (forall x, stable m (f x)) -> stable m (gbind p f).
Proof. intros H HF. induction p as [x|k IH|m' k IH]; cbn in *; [apply HF|apply IH; apply H|tauto]. Qed.
Lemma stable_run {X} m (p : gprog X) : stable m p -> snd (grun p m) = m.
Proof. induction p as [x|k IH|m' k IH]; intros H; cbn in *; [reflexivity|auto|destruct H as [-> H]; auto]. Qed.
Lemma stable_step {X} m (p : gprog X) : stable m p ->
  snd (gstep p m) = m /\ stable m (fst (gstep p m)) /\ grun (fst (gstep p m)) m = grun p m.
Proof. destruct p as [x|k|m' k]; cbn; intros H; auto. destruct H as [-> H]. auto. Qed.

Lemma nth_error_upd {A} (l : list A) i j a : nth_error (upd l i a) j =
  if Nat.eqb i j then (if Nat.ltb i (length l) then Some a else None) else nth_error l j.
Proof.
  destruct (Nat.eqb_spec i j) as [->|N].
  - destruct (Nat.ltb_spec j (length l)) as [C|C].
    + apply upd_same. exact C.
    + apply nth_error_None. rewrite upd_length. exact C.
  - apply upd_other. congruence.
Qed.

(** every schedule of programs stable at m runs each of them as if it were alone *)
Lemma stable_sched {X} m schedule : forall (pool : list (gprog X)), Forall (stable m) pool ->
  snd (sched_run pool m schedule) = m /\
  length (fst (sched_run pool m schedule)) = length pool /\
  forall i p p', nth_error pool i = Some p -> nth_error (fst (sched_run pool m schedule)) i = Some p' ->
    stable m p' /\ grun p' m = grun p m.
Proof.
  induction schedule as [|i rest IH]; intros pool HP; cbn [sched_run].
  - split; [reflexivity|]. split; [reflexivity|]. cbn. intros j p p' E E'. rewrite E in E'. injection E' as <-.
    split; [|reflexivity]. rewrite Forall_forall in HP. apply HP. eapply nth_error_In. exact E.
  - destruct (nth_error pool i) as [p|] eqn:E; [|apply IH; exact HP].
    assert (SP : stable m p) by (rewrite Forall_forall in HP; apply HP; eapply nth_error_In; exact E).
    destruct (stable_step m p SP) as [S1 [S2 S3]].
    destruct (gstep p m) as [q m']. cbn [fst snd] in *. subst m'.
    assert (LI : i < length pool) by (apply nth_error_Some; congruence).
    destruct (IH (upd pool i q)) as [I1 [I2 I3]].
    { rewrite Forall_forall. intros x Hx. apply In_nth_error in Hx. destruct Hx as [j Hj].
      rewrite nth_error_upd in Hj. destruct (Nat.eqb_spec i j) as [->|N].
      - destruct (Nat.ltb_spec j (length pool)); [|discriminate]. congruence.
      - rewrite Forall_forall in HP. apply HP. eapply nth_error_In. exact Hj. }
    split; [exact I1|]. split; [rewrite I2; apply upd_length|].
    intros j p0 p' E0 E'. destruct (Nat.eq_dec i j) as [->|N].
    + rewrite E in E0. injection E0 as <-. destruct (I3 j q p') as [J1 J2]; [|exact E'|].
      * rewrite nth_error_upd, Nat.eqb_refl. destruct (Nat.ltb_spec j (length pool)); [reflexivity|lia].
      * split; [exact J1|]. congruence.
    + apply (I3 j p0 p'); [|exact E']. rewrite upd_other by congruence. exact E0.
Qed.

(** running one goroutine to its end *)
Lemma sched_app {X} s1 : forall s2 (pool : list (gprog X)) m,
  sched_run pool m (s1 ++ s2) = let (pool', m') := sched_run pool m s1 in sched_run pool' m' s2.
Proof.
  induction s1 as [|i s1 IH]; intros s2 pool m; cbn [app sched_run]; [reflexivity|].
  destruct (nth_error pool i) as [p|]; [|apply IH]. destruct (gstep p m). apply IH.
Qed.
Lemma upd_upd {A} (l : list A) i a b : upd (upd l i a) i b = upd l i b.
Proof. revert i. induction l as [|x l IH]; intros [|i]; cbn; congruence. Qed.
Lemma upd_id {A} (l : list A) i a : nth_error l i = Some a -> upd l i a = l.
Proof. revert i. induction l as [|x l IH]; intros [|i] H; cbn in *; try discriminate; [congruence|]. rewrite IH; auto. Qed.
Lemma sched_alone {X} (p : gprog X) : forall i pool m, nth_error pool i = Some p ->
  exists n, sched_run pool m (repeat i n) = (upd pool i (GRet (fst (grun p m))), snd (grun p m)).
Proof.
  induction p as [x|k IH|m' k IH]; intros i pool m E.
  - exists 0. cbn. rewrite upd_id by exact E. reflexivity.
  - destruct (IH m i (upd pool i (k m)) m) as [n En].
    { apply upd_same. apply nth_error_Some. congruence. }
    exists (S n). cbn [repeat sched_run grun]. rewrite E. cbn [gstep]. rewrite En, upd_upd. reflexivity.
  - destruct (IH i (upd pool i k) m') as [n En].
    { apply upd_same. apply nth_error_Some. congruence. }
    exists (S n). cbn [repeat sched_run grun]. rewrite E. cbn [gstep]. rewrite En, upd_upd. reflexivity.
Qed.

(** what a schedule does to programs stable at m, or that first write m *)
Lemma stable_results {X} m schedule (pool : list (gprog X)) : Forall (stable m) pool ->
  forall i p x, nth_error pool i = Some p -> nth_error (fst (sched_run pool m schedule)) i = Some (GRet x) -> x = fst (grun p m).
Proof.
  intros H i p x E E'. destruct (stable_sched m schedule pool H) as [_ [_ S]]. destruct (S i p _ E E') as [_ G]. rewrite <- G. reflexivity.
Qed.
Lemma setfirst_results {X} n schedule : forall (pool : list (gprog X)) m,
  Forall (fun p => exists k, p = GSet n k /\ stable n k) pool ->
  forall i p x, nth_error pool i = Some p -> nth_error (fst (sched_run pool m schedule)) i = Some (GRet x) -> x = fst (grun p m).
Proof.
  induction schedule as [|j rest IH]; intros pool m H i p x E E'.
  - cbn in E'. rewrite E in E'. injection E' as ->. rewrite Forall_forall in H. destruct (H _ (nth_error_In _ _ E)) as [k [C _]]. discriminate.
  - cbn [sched_run] in E'. destruct (nth_error pool j) as [q|] eqn:EJ; [|eapply IH; eassumption].
    rewrite Forall_forall in H. destruct (H _ (nth_error_In _ _ EJ)) as [k [-> SK]]. cbn [gstep] in E'.
    assert (HS : Forall (stable n) (upd pool j k)).
    { apply Forall_forall. intros y Hy. apply In_nth_error in Hy. destruct Hy as [l Hl]. rewrite nth_error_upd in Hl.
      destruct (Nat.eqb_spec j l) as [->|N].
      - destruct (Nat.ltb_spec l (length pool)); [|discriminate]. congruence.
      - destruct (H _ (nth_error_In _ _ Hl)) as [k' [-> SK']]. cbn. auto. }
    destruct (H _ (nth_error_In _ _ E)) as [k' [-> SK']]. cbn [grun].
    destruct (Nat.eq_dec j i) as [->|N].
    + rewrite E in EJ. injection EJ as ->.
      apply (stable_results n rest _ HS i k x); [|exact E']. apply upd_same. apply nth_error_Some. congruence.
    + rewrite (stable_results n rest _ HS i (GSet n k') x); [reflexivity| |exact E']. rewrite upd_other by congruence. exact E.
Qed.

(** symbolic execution *)
Ltac gs := repeat (first [rewrite run_get | rewrite run_set | rewrite run_lift]; cbv beta iota zeta).

(** ** A write by another goroutine *)
(** [x] is a result of p when the variable, m at first, is changed to n once, before some access of p or
    before its end *)
Fixpoint late {X} (n : Z) (p : gprog X) (m : Z) (x : X) : Prop :=
  fst (grun p n) = x \/
  match p with
  | GRet _ => False
  | GGet k => late n (k m) m x
  | GSet m' k => late n k m' x
  end.
Lemma late_now {X} n (p : gprog X) m x : fst (grun p n) = x -> late n p m x.
Proof. destruct p; cbn; auto. Qed.
Lemma late_run {X} m (p : gprog X) x : readonly p -> late m p m x -> fst (grun p m) = x.
Proof.
  induction p as [y|k IH|m' k IH]; cbn; [tauto| |tauto]. intros H [E|E]; [exact E|]. apply IH; [apply H|exact E].
Qed.
Lemma late_bind {X Y} n (p : gprog X) (f : X -> gprog Y) y : forall m,
  late n (f (fst (grun p m))) (snd (grun p m)) y -> late n (gbind p f) m y.
Proof. induction p as [x|k IH|m' k IH]; intros m H; cbn [gbind grun] in *; [exact H| |]; right; apply IH; exact H. Qed.
Lemma late_run_bind {X Y} n {p : gprog X} {m x m'} (E : grun p m = (x, m')) (f : X -> gprog Y) y :
  late n (f x) m' y -> late n (gbind p f) m y.
Proof. intros H. apply late_bind. rewrite E. exact H. Qed.
Lemma late_get {Y} n (f : res Z -> gprog Y) m y : late n (f (Ok m)) m y -> late n (gbind getM f) m y.
Proof. apply late_run_bind. reflexivity. Qed.
Lemma late_set {Y} n (f : res unit -> gprog Y) m m' y : late n (f (Ok tt)) m' y -> late n (gbind (setM m') f) m y.
Proof. apply late_run_bind. reflexivity. Qed.
Lemma late_lift {A Y} n (r : res A) (f : res A -> gprog Y) m y : late n (f r) m y -> late n (gbind (glift r) f) m y.
Proof. apply late_run_bind. reflexivity. Qed.
(** the change is in the first part *)
Lemma late_left {X Y} n (p : gprog X) (f : X -> gprog Y) x y : (forall m, fst (grun (f x) m) = y) ->
  forall m, late n p m x -> late n (gbind p f) m y.
Proof.
  intros HF. induction p as [x'|k IH|m' k IH]; intros m; cbn [late gbind]; intros [E|E]; try contradiction.
  - cbn in E. subst x'. apply late_now, HF.
  - left. cbn [grun] in *. rewrite grun_bind, E. apply HF.
  - right. apply IH, E.
  - left. cbn [grun] in *. rewrite grun_bind, E. apply HF.
  - right. apply IH, E.
Qed.
(** goroutine j, whose next step writes n, makes this step at the right time *)
Lemma late_sched {X} n k x i j : i <> j -> forall (p : gprog X) m pool, nth_error pool i = Some p -> nth_error pool j = Some (GSet n k) ->
  late n p m x -> exists schedule, nth_error (fst (sched_run pool m schedule)) i = Some (GRet x).
Proof.
  intros N.
  assert (now : forall p m pool, nth_error pool i = Some p -> nth_error pool j = Some (GSet n k) -> fst (grun p n) = x ->
    exists schedule, nth_error (fst (sched_run pool m schedule)) i = Some (GRet x)).
  { intros p m pool Ei Ej E. assert (E1 : nth_error (upd pool j k) i = Some p) by (rewrite upd_other by congruence; exact Ei).
    destruct (sched_alone p i _ n E1) as [l El]. exists (j :: repeat i l). cbn [sched_run]. rewrite Ej. cbn [gstep]. rewrite El, E. cbn [fst].
    apply upd_same. rewrite upd_length. apply nth_error_Some. congruence. }
  induction p as [y|q IH|m' q IH]; intros m pool Ei Ej; cbn [late]; intros [E|E]; try contradiction; try (eapply now; eassumption).
  - destruct (IH m m (upd pool i (q m))) as [s Es]; [|rewrite upd_other by congruence; exact Ej|exact E|].
    + apply upd_same. apply nth_error_Some. congruence.
    + exists (i :: s). cbn [sched_run]. rewrite Ei. exact Es.
  - destruct (IH m' (upd pool i q)) as [s Es]; [|rewrite upd_other by congruence; exact Ej|exact E|].
    + apply upd_same. apply nth_error_Some. congruence.
    + exists (i :: s). cbn [sched_run]. rewrite Ei. exact Es.
Qed.
Ltac ls := repeat (first [apply late_get | apply late_set | apply late_lift]; cbv beta iota zeta).
