(** Facts about shared memory in the mlsag package *)
From Coq Require Import String ZArith List Lia Bool Arith Permutation.
From Verif Require Import GoModel GoFacts Fld Rist VectorFacts MlsagModel MlsagSessions MlsagFacts MlsagProve MlsagProps MlsagHeap.
Import ListNotations.
Local Open Scope nat_scope.

Section Keys.
Context {R : rist}.
Definition times (n : nat) (q : pt R) (k : pubkeys R) : pubkeys R := Nat.iter n (sub_second q) k.
(** rows that lie in memory *)
Definition row_in (m : kmem R) (w : hrow) : Prop := w_arr w < length m /\ w_len w <= length (karray R m (w_arr w)).

Definition sub_arr (q : pt R) (l : list (pt R)) : list (pt R) := match l with x :: y :: t => x :: psub R y q :: t | l => l end.
Lemma sub_arr_len q l : length (sub_arr q l) = length l. Proof. destruct l as [|x [|y l]]; reflexivity. Qed.
Lemma hsub_step (m : kmem R) w q : row_in m w -> 2 <= w_len w ->
  (let! k := idx (firstn (w_len w) (karray R m (w_arr w))) 1 in
   let! a := set_idx (karray R m (w_arr w)) 1 (psub R k q) in
   set_idx m (w_arr w) a) = Ok (upd m (w_arr w) (sub_arr q (karray R m (w_arr w)))).
Proof.
  intros [V1 V2] L. destruct (karray R m (w_arr w)) as [|x [|y t]] eqn:E; cbn [length] in V2; try lia.
  destruct (w_len w) as [|[|n]]; try lia. cbn [firstn]. unfold idx. cbn [nth_error bind]. unfold set_idx at 1. cbn [length Nat.ltb Nat.leb bind upd].
  rewrite set_idx_ok by exact V1. reflexivity.
Qed.
Lemma karray_upd (m : kmem R) a b l : a < length m -> karray R (upd m a l) b = if Nat.eqb a b then l else karray R m b.
Proof.
  intros L. unfold karray. destruct (Nat.eqb_spec a b) as [->|N].
  - apply nth_error_nth. apply upd_same. exact L.
  - destruct (nth_error m b) as [x|] eqn:E.
    + rewrite (nth_error_nth m b [] E). apply nth_error_nth. rewrite upd_other by exact N. exact E.
    + rewrite (nth_overflow m) by (apply nth_error_None; exact E). apply nth_overflow. rewrite upd_length. apply nth_error_None. exact E.
Qed.
Lemma view_upd (m : kmem R) a q w : a < length m -> view R (upd m a (sub_arr q (karray R m a))) w =
  if Nat.eqb a (w_arr w) then sub_second q (view R m w) else view R m w.
Proof.
  intros L. unfold view. rewrite karray_upd by exact L. destruct (Nat.eqb_spec a (w_arr w)) as [->|N]; [|reflexivity].
  unfold sub_second. cbn [pk_decoy pk_keys]. f_equal. destruct (karray R m (w_arr w)) as [|x [|y t]]; destruct (w_len w) as [|[|n]]; reflexivity.
Qed.
Lemma hsub_run q rows : forall (m : kmem R), Forall (row_in m) rows -> Forall (fun w => 2 <= w_len w) rows ->
  exists m', run_list (fun w m =>
    let! k := idx (firstn (w_len w) (karray R m (w_arr w))) 1 in
    let! a := set_idx (karray R m (w_arr w)) 1 (psub R k q) in
    set_idx m (w_arr w) a) rows m = Ok m' /\ length m' = length m /\
    forall w, view R m' w = times (count_occ Nat.eq_dec (map w_arr rows) (w_arr w)) q (view R m w).
Proof.
  induction rows as [|w rows IH]; intros m V L; cbn [run_list map count_occ].
  - exists m. split; [reflexivity|]. split; [reflexivity|]. intros. reflexivity.
  - inversion V as [|? ? V1 V2]; subst. inversion L as [|? ? L1 L2]; subst. rewrite hsub_step by assumption. cbn [bind].
    set (m1 := upd m (w_arr w) (sub_arr q (karray R m (w_arr w)))).
    destruct (IH m1) as [m' [E [LM H]]]; [|exact L2|].
    + revert V2. apply Forall_impl. intros w' [A B]. split; [unfold m1; rewrite upd_length; exact A|].
      unfold m1. rewrite karray_upd by apply V1. destruct (Nat.eqb_spec (w_arr w) (w_arr w')) as [->|]; [rewrite sub_arr_len|]; exact B.
    + exists m'. split; [exact E|]. split; [rewrite LM; apply upd_length|]. intros v. rewrite H. unfold m1. rewrite view_upd by apply V1.
      destruct (Nat.eqb_spec (w_arr w) (w_arr v)) as [EA|EA]; destruct (Nat.eq_dec (w_arr w) (w_arr v)) as [D|D]; try contradiction; [|reflexivity].
      unfold times. cbn [Nat.iter nat_rect]. clear. induction (count_occ _ _ _) as [|n IH]; [reflexivity|]. cbn [Nat.iter nat_rect]. f_equal. exact IH.
Qed.
Lemma idx_loop {X S} (f : X -> S -> res S) (l : list X) st :
  for_loop 0 (length l) (fun i s => let! x := idx l i in f x s) st = run_list f l st.
Proof.
  assert (G : forall l pre lo st, length pre = lo -> for_loop lo (length l) (fun i s => let! x := idx (pre ++ l) i in f x s) st = run_list f l st).
  { clear. induction l as [|x l IH]; intros pre lo st L; [reflexivity|]. cbn [length for_loop run_list].
    unfold idx at 1. rewrite nth_error_app2, L, Nat.sub_diag by lia. cbn [nth_error bind]. destruct (f x st) as [s'|e|]; cbn [bind]; try reflexivity.
    specialize (IH (pre ++ [x]) (1 + lo) s'). rewrite <- app_assoc in IH. cbn [app] in IH. apply IH. rewrite app_length. cbn. lia. }
  apply (G l [] 0 st eq_refl).
Qed.
Lemma hsub_ok q rows (m : kmem R) : Forall (row_in m) rows -> Forall (fun w => 2 <= w_len w) rows ->
  exists m', hSubCommToZero R m rows q = Ok m' /\ length m' = length m /\
    forall w, view R m' w = times (count_occ Nat.eq_dec (map w_arr rows) (w_arr w)) q (view R m w).
Proof. intros V L. unfold hSubCommToZero. rewrite idx_loop. apply hsub_run; assumption. Qed.
Lemma hsub_distinct q rows (m m' : kmem R) : Forall (row_in m) rows -> Forall (fun w => 2 <= w_len w) rows -> NoDup (map w_arr rows) ->
  hSubCommToZero R m rows q = Ok m' -> map (view R m') rows = map (sub_second q) (map (view R m) rows).
Proof.
  intros V L N E. destruct (hsub_ok q rows m V L) as [m1 [E1 [_ H]]]. rewrite E in E1. injection E1 as <-.
  rewrite map_map. apply map_ext_in. intros w Hw. rewrite H. rewrite (NoDup_count_occ' Nat.eq_dec) in N.
  rewrite N by (apply in_map; exact Hw). reflexivity.
Qed.
Lemma hsub_short q rows : forall (m : kmem R), Forall (row_in m) rows -> Exists (fun w => w_len w < 2) rows -> hSubCommToZero R m rows q = Panic.
Proof.
  intros m V X. unfold hSubCommToZero. rewrite idx_loop. revert m V. induction rows as [|w rows IH]; intros m V; [inversion X|]. cbn [run_list].
  inversion V as [|? ? V1 V2]; subst. destruct (Nat.lt_ge_cases (w_len w) 2) as [C|C].
  - unfold idx. replace (nth_error (firstn (w_len w) (karray R m (w_arr w))) 1) with (@None (pt R)); [reflexivity|]. symmetry. apply nth_error_None. rewrite firstn_length. lia.
  - rewrite hsub_step by assumption. cbn [bind]. apply IH; [inversion X; [lia|assumption]|].
    revert V2. apply Forall_impl. intros w' [A B]. split; [rewrite upd_length; exact A|].
    rewrite karray_upd by apply V1. destruct (Nat.eqb_spec (w_arr w) (w_arr w')) as [->|]; [rewrite sub_arr_len|]; exact B.
Qed.
Lemma view_keys (m : kmem R) w : row_in m w -> pk_decoy R (view R m w) = w_decoy w /\ pk_Len R (view R m w) = w_len w /\
  forall i, i < w_len w -> nth_error (pk_keys R (view R m w)) i = nth_error (karray R m (w_arr w)) i.
Proof.
  intros [_ L]. unfold view, pk_Len. cbn [pk_decoy pk_keys]. split; [reflexivity|]. split; [rewrite firstn_length; lia|]. intros i Hi.
  rewrite <- (firstn_skipn (w_len w) (karray R m (w_arr w))) at 2. rewrite nth_error_app1 by (rewrite firstn_length; lia). reflexivity.
Qed.
End Keys.

Section Rings.
Context {A : Type} (zero : A).
(** slices that lie in memory *)
Definition rs_in (m : rmem (A := A)) (s : rslice) : Prop :=
  r_arr s < length m /\ r_len s <= r_cap s /\ r_cap s = length (rarray m (r_arr s)).
Lemma rarray_upd (m : rmem (A := A)) a b l : a < length m -> rarray (upd m a l) b = if Nat.eqb a b then l else rarray m b.
Proof.
  intros L. unfold rarray. destruct (Nat.eqb_spec a b) as [->|N].
  - apply nth_error_nth. apply upd_same. exact L.
  - destruct (nth_error m b) as [x|] eqn:E.
    + rewrite (nth_error_nth m b [] E). apply nth_error_nth. rewrite upd_other by exact N. exact E.
    + rewrite (nth_overflow m) by (apply nth_error_None; exact E). apply nth_overflow. rewrite upd_length. apply nth_error_None. exact E.
Qed.
Lemma firstn_upd (l : list A) n x : n < length l -> firstn (n + 1) (upd l n x) = firstn n l ++ [x].
Proof. revert n. induction l as [|y l IH]; intros [|n] L; cbn in *; try lia; [reflexivity|]. f_equal. apply IH. lia. Qed.
Lemma skipn_upd (l : list A) n x : skipn (n + 1) (upd l n x) = skipn (n + 1) l.
Proof. revert n. induction l as [|y l IH]; intros [|n]; cbn; try reflexivity. apply IH. Qed.
Lemma hShuffle_ok f slack m s row l : rs_in m s -> f (ring m s ++ [row]) = Ok l -> length l = r_len s + 1 ->
  exists m' s', hShuffle zero f slack m s row = Ok (m', s') /\ rs_in m' s' /\ ring m' s' = l /\
    (r_len s < r_cap s -> ring m' s = firstn (r_len s) l) /\ (r_len s = r_cap s -> ring m' s = ring m s).
Proof.
  intros [V1 [V2 V3]] E L. unfold hShuffle, rappend. destruct (Nat.ltb_spec (r_len s) (r_cap s)) as [C|C].
  - unfold in_place. cbn [r_arr r_len]. unfold ring at 1. cbn [r_arr r_len]. rewrite rarray_upd by exact V1. rewrite Nat.eqb_refl.
    rewrite firstn_upd by lia. fold (ring m s). rewrite E. cbn [bind]. rewrite set_idx_ok by (rewrite upd_length; exact V1). cbn [bind].
    assert (EA : forall x y, rarray (upd (upd m (r_arr s) x) (r_arr s) y) (r_arr s) = y) by (intros; rewrite rarray_upd, Nat.eqb_refl by (rewrite upd_length; exact V1); reflexivity).
    do 2 eexists. split; [reflexivity|]. split.
    + unfold rs_in. cbn [r_arr r_len r_cap]. rewrite !upd_length, EA. split; [exact V1|]. split; [lia|].
      rewrite skipn_upd, app_length, skipn_length, L. lia.
    + unfold ring. cbn [r_arr r_len]. rewrite EA. split; [rewrite <- L, firstn_app, Nat.sub_diag, firstn_all, firstn_O, app_nil_r; reflexivity|].
      split; [|lia]. intros _. rewrite firstn_app. replace (r_len s - length l) with 0 by lia. rewrite firstn_O, app_nil_r. reflexivity.
  - unfold in_place. cbn [r_arr r_len].
    assert (LR : length (ring m s) = r_len s) by (unfold ring; rewrite firstn_length; lia).
    assert (EN : forall x, rarray (m ++ [x]) (length m) = x) by (intros x; unfold rarray; rewrite app_nth2, Nat.sub_diag by lia; reflexivity).
    unfold ring at 1. cbn [r_arr r_len]. rewrite EN, <- LR.
    replace (firstn (length (ring m s) + 1) (ring m s ++ row :: repeat zero slack)) with (ring m s ++ [row]).
    2:{ rewrite firstn_app. replace (length (ring m s) + 1 - length (ring m s)) with 1 by lia. rewrite firstn_all2 by lia. reflexivity. }
    rewrite E. cbn [bind]. rewrite set_idx_ok by (rewrite app_length; cbn; lia). cbn [bind].
    assert (LM : length m < length (m ++ [ring m s ++ row :: repeat zero slack])) by (rewrite app_length; cbn; lia).
    do 2 eexists. split; [reflexivity|]. unfold rs_in, ring. cbn [r_arr r_len r_cap]. rewrite !rarray_upd by exact LM. rewrite Nat.eqb_refl, upd_length.
    split; [|split; [|split]].
    + split; [exact LM|]. split; [lia|]. rewrite app_length, skipn_length, app_length. cbn [length]. rewrite repeat_length. rewrite firstn_length in *. fold (ring m s). lia.
    + fold (ring m s). rewrite LR, <- L, firstn_app, Nat.sub_diag, firstn_all, firstn_O, app_nil_r. reflexivity.
    + intros HC. exfalso. rewrite ?firstn_length in HC. lia.
    + intros _. destruct (Nat.eqb_spec (length m) (r_arr s)) as [Q|Q]; [lia|]. unfold rarray. rewrite app_nth1 by exact V1. reflexivity.
Qed.
End Rings.

Section Both.
Context {R : rist}.
Lemma hsub_shared q rows (m : kmem R) : Forall (row_in m) rows -> Forall (fun w => 2 <= w_len w) rows ->
  exists m', hSubCommToZero R m rows q = Ok m' /\
    forall w, view R m' w = Nat.iter (count_occ Nat.eq_dec (map w_arr rows) (w_arr w)) (sub_second q) (view R m w).
Proof. intros V L. destruct (hsub_ok q rows m V L) as [m' [E [_ H]]]. exists m'. split; [exact E|exact H]. Qed.
Lemma hsub_caller q rows (m : kmem R) w m' : Forall (row_in m) (hAddDecoy rows w) -> Forall (fun w => 2 <= w_len w) (hAddDecoy rows w) ->
  NoDup (map w_arr (hAddDecoy rows w)) -> hSubCommToZero R m (hAddDecoy rows w) q = Ok m' ->
  view R m' w = sub_second q (view R m w) /\
  map (view R m') (hAddDecoy rows w) = map (sub_second q) (map (view R m) (hAddDecoy rows w)).
Proof.
  intros V L N E. split; [|apply hsub_distinct; assumption].
  destruct (hsub_ok q _ m V L) as [m1 [E1 [_ H]]]. rewrite E in E1. injection E1 as <-. rewrite H.
  rewrite (NoDup_count_occ' Nat.eq_dec) in N. rewrite N; [reflexivity|]. unfold hAddDecoy. rewrite map_app. apply in_app_iff. right. left. reflexivity.
Qed.
Lemma hshuffle_spec zero slack m s (row : pubkeys R) js : rs_in m s ->
  exists l m' s', shuffle R js (ring m s ++ [row]) = Ok l /\ Permutation (ring m s ++ [row]) l /\
    hShuffle zero (shuffle R js) slack m s row = Ok (m', s') /\ ring m' s' = l /\
    (r_len s < r_cap s -> ring m' s = firstn (r_len s) l) /\ (r_len s = r_cap s -> ring m' s = ring m s).
Proof.
  intros V. destruct (shuffle_ok js (ring m s ++ [row])) as [l [E P]].
  assert (L : length l = r_len s + 1).
  { rewrite <- (Permutation_length P), app_length. cbn [length]. unfold ring. rewrite firstn_length. destruct V as [_ [V2 V3]]. lia. }
  destruct (hShuffle_ok zero (shuffle R js) slack m s row l V E L) as [m' [s' [E1 [_ [E2 [E3 E4]]]]]].
  exists l, m', s'. repeat (split; [assumption|]). assumption.
Qed.
Lemma hshuffle_destroys zero slack m s (row : pubkeys R) js m' s' c r msg J : rs_in m s -> r_len s < r_cap s ->
  hShuffle zero (shuffle R js) slack m s row = Ok (m', s') ->
  length r = r_len s -> r <> [] -> J <> [] -> Forall (fun a => length a < length (pk_keys R row)) r ->
  nth_error (ring m' s') (r_len s) <> Some row ->
  sig_Verify R (mkSig R c r (ring m' s) msg) J = Panic.
Proof.
  intros V C E LR NR NJ F N. destruct (hshuffle_spec zero slack m s row js V) as [l [m1 [s1 [E0 [P [E1 [E2 [E3 _]]]]]]]].
  rewrite E in E1. injection E1 as <- <-. rewrite E2 in N. rewrite (E3 C).
  assert (L : length l = r_len s + 1).
  { rewrite <- (Permutation_length P), app_length. cbn [length]. unfold ring. rewrite firstn_length. destruct V as [_ [V2 V3]]. lia. }
  assert (LF : length (firstn (r_len s) l) = r_len s) by (rewrite firstn_length; lia).
  assert (IN : In row (firstn (r_len s) l)).
  { assert (X : In row l) by (apply (Permutation_in _ P), in_app_iff; right; left; reflexivity).
    destruct (nth_error l (r_len s)) as [y|] eqn:EY; [|apply nth_error_None in EY; lia].
    rewrite (snoc_of l (r_len s) y EY L) in X. apply in_app_iff in X. destruct X as [X|[X|[]]]; [exact X|congruence]. }
  apply In_nth_error in IN. destruct IN as [i EI]. assert (Hi : i < length r) by (rewrite LR, <- LF; apply nth_error_Some; congruence).
  destruct (nth_error r i) as [a|] eqn:EA; [|apply nth_error_None in EA; lia].
  apply Verify_bad; cbn [sg_pub sg_r]; [intros Z; rewrite Z in LF; cbn in LF; destruct r; [congruence|cbn in LR; lia]|exact NR|exact NJ|].
  intros [_ SF]. rewrite Forall_forall in SF, F. pose proof (F a (nth_error_In _ _ EA)) as FA.
  assert (Q : In (pk_keys R row, a) (sig_rows (mkSig R c r (firstn (r_len s) l) msg))).
  { unfold sig_rows. cbn [sg_pub sg_r]. apply (nth_error_In _ i). apply combine_nth_error; [rewrite nth_error_map, EI; reflexivity|exact EA]. }
  apply SF in Q. destruct Q as [_ Q]. cbn [fst snd] in Q. lia.
Qed.
End Both.
