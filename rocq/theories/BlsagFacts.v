(** Facts about bLSAG *)
From Coq Require Import String ZArith List Lia Bool Arith Field.
From Verif Require Import GoModel GoFacts Fld Rist RistFacts VectorFacts MlsagFacts MlsagProve BlsagModel SpecBlsag.
Import ListNotations.
Local Open Scope nat_scope.

Section Facts.
Context {R : rist} {V : raw R}.
Local Notation emb := (emb R V).
Local Notation "p [+] q" := (padd R p q) (at level 50, left associativity).
Local Notation "s [*] p" := (smul R s p) (at level 40, left associativity).

Definition Lof (P : rp R V) (s c : F) : rp R V := radd R V (emb (s [*] pbase R)) (rsmul R V c P).
Definition Rof (I P : rp R V) (s c : F) : rp R V := radd R V (rsmul R V s (emb (pderive R (rbytes R V P)))) (rsmul R V c I).
Lemma computeCLR_eq m I P s c : computeCLR R V m I P s c = (bl_chal R V m I (P, s) c, Lof P s c, Rof I P s c).
Proof. unfold computeCLR, bl_chal, appendToBuf. cbn [fold_left app]. rewrite <- app_assoc. reflexivity. Qed.

(** ** Verify *)
Lemma idx_app {A} (a b : list A) i x : length a = i -> idx (a ++ x :: b) i = Ok x.
Proof. intros L. unfold idx. rewrite nth_error_app2, L, Nat.sub_diag by lia. reflexivity. Qed.
Lemma upd_app {A} (a b : list A) i x y : length a = i -> upd (a ++ x :: b) i y = a ++ y :: b.
Proof. revert i. induction a as [|z a IH]; intros i L; cbn in L; subst i; cbn; [reflexivity|]. f_equal. apply IH. reflexivity. Qed.

Section Verify.
Context (m : bytes) (sg : rsig R V).
Let n := length (rs_pub R V sg).
Let row (i : nat) : rp R V * F := (nth i (rs_pub R V sg) (rzero R V), nth i (rs_S R V sg) f0).
Let f (i : nat) (c : F) : F := bl_chal R V m (rs_I R V sg) (row i) c.
Fixpoint ci (i : nat) : F := match i with O => rs_C R V sg | S i => f i (ci i) end.
Lemma ci_fold k : ci k = bl_chain R V m (rs_I R V sg) (map row (seq 0 k)) (rs_C R V sg).
Proof. induction k as [|k IH]; [reflexivity|]. rewrite seq_S, map_app. unfold bl_chain. rewrite fold_left_app. cbn [map fold_left ci Nat.add]. unfold f. rewrite IH. reflexivity. Qed.
Definition body (i : nat) (st : list (rp R V) * list (rp R V) * list F * F) :=
  let '(Ls, Rs, Cs, currC) := st in
    let! P := idx (rs_pub R V sg) i in
    let! s := idx (rs_S R V sg) i in
    let '(cPlus1, L, Rr) := computeCLR R V m (rs_I R V sg) P s currC in
    let! Cs := set_idx Cs ((i + 1) mod n) cPlus1 in
    let! Ls := set_idx Ls i L in
    let! Rs := set_idx Rs i Rr in
    Ok (Ls, Rs, Cs, cPlus1).
Definition inv (i : nat) (st : list (rp R V) * list (rp R V) * list F * F) : Prop :=
  let '(Ls, Rs, Cs, currC) := st in
  length Ls = n /\ length Rs = n /\ length Cs = n /\ currC = ci i /\
  forall t, t < i -> nth_error Ls t = Some (Lof (fst (row t)) (snd (row t)) (ci t)) /\
    nth_error Rs t = Some (Rof (rs_I R V sg) (fst (row t)) (snd (row t)) (ci t)) /\ nth_error Cs ((t + 1) mod n) = Some (ci (t + 1)).
Lemma mod_succ_inj a b : a < n -> b < n -> (a + 1) mod n = (b + 1) mod n -> a = b.
Proof.
  intros Ha Hb E. destruct (Nat.eq_dec (a + 1) n) as [Ea|Na], (Nat.eq_dec (b + 1) n) as [Eb|Nb]; try lia.
  - rewrite Ea, Nat.mod_same, Nat.mod_small in E by lia. lia.
  - rewrite Eb, Nat.mod_same, Nat.mod_small in E by lia. lia.
  - rewrite !Nat.mod_small in E by lia. lia.
Qed.
Lemma first_loop : n <= length (rs_S R V sg) ->
  exists st, for_loop 0 n body (repeat (rzero R V) n, repeat (rzero R V) n, repeat f0 n, rs_C R V sg) = Ok st /\ inv n st.
Proof.
  intros L. edestruct (for_loop_inv inv) as [st [E P]]; cycle 2.
  - exists st. split; [exact E|]. cbn [Nat.add] in P. exact P.
  - cbn. rewrite !repeat_length. repeat split; try reflexivity; lia.
  - intros i [[[Ls Rs] Cs] c] Hi [I1 [I2 [I3 [I4 I5]]]]. cbn [Nat.add] in *. unfold body.
    rewrite (idx_nth _ i (rzero R V)) by (fold n; lia). cbn [bind]. rewrite (idx_nth _ i f0) by lia. cbn [bind]. rewrite computeCLR_eq.
    rewrite set_idx_ok by (rewrite I3; apply Nat.mod_upper_bound; lia). cbn [bind]. rewrite set_idx_ok by lia. cbn [bind]. rewrite set_idx_ok by lia. cbn [bind].
    eexists. split; [reflexivity|]. unfold inv. rewrite !upd_length. split; [exact I1|]. split; [exact I2|]. split; [exact I3|].
    split; [rewrite I4; reflexivity|]. intros t Ht. destruct (Nat.eq_dec t i) as [->|N].
    + rewrite !upd_same by (rewrite ?I1, ?I2, ?I3; try lia; apply Nat.mod_upper_bound; lia). rewrite I4. repeat split. rewrite Nat.add_1_r. reflexivity.
    + destruct (I5 t ltac:(lia)) as [A [B C]]. rewrite !upd_other by (try lia; intros Q; apply mod_succ_inj in Q; lia). auto.
Qed.
Lemma second_loop Ls Rs Cs c : inv n (Ls, Rs, Cs, c) -> 
  for_loop 0 (length Cs) (fun i ok =>
      if negb ok then Ok ok
      else
        let! L := idx Ls i in
        let! Rr := idx Rs i in
        let! c := idx Cs ((i + 1) mod length Cs) in
        Ok (feqb c (sderive R (appendToBuf [] [m; rbytes R V L; rbytes R V Rr])))) true = Ok true.
Proof.
  intros [I1 [I2 [I3 [I4 I5]]]]. rewrite I3.
  edestruct (for_loop_inv (fun i ok => ok = true)) as [st [E P]]; cycle 2.
  - rewrite E. f_equal. exact P.
  - reflexivity.
  - intros i ok Hi ->. cbn [Nat.add negb] in *. destruct (I5 i ltac:(lia)) as [A [B C]]. unfold idx. rewrite A, B. cbn [bind]. rewrite C. cbn [bind].
    eexists. split; [reflexivity|]. apply feqb_eq. rewrite Nat.add_1_r. cbn [ci]. unfold f. destruct (row i) as [P s]. unfold bl_chal, appendToBuf. cbn [fold_left app fst snd]. rewrite <- app_assoc. reflexivity.
Qed.
Lemma Verify_ok : 0 < n -> n <= length (rs_S R V sg) ->
  Verify R V m sg = Ok (feqb (bl_chain R V m (rs_I R V sg) (combine (rs_pub R V sg) (rs_S R V sg)) (rs_C R V sg)) (rs_C R V sg)).
Proof.
  intros N L. unfold Verify. fold n. destruct (first_loop L) as [[[[Ls Rs] Cs] c] [E P]].
  change (for_loop 0 n _ (repeat (rzero R V) n, repeat (rzero R V) n, repeat f0 n, rs_C R V sg)) with (for_loop 0 n body (repeat (rzero R V) n, repeat (rzero R V) n, repeat f0 n, rs_C R V sg)).
  rewrite E. cbn [bind]. rewrite (second_loop _ _ _ _ P). destruct P as [I1 [I2 [I3 [I4 I5]]]]. rewrite I1, I2, I3, Nat.eqb_refl. cbn [negb andb bind].
  destruct (I5 (n - 1) ltac:(lia)) as [_ [_ C]]. replace (n - 1 + 1) with n in C by lia. rewrite Nat.mod_same in C by lia. unfold idx. rewrite C. cbn [bind].
  rewrite ci_fold.
  assert (EC : map row (seq 0 n) = combine (rs_pub R V sg) (rs_S R V sg)).
  { unfold row. revert L. unfold n. generalize (rs_pub R V sg) (rs_S R V sg). clear. intros a b. revert b. induction a as [|x a IH]; intros [|y b] L; cbn in L; try lia; [reflexivity|reflexivity|].
    cbn [length seq map combine nth]. f_equal. rewrite <- seq_shift, map_map. cbn [nth]. apply IH. lia. }
  rewrite EC. destruct (feqb _ _); reflexivity.
Qed.
Lemma Verify_short : length (rs_S R V sg) < n -> Verify R V m sg = Panic.
Proof.
  intros L. unfold Verify. fold n.
  change (for_loop 0 n _ (repeat (rzero R V) n, repeat (rzero R V) n, repeat f0 n, rs_C R V sg)) with (for_loop 0 n body (repeat (rzero R V) n, repeat (rzero R V) n, repeat f0 n, rs_C R V sg)).
  replace n with (length (rs_S R V sg) + (1 + (n - length (rs_S R V sg) - 1))) at 1 by lia. rewrite for_loop_app.
  edestruct (for_loop_inv inv body (length (rs_S R V sg)) 0 (repeat (rzero R V) n, repeat (rzero R V) n, repeat f0 n, rs_C R V sg)) as [st [E P]]; cycle 2.
  - rewrite E. cbn [bind Nat.add for_loop]. destruct st as [[[Ls Rs] Cs] c]. unfold body at 1.
    rewrite (idx_nth _ _ (rzero R V)) by (fold n; lia). cbn [bind]. rewrite (proj2 (idx_Panic (rs_S R V sg) _)) by lia. reflexivity.
  - cbn. rewrite !repeat_length. repeat split; try reflexivity; lia.
  - intros i [[[Ls Rs] Cs] c] Hi [I1 [I2 [I3 [I4 I5]]]]. cbn [Nat.add] in *. unfold body.
    rewrite (idx_nth _ i (rzero R V)) by (fold n; lia). cbn [bind]. rewrite (idx_nth _ i f0) by lia. cbn [bind]. rewrite computeCLR_eq.
    rewrite set_idx_ok by (rewrite I3; apply Nat.mod_upper_bound; lia). cbn [bind]. rewrite set_idx_ok by lia. cbn [bind]. rewrite set_idx_ok by lia. cbn [bind].
    eexists. split; [reflexivity|]. unfold inv. rewrite !upd_length. split; [exact I1|]. split; [exact I2|]. split; [exact I3|].
    split; [rewrite I4; reflexivity|]. intros t Ht. destruct (Nat.eq_dec t i) as [->|N].
    + rewrite !upd_same by (rewrite ?I1, ?I2, ?I3; try lia; apply Nat.mod_upper_bound; lia). rewrite I4. repeat split. rewrite Nat.add_1_r. reflexivity.
    + destruct (I5 t ltac:(lia)) as [A [B C]]. rewrite !upd_other by (try lia; intros Q; apply mod_succ_inj in Q; lia). auto.
Qed.
Lemma Verify_empty : n = 0 -> Verify R V m sg = Panic.
Proof. intros E. unfold Verify. fold n. rewrite E. reflexivity. Qed.
End Verify.

(** ** Sign *)
Context (OK : rist_ok R) (VOK : raw_ok R V).
Section Sign.
Context (m : bytes) (mixin : list (rp R V)) (sK : F) (j0 : nat) (rs : nat -> F).
Let n := length mixin + 1.
Let j := j0 mod n.
Let pK := sK [*] pbase R.
Let hPK := pderive R (pbytes R pK).
Let I := emb (sK [*] hPK).
Let h := sderive R (m ++ pbytes R (rs 0 [*] pbase R) ++ pbytes R (rs 0 [*] hPK)).
Definition sv (i : nat) : F := if Nat.eqb i 0 then f0 else rs i.
Definition sv_list : list F := map sv (seq 0 n).
Definition pub_list : list (rp R V) := upd (repeat (rzero R V) n) j (emb pK).
Let row (i : nat) : rp R V * F := (nth i pub_list (rzero R V), nth i sv_list f0).
Let f (i : nat) (c : F) : F := bl_chal R V m I (row i) c.
Fixpoint chain (u : nat) : F := match u with O => h | S u => f ((j + 1 + u) mod n) (chain u) end.
Definition real : F := fadd (fneg (fmul (chain (n - 1)) sK)) (rs 0).
Lemma n_pos : 0 < n. Proof. unfold n. lia. Qed.
Lemma j_lt : j < n. Proof. apply Nat.mod_upper_bound. pose proof n_pos. lia. Qed.

Lemma sv_loop : for_loop 1 (n - 1) (fun i s => set_idx s i (rs i)) (repeat f0 n) = Ok sv_list.
Proof.
  edestruct (for_loop_inv (fun i s => length s = n /\ forall t, t < n -> nth_error s t = Some (if Nat.ltb t i then sv t else f0))) as [s' [E [L P]]]; cycle 2.
  - rewrite E. f_equal. pose proof n_pos. replace (1 + (n - 1)) with n in P by lia. apply nth_error_ext. intros t.
    destruct (Nat.lt_ge_cases t n) as [C|C].
    + rewrite P by exact C. destruct (Nat.ltb_spec t n); [|lia]. symmetry. unfold sv_list. apply nth_error_map_seq. exact C.
    + rewrite (proj2 (nth_error_None s' t)) by lia. symmetry. apply nth_error_None. unfold sv_list. rewrite map_length, seq_length. exact C.
  - split; [apply repeat_length|]. intros t Ht. rewrite (nth_error_repeat f0 Ht). destruct (Nat.ltb_spec t 1); [|reflexivity]. unfold sv. destruct (Nat.eqb_spec t 0); [reflexivity|lia].
  - intros i s Hi [L P]. rewrite set_idx_ok by lia. eexists. split; [reflexivity|]. rewrite upd_length. split; [exact L|].
    intros t Ht. change (1 + i) with (S i). destruct (Nat.eq_dec t i) as [->|N].
    + rewrite upd_same by lia. destruct (Nat.ltb_spec i (S i)); [|lia]. unfold sv. destruct (Nat.eqb_spec i 0); [lia|reflexivity].
    + rewrite upd_other by lia. rewrite P by exact Ht. destruct (Nat.ltb_spec t i), (Nat.ltb_spec t (S i)); try reflexivity; lia.
Qed.
Lemma sv_length : length sv_list = n. Proof. unfold sv_list. rewrite map_length. apply seq_length. Qed.
Lemma pub_length : length pub_list = n. Proof. unfold pub_list. rewrite upd_length. apply repeat_length. Qed.

Definition sbody (i : nat) (st : list F * F) : res (list F * F) :=
  let '(cVals, cPlus1) := st in
    let l := i mod n in
    let k := (i + 1) mod n in
    let! P := idx pub_list l in
    let! s := idx sv_list l in
    let '(c, _, _) := computeCLR R V m I P s cPlus1 in
    let! cVals := set_idx cVals k c in
    Ok (cVals, c).
Lemma bl_loop_run {S} (b : nat -> S -> res S) cnt : forall fuel i st, (forall t, t < cnt -> (i + t) mod n <> j) -> (i + cnt) mod n = j -> cnt < fuel ->
  bl_loop fuel i j n b st = run_list b (map (fun t => i + t) (seq 0 cnt)) st.
Proof.
  induction cnt as [|cnt IH]; intros fuel i st H1 H2 HF; (destruct fuel as [|fuel]; [lia|]); cbn [bl_loop].
  - rewrite Nat.add_0_r in H2. rewrite H2, Nat.eqb_refl. reflexivity.
  - pose proof (H1 0 ltac:(lia)) as H0. rewrite Nat.add_0_r in H0. destruct (Nat.eqb_spec (i mod n) j) as [C|_]; [contradiction|].
    cbn [seq map run_list]. rewrite Nat.add_0_r. destruct (b i st) as [s'|e|]; cbn [bind]; [|reflexivity|reflexivity].
    rewrite IH; [| | |lia].
    + f_equal. rewrite <- seq_shift, map_map. apply map_ext. intros. lia.
    + intros t Ht. replace (i + 1 + t) with (i + Datatypes.S t) by lia. apply H1. lia.
    + rewrite <- H2. f_equal. lia.
Qed.
Lemma mod_inj u v : u < n -> v < n -> (j + 1 + u) mod n = (j + 1 + v) mod n -> u = v.
Proof.
  intros Hu Hv E. pose proof j_lt as S.
  assert (G : forall w, w < n -> (j + 1 + w) mod n = if Nat.ltb (j + 1 + w) n then j + 1 + w else j + 1 + w - n).
  { intros w Hw. destruct (Nat.ltb_spec (j + 1 + w) n); [apply Nat.mod_small; lia|].
    replace (j + 1 + w) with (j + 1 + w - n + 1 * n) at 1 by lia. rewrite Nat.mod_add by lia. destruct (Nat.eq_dec (j + 1 + w - n) n); [lia|]. apply Nat.mod_small. lia. }
  rewrite !G in E by lia. destruct (Nat.ltb_spec (j + 1 + u) n), (Nat.ltb_spec (j + 1 + v) n); lia.
Qed.
Lemma sloop_run t : t < n -> exists cs,
  run_list sbody (map (fun u => j + 1 + u) (seq 0 t)) (upd (repeat f0 n) ((j + 1) mod n) h, h) = Ok (cs, chain t) /\
  length cs = n /\ forall u, u <= t -> nth_error cs ((j + 1 + u) mod n) = Some (chain u).
Proof.
  pose proof n_pos. induction t as [|t IH]; intros Ht.
  - eexists. split; [reflexivity|]. rewrite upd_length, repeat_length. split; [reflexivity|]. intros u Hu.
    replace u with 0 by lia. rewrite Nat.add_0_r. apply upd_same. rewrite repeat_length. apply Nat.mod_upper_bound. lia.
  - destruct IH as [ch [E [L Q]]]; [lia|]. rewrite seq_S, map_app, run_list_app, E. cbn [bind Nat.add map run_list].
    assert (EB : sbody (j + 1 + t) (ch, chain t) = Ok (upd ch ((j + 1 + S t) mod n) (chain (S t)), chain (S t))).
    { unfold sbody. rewrite (idx_nth pub_list _ (rzero R V)) by (rewrite pub_length; apply Nat.mod_upper_bound; lia). cbn [bind].
      rewrite (idx_nth sv_list _ f0) by (rewrite sv_length; apply Nat.mod_upper_bound; lia). cbn [bind]. rewrite computeCLR_eq.
      rewrite set_idx_ok by (rewrite L; apply Nat.mod_upper_bound; lia). cbn [bind]. replace (j + 1 + t + 1) with (j + 1 + S t) by lia. reflexivity. }
    rewrite EB. cbn [bind]. eexists. split; [reflexivity|]. rewrite upd_length. split; [exact L|].
    intros u Hu. destruct (Nat.eq_dec u (S t)) as [->|N].
    + apply upd_same. rewrite L. apply Nat.mod_upper_bound. lia.
    + rewrite upd_other; [apply Q; lia|]. intros C. apply mod_inj in C; lia.
Qed.
Definition signed : rsig R V := mkRS R V I (chain (n - 1 - j)) (upd sv_list j real) pub_list.
Lemma Sign_ok : Sign R V m mixin sK j0 rs = Ok signed.
Proof.
  unfold Sign. fold n j pK. fold hPK. fold I. rewrite sv_loop. cbn [bind]. pose proof n_pos. pose proof j_lt.
  replace (sderive R _) with h by (unfold h, appendToBuf; cbn [fold_left app]; rewrite <- app_assoc; reflexivity).
  rewrite set_idx_ok by (rewrite repeat_length; apply Nat.mod_upper_bound; lia). cbn [bind].
  rewrite set_idx_ok by (rewrite repeat_length; lia). cbn [bind]. fold pub_list.
  change (bl_loop (n + 1) (j + 1) j n _ _) with (bl_loop (n + 1) (j + 1) j n sbody (upd (repeat f0 n) ((j + 1) mod n) h, h)).
  rewrite (bl_loop_run sbody (n - 1)); [| | |lia].
  - destruct (sloop_run (n - 1)) as [cs [E [L Q]]]; [lia|]. rewrite E. cbn [bind]. rewrite set_idx_ok by (rewrite sv_length; lia). cbn [bind].
    pose proof (Q (n - 1 - j) ltac:(lia)) as X. replace (j + 1 + (n - 1 - j)) with n in X by lia. rewrite Nat.mod_same in X by lia.
    unfold idx. rewrite X. reflexivity.
  - intros t Ht C. assert (D : (j + 1 + (n - 1)) mod n = j).
    { replace (j + 1 + (n - 1)) with (j + 1 * n) by lia. rewrite Nat.mod_add by lia. apply Nat.mod_small. lia. }
    rewrite <- D in C at 2. apply mod_inj in C; lia.
  - replace (j + 1 + (n - 1)) with (j + 1 * n) by lia. rewrite Nat.mod_add by lia. apply Nat.mod_small. lia.
Qed.

(** closing the ring *)
Lemma real_closes c : bl_chal R V m I (emb pK, fadd (fneg (fmul c sK)) (rs 0)) c = h.
Proof.
  unfold bl_chal, h, I. rewrite (rbytes_emb R V VOK). fold hPK. rewrite !(rsmul_emb R V VOK), !(radd_emb R V VOK), !(rbytes_emb R V VOK).
  f_equal. f_equal. unfold pK. f_equal; f_equal; lin OK.
Qed.
Lemma pub_nth i : i < n -> nth i pub_list (rzero R V) = if Nat.eqb i j then emb pK else rzero R V.
Proof.
  intros Hi. apply nth_error_nth. unfold pub_list. destruct (Nat.eqb_spec i j) as [->|N].
  - apply upd_same. rewrite repeat_length. exact Hi.
  - rewrite upd_other by lia. apply nth_error_repeat. exact Hi.
Qed.
Definition crow (i : nat) : rp R V * F := (nth i pub_list (rzero R V), nth i (upd sv_list j real) f0).
Lemma crow_other i : i <> j -> crow i = row i.
Proof.
  intros N. unfold crow, row. f_equal. destruct (nth_error sv_list i) as [x|] eqn:E.
  - rewrite (nth_error_nth sv_list i f0 E). apply nth_error_nth. rewrite upd_other by lia. exact E.
  - rewrite !nth_overflow; [reflexivity| |rewrite upd_length]; apply nth_error_None; exact E.
Qed.
Lemma crow_j : crow j = (emb pK, real).
Proof.
  pose proof j_lt. unfold crow. rewrite pub_nth by lia. rewrite Nat.eqb_refl. f_equal. apply nth_error_nth. apply upd_same. rewrite sv_length. lia.
Qed.
Lemma fold_to_j k : k <= j -> fold_left (fun c i => bl_chal R V m I (crow i) c) (seq 0 k) (chain (n - 1 - j)) = chain (n - 1 - j + k).
Proof.
  pose proof j_lt. induction k as [|k IH]; intros Hk; [rewrite Nat.add_0_r; reflexivity|]. rewrite seq_S, fold_left_app, IH by lia. cbn [fold_left Nat.add].
  rewrite crow_other by lia. replace (n - 1 - j + S k) with (S (n - 1 - j + k)) by lia. cbn [chain]. unfold f. f_equal. f_equal.
  replace (j + 1 + (n - 1 - j + k)) with (k + 1 * n) by lia. rewrite Nat.mod_add, Nat.mod_small by lia. reflexivity.
Qed.
Lemma fold_from_j k : j + 1 + k <= n -> fold_left (fun c i => bl_chal R V m I (crow i) c) (seq (j + 1) k) h = chain k.
Proof.
  induction k as [|k IH]; intros Hk; [reflexivity|]. rewrite seq_S, fold_left_app, IH by lia. cbn [fold_left]. rewrite crow_other by lia.
  cbn [chain]. unfold f. f_equal. f_equal. rewrite Nat.mod_small by lia. reflexivity.
Qed.
Lemma closes : fold_left (fun c i => bl_chal R V m I (crow i) c) (seq 0 n) (chain (n - 1 - j)) = chain (n - 1 - j).
Proof.
  pose proof j_lt. replace n with (j + (1 + (n - 1 - j))) at 1 by lia. rewrite seq_app, fold_left_app, fold_to_j by lia. cbn [Nat.add seq fold_left].
  rewrite crow_j. replace (n - 1 - j + j) with (n - 1) by lia. unfold real. rewrite real_closes. rewrite <- (Nat.add_1_r j). apply fold_from_j. lia.
Qed.
Lemma rows_crow : combine pub_list (upd sv_list j real) = map crow (seq 0 n).
Proof.
  unfold crow. rewrite <- pub_length. assert (L : length pub_list <= length (upd sv_list j real)) by (rewrite upd_length, sv_length, pub_length; lia). revert L.
  generalize pub_list (upd sv_list j real). clear. intros a. induction a as [|x a IH]; intros [|y b] L; cbn in L; try lia; [reflexivity|reflexivity|].
  cbn [length seq map combine nth]. f_equal. rewrite <- seq_shift, map_map. cbn [nth]. apply IH. lia.
Qed.
Lemma fold_crow l : forall c, fold_left (fun c row => bl_chal R V m I row c) (map crow l) c = fold_left (fun c i => bl_chal R V m I (crow i) c) l c.
Proof. induction l as [|x l IH]; intros c; [reflexivity|]. cbn [map fold_left]. apply IH. Qed.
Lemma signed_verifies : Verify R V m signed = Ok true.
Proof.
  pose proof n_pos. rewrite Verify_ok; cbn [signed rs_pub rs_S rs_I rs_C]; rewrite ?pub_length, ?upd_length, ?sv_length; try lia.
  f_equal. apply feqb_eq. unfold bl_chain. rewrite rows_crow, fold_crow. apply closes.
Qed.
(** the challenge of the signer *)
Lemma signer_challenge : bl_chain R V m I (firstn j (combine pub_list (upd sv_list j real))) (chain (n - 1 - j)) = chain (n - 1).
Proof.
  pose proof j_lt. unfold bl_chain. rewrite rows_crow, firstn_map.
  replace (firstn j (seq 0 n)) with (seq 0 j); [rewrite fold_crow, fold_to_j by lia; f_equal; lia|].
  replace n with (j + (n - j)) by lia. rewrite seq_app, firstn_app, seq_length, Nat.sub_diag. cbn [firstn].
  rewrite app_nil_r, firstn_all2 by (rewrite seq_length; lia). reflexivity.
Qed.
End Sign.

(** ** Consequences *)
Lemma Sign_verifies m mixin sK j0 rs : exists sg, Sign R V m mixin sK j0 rs = Ok sg /\ Verify R V m sg = Ok true.
Proof. exists (signed m mixin sK j0 rs). split; [apply Sign_ok|apply signed_verifies]. Qed.
Lemma Sign_parts m mixin sK j0 rs sg : Sign R V m mixin sK j0 rs = Ok sg ->
  let n := length mixin + 1 in let j := j0 mod n in let pK := sK [*] pbase R in
  rs_I R V sg = emb (sK [*] pderive R (pbytes R pK)) /\
  length (rs_pub R V sg) = n /\ length (rs_S R V sg) = n /\
  (forall i, i < n -> nth_error (rs_pub R V sg) i = Some (if Nat.eqb i j then emb pK else rzero R V)) /\
  (forall i, i < n -> i <> j -> nth_error (rs_S R V sg) i = Some (if Nat.eqb i 0 then f0 else rs i)).
Proof.
  cbv zeta. rewrite Sign_ok. intros E. injection E as <-. unfold signed. cbn [rs_I rs_pub rs_S].
  split; [reflexivity|]. rewrite pub_length, upd_length, sv_length. split; [reflexivity|]. split; [reflexivity|]. split.
  - intros i Hi. pose proof (pub_nth m mixin sK j0 rs i Hi) as X. cbv zeta in X. rewrite <- X. apply nth_error_nth'. rewrite pub_length. exact Hi.
  - intros i Hi Nj. rewrite upd_other by lia. unfold sv_list. rewrite nth_error_map_seq by exact Hi. reflexivity.
Qed.
Lemma Sign_response m mixin sK j0 rs sg : Sign R V m mixin sK j0 rs = Ok sg ->
  let j := j0 mod (length mixin + 1) in
  let c := bl_chain R V m (rs_I R V sg) (firstn j (combine (rs_pub R V sg) (rs_S R V sg))) (rs_C R V sg) in
  nth_error (rs_S R V sg) j = Some (fsub (rs 0) (fmul c sK)).
Proof.
  cbv zeta. rewrite Sign_ok. intros E. injection E as <-. unfold signed. cbn [rs_I rs_pub rs_S rs_C].
  rewrite upd_same by (rewrite sv_length; apply Nat.mod_upper_bound; lia). f_equal. rewrite signer_challenge. unfold real. ring.
Qed.
Lemma Sign_mixin m mixin mixin' sK j0 rs : length mixin = length mixin' -> Sign R V m mixin sK j0 rs = Sign R V m mixin' sK j0 rs.
Proof. intros L. unfold Sign. rewrite L. reflexivity. Qed.
Lemma Sign_signer m mixin sK j0 rs sg : Sign R V m mixin sK j0 rs = Ok sg ->
  forall i, i <= length mixin -> (nth_error (rs_pub R V sg) i <> Some (rzero R V) <-> i = j0 mod (length mixin + 1)).
Proof.
  intros E i Hi. destruct (Sign_parts _ _ _ _ _ _ E) as [_ [_ [_ [P _]]]]. rewrite P by lia.
  destruct (Nat.eqb_spec i (j0 mod (length mixin + 1))) as [X|X]; split; intros Y; try assumption.
  - intros Q. injection Q as Q. exact (emb_not_zero R V VOK _ Q).
  - destruct (Y eq_refl).
  - contradiction.
Qed.

(** the chain through a ring with a row of zero values *)
Section Forge.
Hypothesis (AB : forall p, radd R V p (rzero R V) = rzero R V) (AM : forall s, s <> f0 -> rsmul R V s (rzero R V) = rzero R V).
Definition h0 (m : bytes) : F := sderive R (m ++ rbytes R V (rzero R V) ++ rbytes R V (rzero R V)).
Lemma bl_chal_zero m s c : c <> f0 -> bl_chal R V m (rzero R V) (rzero R V, s) c = h0 m.
Proof. intros N. unfold bl_chal. rewrite !AM, !AB by exact N. reflexivity. Qed.
Lemma forge m rows1 s rows2 :
  let sg := mkRS R V (rzero R V) (bl_chain R V m (rzero R V) rows2 (h0 m)) (map snd (rows1 ++ (rzero R V, s) :: rows2)) (map fst (rows1 ++ (rzero R V, s) :: rows2)) in
  bl_chain R V m (rzero R V) (rows2 ++ rows1) (h0 m) <> f0 -> Verify R V m sg = Ok true.
Proof.
  intros sg N. assert (LP : length (rs_pub R V sg) = length (rows1 ++ (rzero R V, s) :: rows2)) by apply map_length.
  assert (LS : length (rs_S R V sg) = length (rows1 ++ (rzero R V, s) :: rows2)) by apply map_length.
  rewrite Verify_ok; [|rewrite LP, app_length; cbn; lia|lia]. f_equal. apply feqb_eq. unfold sg at 1 2 3 4 5. cbn [rs_I rs_C rs_S rs_pub].
  assert (EC : forall l : list (rp R V * F), combine (map fst l) (map snd l) = l).
  { induction l as [|[a b] l IH]; [reflexivity|]. cbn. f_equal. exact IH. }
  rewrite EC. unfold bl_chain in *. rewrite fold_left_app in *. cbn [fold_left]. rewrite bl_chal_zero by exact N. reflexivity.
Qed.
End Forge.

(** two answers to the same commitments *)
Lemma bl_extract I P s s' c c' : c <> c' ->
  Lof (emb P) s c = Lof (emb P) s' c' -> Rof (emb I) (emb P) s c = Rof (emb I) (emb P) s' c' ->
  let x := fmul (fsub s s') (finv (fsub c' c)) in P = x [*] pbase R /\ I = x [*] pderive R (pbytes R P).
Proof.
  intros N EL ER.
  assert (INJ : forall a b, emb a = emb b -> a = b) by (intros a b E; apply (pbytes_inj OK); rewrite <- !(rbytes_emb R V VOK), E; reflexivity).
  unfold Lof, Rof in *. rewrite !(rbytes_emb R V VOK), !(rsmul_emb R V VOK), !(radd_emb R V VOK) in *. apply INJ in EL. apply INJ in ER.
  assert (ND : fsub c' c <> f0) by (intros Q; apply N; replace c with (fsub c' (fsub c' c)) by ring; rewrite Q; ring).
  assert (G : forall A X, (s [*] A) [+] (c [*] X) = (s' [*] A) [+] (c' [*] X) -> X = fmul (fsub s s') (finv (fsub c' c)) [*] A).
  { intros A X E. apply (smul_inj_r OK (fsub c' c)); [exact ND|].
    replace (fsub c' c [*] X) with (((s' [*] A) [+] (c' [*] X)) [+] ((fneg c [*] X) [+] (fneg s' [*] A))) by (lin OK).
    rewrite <- E. rewrite <- (smul_mul R OK). replace (fmul (fsub c' c) (fmul (fsub s s') (finv (fsub c' c)))) with (fmul (fsub s s') (fmul (finv (fsub c' c)) (fsub c' c))) by ring.
    rewrite finv_l by exact ND. lin OK. }
  cbv zeta. split; apply G; assumption.
Qed.
End Facts.
