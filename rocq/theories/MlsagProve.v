(** Facts about MlsagModel.v: shuffling and proving *)
From Coq Require Import String ZArith List Lia Bool Arith Permutation Field.
From Coq Require Import Init.Byte.
From Verif Require Import GoModel GoFacts ReadModel ReadFacts Fld Rist RistFacts SpecVector VectorFacts SpecMlsag MlsagModel MlsagFacts.
Import ListNotations.
Local Open Scope nat_scope.

(** ** Shuffling *)
Definition swapi (i j n : nat) : nat := if Nat.eqb n i then j else if Nat.eqb n j then i else n.
Lemma swap_perm {A} (m : list A) i j a b : nth_error m j = Some a -> nth_error m i = Some b ->
  Permutation m (upd (upd m i a) j b).
Proof.
  intros Ea Eb. assert (Li : i < length m) by (apply nth_error_Some; congruence). assert (Lj : j < length m) by (apply nth_error_Some; congruence).
  apply Permutation_nth_error. rewrite !upd_length. split; [reflexivity|]. exists (swapi i j). split.
  - intros x y. unfold swapi. destruct (Nat.eqb_spec x i), (Nat.eqb_spec x j), (Nat.eqb_spec y i), (Nat.eqb_spec y j); subst; lia.
  - intros n. unfold swapi. destruct (Nat.eqb_spec n i) as [->|Ni].
    + destruct (Nat.eq_dec i j) as [->|N]; [rewrite upd_same by (rewrite upd_length; lia); congruence|].
      rewrite upd_other by congruence. rewrite upd_same by lia. congruence.
    + destruct (Nat.eqb_spec n j) as [->|Nj].
      * rewrite upd_same by (rewrite upd_length; lia). congruence.
      * rewrite upd_other by congruence. rewrite upd_other by congruence. reflexivity.
Qed.

Section Prove.
Context {R : rist}.
Local Notation "p [+] q" := (padd R p q) (at level 50, left associativity).
Local Notation "s [*] p" := (smul R s p) (at level 40, left associativity).

Lemma set_idx_ok {A} (l : list A) i a : i < length l -> set_idx l i a = Ok (upd l i a).
Proof. intros H. unfold set_idx. destruct (Nat.ltb_spec i (length l)); [reflexivity|lia]. Qed.

Lemma shuffle_ok js (m : list (pubkeys R)) : exists m', shuffle R js m = Ok m' /\ Permutation m m'.
Proof.
  unfold shuffle.
  edestruct (for_loop_inv (fun t m' => Permutation m m')) as [m' [E P]]; cycle 2.
  - exists m'. rewrite E. split; [reflexivity|exact P].
  - reflexivity.
  - intros t m1 Ht P. cbn [Nat.add] in *. rewrite <- (Permutation_length P) in *.
    set (i := length m - 1 - t). assert (Hi : i < length m) by (unfold i; lia).
    assert (Hj : intn js t i < length m). { unfold intn. pose proof (Nat.mod_upper_bound (js t) (i + 1)). lia. }
    set (j := intn js t i) in *. pose proof (Permutation_length P) as L.
    destruct (nth_error m1 j) as [a|] eqn:Ea; [|apply nth_error_None in Ea; lia].
    destruct (nth_error m1 i) as [b|] eqn:Eb; [|apply nth_error_None in Eb; lia].
    unfold idx. rewrite Ea, Eb. cbn [bind]. rewrite set_idx_ok by lia. cbn [bind]. rewrite set_idx_ok by (rewrite upd_length; lia).
    eexists. split; [reflexivity|]. eapply perm_trans; [exact P|]. apply swap_perm; assumption.
Qed.
Lemma find_signer_some (m : list (pubkeys R)) : forall i j, find_signer R m i = Some j ->
  exists k row, j = i + k /\ nth_error m k = Some row /\ pk_decoy R row = false /\ Forall (fun r => pk_decoy R r = true) (firstn k m).
Proof.
  induction m as [|r m IH]; intros i j E; cbn [find_signer] in E; [discriminate|]. destruct (pk_decoy R r) eqn:D; cbn [negb] in E.
  - apply IH in E. destruct E as [k [row [-> [E [Dr F]]]]]. exists (S k), row. split; [lia|]. split; [exact E|]. split; [exact Dr|].
    cbn [firstn]. constructor; assumption.
  - injection E as <-. exists 0, r. repeat split; [lia|exact D|constructor].
Qed.
Lemma find_signer_none (m : list (pubkeys R)) : forall i, find_signer R m i = None <-> Forall (fun r => pk_decoy R r = true) m.
Proof.
  induction m as [|r m IH]; intros i; cbn [find_signer]; [split; [constructor|reflexivity]|].
  destruct (pk_decoy R r) eqn:D; cbn [negb].
  - rewrite IH. split; [intros H; constructor; assumption|intros H; inversion H; assumption].
  - split; [discriminate|]. intros H. inversion H. congruence.
Qed.

(** the proof object after addSignerPubKey and shuffleSet *)
Definition shuffled (p p' : mproof R) : Prop :=
  mp_priv R p' = mp_priv R p /\ mp_signer R p' = mkPK R false (pk_keys R (mp_signer R p)) /\ mp_msg R p' = mp_msg R p /\
  Permutation (mp_matrix R p ++ [mkPK R false (pk_keys R (mp_signer R p))]) (mp_matrix R p') /\
  exists row, nth_error (mp_matrix R p') (mp_index R p') = Some row /\ pk_decoy R row = false /\
    Forall (fun r => pk_decoy R r = true) (firstn (mp_index R p') (mp_matrix R p')).
Lemma shuffleSet_ok js p : exists p', shuffleSet R js (addSignerPubKey R p) = (Ok tt, p') /\ shuffled p p'.
Proof.
  unfold shuffleSet. destruct (shuffle_ok js (mp_matrix R (addSignerPubKey R p))) as [m' [E P]]. rewrite E.
  cbn [addSignerPubKey addPubKeys mp_matrix mp_priv mp_signer mp_msg mp_index] in *.
  destruct (find_signer R m' 0) as [j|] eqn:D.
  - eexists. split; [reflexivity|]. unfold shuffled. cbn [mp_priv mp_signer mp_msg mp_matrix mp_index].
    apply find_signer_some in D. destruct D as [k [row [-> [E1 [E2 E3]]]]]. cbn [Nat.add].
    repeat (split; [reflexivity|]). split; [exact P|]. exists row. auto.
  - exfalso. apply find_signer_none in D. rewrite Forall_forall in D.
    assert (X : In (mkPK R false (pk_keys R (mp_signer R p))) m').
    { apply (Permutation_in _ P). apply in_app_iff. right. left. reflexivity. }
    apply D in X. discriminate.
Qed.

(** ** Random responses *)
Lemma generateResponses_shape rs m n skip : let rows := generateResponses rs m n skip in
  length rows = m /\ forall i row, nth_error rows i = Some row -> length row = if Nat.eqb i skip then 0 else n.
Proof.
  cbv zeta. unfold generateResponses. induction m as [|m [IH1 IH2]]; [split; [reflexivity|intros [|i] row E; discriminate]|].
  rewrite seq_S, fold_left_app. cbn [fold_left Nat.add].
  destruct (fold_left _ (seq 0 m) ([], 0)) as [rows t]. cbn [fst] in *.
  assert (G : forall x, length x = (if Nat.eqb m skip then 0 else n) ->
    length (rows ++ [x]) = S m /\ forall i row, nth_error (rows ++ [x]) i = Some row -> length row = if Nat.eqb i skip then 0 else n).
  { intros x Hx. rewrite app_length, IH1. cbn [length]. split; [lia|]. intros i row E.
    destruct (Nat.lt_ge_cases i m) as [C|C].
    - rewrite nth_error_app1 in E by lia. apply IH2. exact E.
    - rewrite nth_error_app2, IH1 in E by lia. destruct (i - m) as [|k] eqn:D; [|destruct k; discriminate].
      cbn in E. injection E as <-. replace i with m by lia. exact Hx. }
  destruct (Nat.eqb m skip) eqn:D; cbn [fst]; apply G; [reflexivity|]. rewrite map_length, seq_length. reflexivity.
Qed.

(** ** Key images *)
Definition images (priv : list F) (skipLast : bool) : list (pt R) :=
  if skipLast then removelast (map (key_image R) priv) else map (key_image R) priv.
Lemma removelast_firstn_len {A} (l : list A) : firstn (length l - 1) l = removelast l.
Proof. rewrite removelast_firstn_len. f_equal. lia. Qed.
Lemma calculateKeyImages_ok p skipLast : pk_keys R (mp_signer R p) = map (fun x => x [*] pbase R) (mp_priv R p) ->
  calculateKeyImages R p skipLast = if andb skipLast (Nat.eqb (length (mp_priv R p)) 0) then Panic else Ok (images (mp_priv R p) skipLast).
Proof.
  intros HS. unfold calculateKeyImages. set (priv := mp_priv R p) in *.
  rewrite (for_loop_ext _ (fun i acc => let! x := (let! x := idx priv i in let! K := idx (pk_keys R (mp_signer R p)) i in Ok [CalculateKeyImage R x K]) in Ok (acc ++ x))).
  2:{ intros i s. destruct (idx priv i); cbn [bind]; try reflexivity. destruct (idx _ i); reflexivity. }
  rewrite (app_loop _ (fun i => [key_image R (nth i priv f0)])).
  2:{ intros i Hi. rewrite (idx_nth priv i f0) by lia. cbn [bind]. rewrite HS.
      rewrite (idx_nth _ i (f0 [*] pbase R)) by (rewrite map_length; lia). cbn [bind].
      rewrite (map_nth (fun x => x [*] pbase R)). reflexivity. }
  cbn [app bind].
  assert (E : concat (map (fun i => [key_image R (nth i priv f0)]) (seq 0 (length priv))) = map (key_image R) priv).
  { rewrite <- (map_nth_seq (key_image R) priv f0). induction (seq 0 (length priv)) as [|x l IH]; [reflexivity|]. cbn. f_equal. exact IH. }
  rewrite E. unfold images. destruct skipLast; cbn [negb andb]; [|reflexivity].
  destruct priv as [|x priv]; [reflexivity|]. cbn [length Nat.eqb].
  rewrite <- removelast_firstn_len. cbn [map]. reflexivity.
Qed.
Lemma images_length priv b : length (images priv b) = if b then length priv - 1 else length priv.
Proof.
  unfold images. destruct b; [|apply map_length]. rewrite <- removelast_firstn_len, firstn_length, map_length. lia.
Qed.
Lemma images_nth priv b i : i < length (images priv b) -> nth_error (images priv b) i = option_map (key_image R) (nth_error priv i).
Proof.
  intros H. rewrite images_length in H. unfold images. destruct b.
  - rewrite <- removelast_firstn_len, map_length. rewrite <- nth_error_map.
    assert (G : forall (l : list (pt R)) n, i < n -> nth_error (firstn n l) i = nth_error l i).
    { clear. induction i as [|i IH]; intros [|x l] [|n] H; cbn; try lia; try reflexivity. apply IH. lia. }
    apply G. exact H.
  - apply nth_error_map.
Qed.

Lemma firstn_S_nth {A} (l : list A) n x : nth_error l n = Some x -> firstn (S n) l = firstn n l ++ [x].
Proof.
  revert l. induction n as [|n IH]; intros [|y l] E; cbn in E; try discriminate.
  - injection E as ->. reflexivity.
  - cbn [firstn app]. f_equal. apply IH. exact E.
Qed.

(** ** Closing the ring *)
Context (OK : rist_ok R).
Section Ring.
Context (p : mproof R) (skipLast : bool) (rs : nat -> F).
Let priv := mp_priv R p.
Let msg := mp_msg R p.
Let matrix := mp_matrix R p.
Let n := length matrix.
Let s := mp_index R p.
Let len := length priv.
Let pub := map (fun x => x [*] pbase R) priv.
Let I := images priv skipLast.
Let nonces := generateNonces rs len.
Let responses := generateResponses (fun i => rs (len + i)) n len s.
Context (Hrows : forall i row, nth_error matrix i = Some row -> length (pk_keys R row) = len).
Context (Hsigner : pk_keys R (mp_signer R p) = pub).
Context (Hs : exists row, nth_error matrix s = Some row /\ pk_keys R row = pub).

Lemma nonces_length : length nonces = len.
Proof. unfold nonces, generateNonces. rewrite map_length. apply seq_length. Qed.

(** the first challenge *)
Definition c_first : F := sderive R (msg ++ concat (map (fun a => pbytes R (a [*] pbase R)) nonces) ++
  concat (zipw (fun a k => pbytes R (a [*] pderive R (pbytes R k))) nonces (firstn (length I) pub))).
(** the signer's response to the challenge c *)
Definition real (c : F) : list F := zipw (fun a x => fadd (fneg (fmul c x)) a) nonces priv.
Lemma real_length c : length (real c) = len.
Proof. unfold real. rewrite zipw_length; rewrite nonces_length; reflexivity. Qed.

Lemma real_closes c : ring_chal R msg I pub (real c) c = c_first.
Proof.
  unfold ring_chal, c_first. f_equal. f_equal. unfold row_points. rewrite map_app, concat_app. f_equal.
  - f_equal. unfold real, pub. pose proof nonces_length as L. fold len in L. revert L. unfold len. generalize priv nonces. clear - OK.
    intros q l. revert q. induction l as [|a l IH]; intros [|x q] L; try discriminate; [reflexivity|].
    cbn [map zipw]. rewrite IH by (cbn in L; lia). f_equal. f_equal. lin OK.
  - f_equal. unfold I. rewrite images_length. unfold real, pub, images.
    assert (G : forall k l q, length l = length q -> k <= length q ->
      map (pbytes R) (zipw (fun r ki => r [*] pderive R (pbytes R (fst ki)) [+] c [*] snd ki)
        (zipw (fun a x => fadd (fneg (fmul c x)) a) l q)
        (combine (map (fun x => x [*] pbase R) q) (firstn k (map (key_image R) q)))) =
      zipw (fun a K => pbytes R (a [*] pderive R (pbytes R K))) l (firstn k (map (fun x => x [*] pbase R) q))).
    { clear - OK. induction k as [|k IH]; intros [|a l] [|x q] L K; try discriminate; try (cbn in K; lia); [reflexivity|reflexivity|].
      cbn [map zipw combine firstn]. rewrite IH by (cbn in L, K; lia). f_equal. cbn [fst snd]. unfold key_image. f_equal. lin OK. }
    pose proof nonces_length as L. fold len in L. unfold len in L. destruct skipLast.
    + rewrite <- removelast_firstn_len, map_length. apply G; [exact L|lia].
    + pose proof (G (length priv) nonces priv L (le_n _)) as E. rewrite firstn_all2 in E by (rewrite map_length; lia). exact E.
Qed.

(** the chain of challenges, starting after the signer *)
Definition Kr (i : nat) : list (pt R) := match nth_error matrix i with Some row => pk_keys R row | None => [] end.
Definition rr (i : nat) : list F := match nth_error responses i with Some row => row | None => [] end.
Definition stepi (i : nat) (c : F) : F := ring_chal R msg I (Kr i) (rr i) c.
Fixpoint chain (u : nat) : F :=
  match u with
  | O => c_first
  | S u => stepi ((s + 1 + u) mod n) (chain u)
  end.

Definition loop_body (k : nat) (st : list F * F) : res (list F * F) :=
  let '(challenges, prev) := st in
  let i := k mod n in
  let prevIndex := prev_index i n in
  let! fakeResponses := idx responses prevIndex in
  let! decoyPubKeys := idx matrix prevIndex in
  let! c := generateChallenge R msg fakeResponses I decoyPubKeys prev in
  let! challenges := set_idx challenges i c in
  Ok (challenges, c).

Context (Hn : 2 <= n).
Lemma s_lt : s < n.
Proof. destruct Hs as [row [E _]]. unfold n. apply nth_error_Some. congruence. Qed.
Lemma I_le : length I <= len.
Proof. unfold I. rewrite images_length. fold len. destruct skipLast; lia. Qed.
Lemma mod_inj u v : u < n -> v < n -> (s + 1 + u) mod n = (s + 1 + v) mod n -> u = v.
Proof.
  intros Hu Hv E. pose proof s_lt as S.
  pose proof (Nat.div_mod (s + 1 + u) n ltac:(lia)) as D1. pose proof (Nat.div_mod (s + 1 + v) n ltac:(lia)) as D2.
  rewrite E in D1. assert (Q : (s + 1 + u) / n = (s + 1 + v) / n \/ (s + 1 + u) / n <> (s + 1 + v) / n) by lia.
  destruct Q as [Q|Q]; [rewrite Q in D1; lia|].
  exfalso. set (q1 := (s + 1 + u) / n) in *. set (q2 := (s + 1 + v) / n) in *. destruct (Nat.lt_ge_cases q1 q2) as [C|C].
  - assert (n * q2 >= n * q1 + n) by nia. lia.
  - assert (n * q1 >= n * q2 + n) by nia. lia.
Qed.
Lemma fake_row u : S u < n -> exists row resp, nth_error matrix ((s + 1 + u) mod n) = Some row /\ nth_error responses ((s + 1 + u) mod n) = Some resp /\
  length (pk_keys R row) = len /\ length resp = len.
Proof.
  intros Hu. pose proof s_lt as S. pose proof (Nat.mod_upper_bound (s + 1 + u) n ltac:(lia)) as B.
  destruct (generateResponses_shape (fun i => rs (len + i)) n len s) as [L1 L2]. fold responses in L1, L2.
  destruct (nth_error matrix ((s + 1 + u) mod n)) as [row|] eqn:E1; [|apply nth_error_None in E1; fold n in E1; lia].
  destruct (nth_error responses ((s + 1 + u) mod n)) as [resp|] eqn:E2; [|apply nth_error_None in E2; lia].
  exists row, resp. repeat split; [apply (Hrows _ _ E1)|]. rewrite (L2 _ _ E2).
  destruct (Nat.eqb_spec ((s + 1 + u) mod n) s) as [C|_]; [|reflexivity]. exfalso.
  assert (X : u = n - 1); [|lia]. apply mod_inj; [lia|lia|]. rewrite C. replace (s + 1 + (n - 1)) with (s + 1 * n) by lia.
  rewrite Nat.mod_add, Nat.mod_small by lia. reflexivity.
Qed.
Lemma loop_step u challenges : S u < n -> length challenges = n ->
  loop_body (s + 2 + u) (challenges, chain u) = Ok (upd challenges ((s + 1 + S u) mod n) (chain (S u)), chain (S u)).
Proof.
  intros Hu L. unfold loop_body. replace (s + 2 + u) with (s + 1 + u + 1) by lia. rewrite prev_index_succ by lia.
  destruct (fake_row u Hu) as [row [resp [E1 [E2 [L1 L2]]]]]. unfold idx. rewrite E1, E2. cbn [bind].
  rewrite generateChallenge_ok by (rewrite L1, L2; pose proof I_le; lia). cbn [bind].
  replace (s + 1 + u + 1) with (s + 1 + S u) by lia.
  rewrite set_idx_ok by (rewrite L; apply Nat.mod_upper_bound; lia). cbn [bind].
  cbn [chain]. unfold stepi, Kr, rr. rewrite E1, E2. reflexivity.
Qed.
Lemma loop_run t : t < n -> exists challenges,
  run_list loop_body (map (fun u => s + 2 + u) (seq 0 t)) (upd (repeat f0 n) ((s + 1) mod n) c_first, c_first) = Ok (challenges, chain t) /\
  length challenges = n /\ forall u, u <= t -> nth_error challenges ((s + 1 + u) mod n) = Some (chain u).
Proof.
  induction t as [|t IH]; intros Ht.
  - eexists. split; [reflexivity|]. rewrite upd_length, repeat_length. split; [reflexivity|]. intros u Hu.
    replace u with 0 by lia. rewrite Nat.add_0_r. apply upd_same. rewrite repeat_length. apply Nat.mod_upper_bound. lia.
  - destruct IH as [ch [E [L H]]]; [lia|]. rewrite seq_S, map_app, run_list_app, E. cbn [bind Nat.add map run_list].
    rewrite loop_step by assumption. cbn [bind]. eexists. split; [reflexivity|]. rewrite upd_length. split; [exact L|].
    intros u Hu. destruct (Nat.eq_dec u (S t)) as [->|N].
    + apply upd_same. rewrite L. apply Nat.mod_upper_bound. lia.
    + rewrite upd_other; [apply H; lia|]. intros C. apply mod_inj in C; lia.
Qed.
Lemma ring_loop_chain : exists challenges,
  ring_loop (n + 2) (s + 2) ((s + 1) mod n) n loop_body (upd (repeat f0 n) ((s + 1) mod n) c_first, c_first) = Ok (challenges, chain (n - 1)) /\
  length challenges = n /\ nth_error challenges 0 = Some (chain (n - 1 - s)) /\ nth_error challenges s = Some (chain (n - 1)).
Proof.
  pose proof s_lt as S. destruct (loop_run (n - 1)) as [ch [E [L H]]]; [lia|]. exists ch.
  split.
  - rewrite <- E. replace (n + 2) with (Datatypes.S (n + 1)) by lia. cbn [ring_loop].
    destruct (Nat.eqb_spec (s + 2) ((s + 1) mod n)) as [C|_].
    { exfalso. pose proof (Nat.mod_le (s + 1) n ltac:(lia)). lia. }
    assert (ES : seq 0 (n - 1) = 0 :: map Datatypes.S (seq 0 (n - 2))).
    { replace (n - 1) with (Datatypes.S (n - 2)) by lia. cbn [seq]. rewrite seq_shift. reflexivity. }
    rewrite ES. cbn [map run_list]. rewrite Nat.add_0_r.
    destruct (loop_body (s + 2) _) as [st|e|]; cbn [bind]; [|reflexivity|reflexivity].
    rewrite (ring_loop_from n _ _ (n - 2)); [|lia|apply Nat.mod_upper_bound; lia| | |lia].
    + apply run_list_ext. rewrite map_map.
      generalize (seq 0 (n - 2)). induction l as [|t l IH]; constructor; [|exact IH].
      intros st'. rewrite Nat.add_mod_idemp_l by lia. replace (s + 2 + 1 + t) with (s + 2 + Datatypes.S t) by lia.
      unfold loop_body. rewrite Nat.mod_mod by lia. reflexivity.
    + intros t Ht C. rewrite Nat.add_mod_idemp_l in C by lia. replace (s + 2 + 1 + t) with (s + 1 + (t + 2)) in C by lia.
      replace (s + 1) with (s + 1 + 0) in C at 2 by lia. apply mod_inj in C; lia.
    + rewrite Nat.add_mod_idemp_l by lia. replace (s + 2 + 1 + (n - 2)) with (s + 1 + 1 * n) by lia. apply Nat.mod_add. lia.
  - split; [exact L|]. split.
    + pose proof (H (n - 1 - s) ltac:(lia)) as X. replace (s + 1 + (n - 1 - s)) with n in X by lia. rewrite Nat.mod_same in X by lia. exact X.
    + pose proof (H (n - 1) ltac:(lia)) as X. replace (s + 1 + (n - 1)) with (s + 1 * n) in X by lia.
      rewrite Nat.mod_add, Nat.mod_small in X by lia. exact X.
Qed.

(** the signature *)
Definition honest_sig : sig R := mkSig R (chain (n - 1 - s)) (upd responses s (real (chain (n - 1)))) matrix msg.

Lemma prove_shuffled_ok : andb skipLast (Nat.eqb len 0) = false -> prove_shuffled R p skipLast rs = Ok (honest_sig, I).
Proof.
  intros HL. unfold prove_shuffled. fold priv matrix msg len s n.
  replace (forallb _ matrix) with true.
  2:{ symmetry. apply forallb_forall. intros row Hin. apply In_nth_error in Hin. destruct Hin as [i Ei]. apply Nat.eqb_eq. apply (Hrows i row Ei). }
  cbn [negb]. rewrite calculateKeyImages_ok by exact Hsigner. fold priv len. rewrite HL. cbn [bind]. fold I.
  destruct Hs as [srow [Es Eks]]. pose proof s_lt as S. unfold idx at 1. rewrite Es. cbn [bind].
  fold nonces. rewrite nonces_length.
  rewrite (for_loop_ext _ (fun i buf => let! x := (let! a := idx nonces i in Ok (pbytes R (a [*] pbase R))) in Ok (buf ++ x))).
  2:{ intros i st. destruct (idx nonces i); reflexivity. }
  rewrite (app_loop _ (fun i => pbytes R (nth i nonces f0 [*] pbase R))).
  2:{ intros i Hi. rewrite (idx_nth nonces i f0) by (rewrite nonces_length; lia). reflexivity. }
  cbn [bind].
  rewrite (for_loop_ext _ (fun i buf => let! x := (let! a := idx nonces i in let! K := idx (pk_keys R srow) i in
    Ok (pbytes R (a [*] pderive R (pbytes R K)))) in Ok (buf ++ x))).
  2:{ intros i st. destruct (idx nonces i); cbn [bind]; try reflexivity. destruct (idx (pk_keys R srow) i); reflexivity. }
  rewrite Eks.
  assert (Lp : length pub = len) by (unfold pub; apply map_length).
  rewrite (app_loop _ (fun i => pbytes R (nth i nonces f0 [*] pderive R (pbytes R (nth i (firstn (length I) pub) (pt0 R)))))).
  2:{ intros i Hi. pose proof I_le. rewrite (idx_nth nonces i f0) by (rewrite nonces_length; lia). cbn [bind].
      rewrite (idx_nth pub i (pt0 R)) by lia. cbn [bind]. do 5 f_equal.
      assert (G : forall (l : list (pt R)) k, i < k -> nth i (firstn k l) (pt0 R) = nth i l (pt0 R)).
      { clear. induction i as [|i IH]; intros [|x l] [|k] H; cbn; try lia; try reflexivity. apply IH. lia. }
      symmetry. apply G. lia. }
  cbn [bind].
  match goal with |- context [sderive R ?b] => assert (EB : sderive R b = c_first) end.
  { unfold c_first. f_equal. rewrite <- app_assoc. f_equal. f_equal.
    - f_equal. rewrite <- nonces_length. apply (map_nth_seq (fun a => pbytes R (a [*] pbase R))).
    - f_equal. rewrite <- (zipw_seq_le _ nonces (firstn (length I) pub) f0 (pt0 R)).
      + rewrite firstn_length, Lp, Nat.min_l by (apply I_le). reflexivity.
      + rewrite firstn_length, Lp, nonces_length. lia. }
  rewrite EB. rewrite set_idx_ok by (rewrite repeat_length; apply Nat.mod_upper_bound; lia). cbn [bind].
  destruct ring_loop_chain as [ch [E [L [E0 E1]]]].
  fold responses.
  change (ring_loop (n + 2) (s + 2) ((s + 1) mod n) n _ _) with
    (ring_loop (n + 2) (s + 2) ((s + 1) mod n) n loop_body (upd (repeat f0 n) ((s + 1) mod n) c_first, c_first)).
  rewrite E. cbn [bind].
  rewrite (for_loop_ext _ (fun i acc => let! y := (let! challenge := idx ch s in let! x := idx priv i in let! a := idx nonces i in
    Ok [fadd (fneg (fmul challenge x)) a]) in Ok (acc ++ y))).
  2:{ intros i st. destruct (idx ch s); cbn [bind]; try reflexivity. destruct (idx priv i); cbn [bind]; try reflexivity. destruct (idx nonces i); reflexivity. }
  rewrite (app_loop _ (fun i => [fadd (fneg (fmul (chain (n - 1)) (nth i priv f0))) (nth i nonces f0)])).
  2:{ intros i Hi. unfold idx at 1. rewrite E1. cbn [bind]. rewrite (idx_nth priv i f0) by (unfold len in Hi; lia). cbn [bind].
      rewrite (idx_nth nonces i f0) by (rewrite nonces_length; lia). reflexivity. }
  cbn [bind app].
  assert (ER : concat (map (fun i => [fadd (fneg (fmul (chain (n - 1)) (nth i priv f0))) (nth i nonces f0)]) (seq 0 len)) = real (chain (n - 1))).
  { unfold real. rewrite <- (zipw_seq _ nonces priv f0 f0) by (rewrite nonces_length; reflexivity). rewrite nonces_length.
    clear. induction (seq 0 len) as [|x l IH]; [reflexivity|]. cbn. f_equal. exact IH. }
  rewrite ER.
  destruct (generateResponses_shape (fun i => rs (len + i)) n len s) as [L1 L2]. fold responses in L1, L2.
  rewrite set_idx_ok by lia. cbn [bind]. unfold idx. rewrite E0. reflexivity.
Qed.

(** the ring closes *)
Lemma responses_length : length responses = n.
Proof. apply generateResponses_shape. Qed.
Lemma hs_rows_length : length (sig_rows honest_sig) = n.
Proof.
  rewrite sig_rows_length; cbn [honest_sig sg_r sg_pub]; rewrite upd_length, responses_length; [reflexivity|]. fold n. lia.
Qed.
Lemma hs_row i : i < n -> nth_error (sig_rows honest_sig) i = Some (Kr i, if Nat.eqb i s then real (chain (n - 1)) else rr i).
Proof.
  intros Hi. pose proof s_lt as S.
  destruct (nth_error matrix i) as [row|] eqn:E1; [|apply nth_error_None in E1; fold n in E1; lia].
  destruct (nth_error responses i) as [resp|] eqn:E2; [|apply nth_error_None in E2; rewrite responses_length in E2; lia].
  unfold Kr, rr. rewrite E1, E2. apply sig_rows_nth; [|exact E1]. cbn [honest_sig sg_r].
  destruct (Nat.eqb_spec i s) as [->|N].
  - apply upd_same. rewrite responses_length. exact S.
  - rewrite upd_other by congruence. exact E2.
Qed.
Lemma rc_snoc rows m0 row c : nth_error rows m0 = Some row ->
  ring_chain R msg I (firstn (S m0) rows) c = ring_chal R msg I (fst row) (snd row) (ring_chain R msg I (firstn m0 rows) c).
Proof. intros E. rewrite (firstn_S_nth _ _ _ E). unfold ring_chain. rewrite fold_left_app. reflexivity. Qed.

Lemma closes_upto v : v <= s ->
  ring_chain R msg I (firstn v (sig_rows honest_sig)) (chain (n - 1 - s)) = chain (n - 1 - s + v).
Proof.
  pose proof s_lt as S. induction v as [|v IH]; intros Hv; [rewrite Nat.add_0_r; reflexivity|].
  rewrite (rc_snoc _ v _ _ (hs_row v ltac:(lia))), IH by lia. cbn [fst snd].
  destruct (Nat.eqb_spec v s) as [C|_]; [lia|]. replace (n - 1 - s + Datatypes.S v) with (Datatypes.S (n - 1 - s + v)) by lia.
  cbn [chain]. replace (s + 1 + (n - 1 - s + v)) with (v + 1 * n) by lia. rewrite Nat.mod_add, Nat.mod_small by lia. reflexivity.
Qed.
Lemma closes : ring_chain R msg I (sig_rows honest_sig) (chain (n - 1 - s)) = chain (n - 1 - s).
Proof.
  pose proof s_lt as S. set (rows := sig_rows honest_sig). set (c0 := chain (n - 1 - s)).
  assert (A : forall v, v <= s -> ring_chain R msg I (firstn v rows) c0 = chain (n - 1 - s + v)) by exact closes_upto.
  assert (B : ring_chain R msg I (firstn (s + 1) rows) c0 = c_first).
  { rewrite Nat.add_1_r, (rc_snoc rows s _ c0 (hs_row s S)), A by lia. cbn [fst snd]. rewrite Nat.eqb_refl.
    replace (n - 1 - s + s) with (n - 1) by lia. unfold Kr. destruct Hs as [row [E EK]]. rewrite E, EK. apply real_closes. }
  assert (C : forall w, s + 1 + w <= n -> ring_chain R msg I (firstn (s + 1 + w) rows) c0 = chain w).
  { induction w as [|w IH]; intros Hw; [rewrite Nat.add_0_r; exact B|].
    replace (s + 1 + Datatypes.S w) with (Datatypes.S (s + 1 + w)) by lia.
    rewrite (rc_snoc rows (s + 1 + w) _ c0 (hs_row (s + 1 + w) ltac:(lia))), IH by lia. cbn [fst snd].
    destruct (Nat.eqb_spec (s + 1 + w) s) as [D|_]; [lia|]. cbn [chain]. rewrite Nat.mod_small by lia. reflexivity. }
  specialize (C (n - 1 - s) ltac:(lia)). replace (s + 1 + (n - 1 - s)) with n in C by lia.
  rewrite firstn_all2 in C by (unfold rows; rewrite hs_rows_length; lia). exact C.
Qed.
Lemma honest_verifies : I <> [] -> sig_Verify R honest_sig I = Ok true.
Proof.
  intros HI. pose proof s_lt as S. rewrite Verify_shape.
  - unfold verify_rows. cbn [honest_sig sg_r]. rewrite upd_length, responses_length.
    destruct (Nat.eqb_spec n 1) as [C|_]; [lia|]. cbn [sg_msg sg_c honest_sig]. rewrite closes, feqb_refl. reflexivity.
  - cbn [honest_sig sg_pub]. intros E. unfold n in Hn. rewrite E in Hn. cbn in Hn. lia.
  - cbn [honest_sig sg_r]. intros E. apply (f_equal (@length _)) in E. rewrite upd_length, responses_length in E. cbn in E. lia.
  - exact HI.
  - split.
    + cbn [honest_sig sg_r sg_pub]. rewrite upd_length, responses_length. fold n. lia.
    + apply Forall_forall. intros row Hin. apply In_nth_error in Hin. destruct Hin as [i Ei].
      assert (Hi : i < n) by (rewrite <- hs_rows_length; apply nth_error_Some; congruence).
      rewrite (hs_row i Hi) in Ei. injection Ei as <-. unfold row_ok. cbn [fst snd]. pose proof I_le as L.
      assert (LK : length (Kr i) = len).
      { unfold Kr. destruct (nth_error matrix i) eqn:E; [apply (Hrows _ _ E)|apply nth_error_None in E; fold n in E; lia]. }
      rewrite LK. destruct (Nat.eqb_spec i s) as [_|N]; [rewrite real_length; lia|].
      unfold rr. destruct (nth_error responses i) eqn:E; [|apply nth_error_None in E; rewrite responses_length in E; lia].
      destruct (generateResponses_shape (fun i => rs (len + i)) n len s) as [_ L2]. fold responses in L2. rewrite (L2 _ _ E).
      destruct (Nat.eqb_spec i s); lia.
Qed.
End Ring.
End Prove.
