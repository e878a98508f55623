(** Facts behind the mlsag properties *)
From Coq Require Import String ZArith List Lia Bool Arith Permutation Field.
From Coq Require Import Init.Byte.
From Verif Require Import GoModel GoFacts ReadModel ReadFacts Fld Rist RistFacts SpecVector VectorFacts PedersenFacts SpecMlsag MlsagModel MlsagSessions MlsagFacts MlsagProve.
Import ListNotations.
Local Open Scope nat_scope.

Section Props.
Context {R : rist}.
Local Notation "p [+] q" := (padd R p q) (at level 50, left associativity).
Local Notation "s [*] p" := (smul R s p) (at level 40, left associativity).
Definition pubs (priv : list F) : list (pt R) := map (fun x => x [*] pbase R) priv.

(** ** Histories *)
(** the signer's keys are those of the private keys, and so are the keys in rows that are not decoys *)
Definition minv (p : mproof R) : Prop :=
  pk_keys R (mp_signer R p) = pubs (mp_priv R p) /\
  Forall (fun row => pk_decoy R row = false -> exists tl, pubs (mp_priv R p) = pk_keys R row ++ tl) (mp_matrix R p).

Lemma minv_new : minv mp_new. Proof. split; [reflexivity|constructor]. Qed.
Lemma prove_snd p sk js rs : exists p', shuffleSet R js (addSignerPubKey R p) = (Ok tt, p') /\ shuffled p p' /\
  prove R p sk js rs = (prove_shuffled R p' sk rs, p').
Proof.
  destruct (shuffleSet_ok js p) as [p' [E S]]. exists p'. split; [exact E|]. split; [exact S|]. unfold prove. rewrite E. reflexivity.
Qed.
Lemma shuffled_inv p p' : minv p -> shuffled p p' -> minv p'.
Proof.
  intros [I1 I2] [S1 [S2 [S3 [S4 _]]]]. split; [rewrite S2, S1; exact I1|]. rewrite S1.
  apply (Permutation_Forall S4). apply Forall_app. split; [exact I2|]. constructor; [|constructor].
  intros _. exists []. cbn [pk_keys]. rewrite app_nil_r. symmetry. exact I1.
Qed.
Lemma minv_op p o : minv p -> minv (run_mop p o).
Proof.
  intros [I1 I2]. destruct o as [k|x|m|sk js rs]; cbn [run_mop].
  - split; [exact I1|]. cbn [AddDecoy addPubKeys mp_matrix mp_priv]. apply Forall_app. split; [exact I2|]. constructor; [discriminate|constructor].
  - unfold AddSecret, minv. cbn [mp_signer mp_priv mp_matrix AddPubKey pk_keys]. unfold pubs. rewrite map_app. split.
    + fold (pubs (mp_priv R p)). rewrite I1. reflexivity.
    + revert I2. apply Forall_impl. intros row H D. destruct (H D) as [tl E]. exists (tl ++ [x [*] pbase R]).
      fold (pubs (mp_priv R p)). rewrite E, <- app_assoc. reflexivity.
  - split; assumption.
  - destruct (prove_snd p sk js rs) as [p' [_ [S E]]]. rewrite E. cbn [snd]. apply (shuffled_inv p p'); [split; assumption|exact S].
Qed.
Lemma minv_run ops : forall p, minv p -> minv (fold_left run_mop ops p).
Proof. induction ops as [|o ops IH]; intros p H; [exact H|]. cbn [fold_left]. apply IH, minv_op, H. Qed.

(** ** SubCommToZero *)
Lemma sub_loop q m : Forall (fun row => 2 <= length (pk_keys R row)) m ->
  for_loop 0 (length m) (fun i m =>
    let! row := idx m i in
    let! k := idx (pk_keys R row) 1 in
    let! ks := set_idx (pk_keys R row) 1 (psub R k q) in
    set_idx m i (mkPK R (pk_decoy R row) ks)) m = Ok (map (sub_second q) m).
Proof.
  intros HF.
  edestruct (for_loop_inv (fun i m' => m' = map (sub_second q) (firstn i m) ++ skipn i m)) as [m' [E P]]; cycle 2.
  - rewrite E. f_equal. rewrite P. cbn [Nat.add]. rewrite firstn_all, skipn_all, app_nil_r. reflexivity.
  - reflexivity.
  - intros i m' Hi ->. cbn [Nat.add] in *.
    destruct (nth_error m i) as [row|] eqn:Er; [|apply nth_error_None in Er; lia].
    assert (L : length (map (sub_second q) (firstn i m)) = i) by (rewrite map_length, firstn_length; lia).
    assert (ES : skipn i m = row :: skipn (S i) m).
    { revert Er. clear. revert m. induction i as [|i IH]; intros [|y m] E; cbn in E; try discriminate; [injection E as ->; reflexivity|].
      cbn [skipn]. rewrite IH by exact E. reflexivity. }
    rewrite ES. unfold idx at 1. rewrite nth_error_app2, L, Nat.sub_diag by lia. cbn [nth_error bind].
    rewrite Forall_forall in HF. pose proof (HF row (nth_error_In _ _ Er)) as H2.
    destruct (pk_keys R row) as [|a [|b l]] eqn:EK; [cbn in H2; lia|cbn in H2; lia|].
    unfold idx. cbn [nth_error bind]. unfold set_idx at 1. cbn [length Nat.ltb Nat.leb bind upd].
    rewrite set_idx_ok by (rewrite app_length, L; cbn [length]; lia). eexists. split; [reflexivity|].
    rewrite (firstn_S_nth _ _ _ Er), map_app, <- app_assoc. cbn [map app].
    assert (EU : forall (x : list (pubkeys R)) y z t, length x = i -> upd (x ++ y :: z) i t = x ++ t :: z).
    { clear. induction i as [|i IH]; intros [|u x] y z t H; cbn in *; try lia; try reflexivity. f_equal. apply IH. lia. }
    rewrite (EU _ row _ _ L). f_equal. f_equal. unfold sub_second. rewrite EK. reflexivity.
Qed.
Lemma Sub_ok d q : Forall (fun row => 2 <= length (pk_keys R row)) (mp_matrix R (dk_proof R d)) ->
  SubCommToZero R d q = Ok (mkDK R (mkMP R (mp_index R (dk_proof R d)) (mp_priv R (dk_proof R d)) (mp_signer R (dk_proof R d))
    (map (sub_second q) (mp_matrix R (dk_proof R d))) (mp_msg R (dk_proof R d))) (dk_keys R d)).
Proof. intros H. unfold SubCommToZero. rewrite sub_loop by exact H. reflexivity. Qed.
Lemma Sub_panic d q : ~ Forall (fun row => 2 <= length (pk_keys R row)) (mp_matrix R (dk_proof R d)) -> SubCommToZero R d q = Panic.
Proof.
  intros H. unfold SubCommToZero. set (m := mp_matrix R (dk_proof R d)) in *.
  (* the first short row *)
  assert (X : exists a row b, m = a ++ row :: b /\ Forall (fun row => 2 <= length (pk_keys R row)) a /\ length (pk_keys R row) < 2).
  { clear - H. induction m as [|row m IH]; [exfalso; apply H; constructor|].
    destruct (Nat.lt_ge_cases (length (pk_keys R row)) 2) as [C|C].
    - exists [], row, m. repeat split; [constructor|exact C].
    - destruct IH as [a [r [b [-> [F L]]]]]; [intros G; apply H; constructor; assumption|].
      exists (row :: a), r, b. repeat split; [constructor; assumption|exact L]. }
  destruct X as [a [row [b [-> [F L]]]]].
  rewrite app_length. cbn [length]. replace (length a + S (length b)) with (length a + (1 + length b)) by lia.
  rewrite for_loop_app.
  assert (G : for_loop 0 (length a) (fun i m =>
    let! row := idx m i in
    let! k := idx (pk_keys R row) 1 in
    let! ks := set_idx (pk_keys R row) 1 (psub R k q) in
    set_idx m i (mkPK R (pk_decoy R row) ks)) (a ++ row :: b) = Ok (map (sub_second q) a ++ row :: b)).
  { edestruct (for_loop_inv (fun i m' => m' = map (sub_second q) (firstn i a) ++ skipn i a ++ row :: b)) as [m' [E P]]; cycle 2.
    - rewrite E. f_equal. rewrite P. cbn [Nat.add]. rewrite firstn_all, skipn_all. reflexivity.
    - reflexivity.
    - intros i m' Hi ->. cbn [Nat.add] in *.
      destruct (nth_error a i) as [r|] eqn:Er; [|apply nth_error_None in Er; lia].
      assert (L' : length (map (sub_second q) (firstn i a)) = i) by (rewrite map_length, firstn_length; lia).
      assert (ES : skipn i a = r :: skipn (S i) a).
      { revert Er. clear. revert a. induction i as [|i IH]; intros [|y m] E; cbn in E; try discriminate; [injection E as ->; reflexivity|].
        cbn [skipn]. rewrite IH by exact E. reflexivity. }
      rewrite ES. cbn [app]. unfold idx at 1. rewrite nth_error_app2, L', Nat.sub_diag by lia. cbn [nth_error bind].
      rewrite Forall_forall in F. pose proof (F r (nth_error_In _ _ Er)) as H2.
      destruct (pk_keys R r) as [|x [|y l]] eqn:EK; [cbn in H2; lia|cbn in H2; lia|].
      unfold idx. cbn [nth_error bind]. unfold set_idx at 1. cbn [length Nat.ltb Nat.leb bind upd].
      rewrite set_idx_ok by (rewrite app_length, L'; cbn [length]; lia). eexists. split; [reflexivity|].
      rewrite (firstn_S_nth _ _ _ Er), map_app, <- app_assoc. cbn [map app].
      assert (EU : forall (x : list (pubkeys R)) y z t, length x = i -> upd (x ++ y :: z) i t = x ++ t :: z).
      { clear. induction i as [|i IH]; intros [|u x] y z t H; cbn in *; try lia; try reflexivity. f_equal. apply IH. lia. }
      rewrite (EU _ r _ _ L'). f_equal. f_equal. unfold sub_second. rewrite EK. reflexivity. }
  rewrite G. cbn [bind Nat.add for_loop]. unfold idx at 1. rewrite nth_error_app2, map_length, Nat.sub_diag by (rewrite map_length; lia).
  cbn [nth_error bind]. rewrite (proj2 (idx_Panic (pk_keys R row) 1)) by lia. reflexivity.
Qed.

Lemma run_bop_inv p o p' : minv p -> Forall (fun row => pk_decoy R row = true) (mp_matrix R p) -> run_bop p o = Ok p' ->
  minv p' /\ Forall (fun row => pk_decoy R row = true) (mp_matrix R p').
Proof.
  intros I0 D E. destruct o as [k|x|m|q]; cbn [run_bop] in E.
  - injection E as <-. split; [apply (minv_op p (ODecoy k) I0)|]. cbn [AddDecoy addPubKeys mp_matrix]. apply Forall_app. split; [exact D|]. constructor; [reflexivity|constructor].
  - injection E as <-. split; [apply (minv_op p (OSecret x) I0)|exact D].
  - injection E as <-. split; [apply (minv_op p (OMsg m) I0)|exact D].
  - destruct (SubCommToZero R (mkDK R p []) q) as [d|e|] eqn:ES; cbn [bind] in E; try discriminate. injection E as <-.
    assert (F : Forall (fun row => 2 <= length (pk_keys R row)) (mp_matrix R p)).
    { destruct (Forall_dec (fun row => 2 <= length (pk_keys R row)) (fun row => le_dec 2 (length (pk_keys R row))) (mp_matrix R p)) as [F|F]; [exact F|].
      rewrite (Sub_panic (mkDK R p []) q) in ES by exact F. discriminate. }
    rewrite (Sub_ok (mkDK R p []) q) in ES by exact F. injection ES as <-. cbn [dk_proof mp_matrix mp_priv].
    assert (D' : Forall (fun row => pk_decoy R row = true) (map (sub_second q) (mp_matrix R p))).
    { apply Forall_map. revert D. apply Forall_impl. intros row H. exact H. }
    split; [|exact D']. destruct I0 as [I1 I2]. split; [exact I1|]. cbn [mp_matrix mp_priv]. revert D'. apply Forall_impl. intros row H C. congruence.
Qed.
Lemma run_bops_inv ops : forall p p', minv p -> Forall (fun row => pk_decoy R row = true) (mp_matrix R p) ->
  run_all (fun o p => run_bop p o) ops p = Ok p' -> minv p' /\ Forall (fun row => pk_decoy R row = true) (mp_matrix R p').
Proof.
  induction ops as [|o ops IH]; intros p p' I0 D E; cbn [run_all] in E; [injection E as <-; auto|].
  destruct (run_bop p o) as [p1|e|] eqn:E1; cbn [bind] in E; try discriminate.
  destruct (run_bop_inv p o p1 I0 D E1) as [I1 D1]. apply (IH p1 p' I1 D1 E).
Qed.

(** ** Outcome of prove *)
Context (OK : rist_ok R).
Definition regular (p : mproof R) : Prop := Forall (fun row => length (pk_keys R row) = length (mp_priv R p)) (mp_matrix R p).
Lemma pubs_length priv : length (pubs priv) = length priv. Proof. apply map_length. Qed.

Lemma shuffled_regular p p' : minv p -> shuffled p p' -> (regular p' <-> regular p).
Proof.
  intros [I1 I2] [S1 [S2 [S3 [S4 _]]]]. unfold regular. rewrite S1.
  assert (X : Forall (fun row => length (pk_keys R row) = length (mp_priv R p)) [mkPK R false (pk_keys R (mp_signer R p))]).
  { constructor; [|constructor]. cbn [pk_keys]. rewrite I1. apply pubs_length. }
  split; intros H.
  - apply Permutation_sym in S4. apply (Permutation_Forall S4) in H. apply Forall_app in H. tauto.
  - apply (Permutation_Forall S4). apply Forall_app. auto.
Qed.
Lemma shuffled_ring p p' : minv p -> shuffled p p' -> regular p ->
  (forall i row, nth_error (mp_matrix R p') i = Some row -> length (pk_keys R row) = length (mp_priv R p')) /\
  pk_keys R (mp_signer R p') = pubs (mp_priv R p') /\
  (exists row, nth_error (mp_matrix R p') (mp_index R p') = Some row /\ pk_keys R row = pubs (mp_priv R p')) /\
  length (mp_matrix R p') = length (mp_matrix R p) + 1.
Proof.
  intros I0 S HR. pose proof (shuffled_inv p p' I0 S) as I1. pose proof (proj2 (shuffled_regular p p' I0 S) HR) as HR'.
  unfold regular in HR'. rewrite Forall_forall in HR'. destruct I1 as [J1 J2]. destruct S as [S1 [S2 [S3 [S4 [row [E [D _]]]]]]].
  split; [intros i r Er; apply HR', (nth_error_In _ _ Er)|]. split; [exact J1|]. split.
  - exists row. split; [exact E|]. rewrite Forall_forall in J2. destruct (J2 row (nth_error_In _ _ E) D) as [tl Et].
    pose proof (HR' row (nth_error_In _ _ E)) as L. apply (f_equal (@length _)) in Et as L2. rewrite app_length, pubs_length in L2.
    destruct tl; [rewrite app_nil_r in Et; congruence|cbn in L2; lia].
  - rewrite <- (Permutation_length S4), app_length. reflexivity.
Qed.

Lemma prove_irregular p sk js rs : minv p -> ~ regular p ->
  fst (prove R p sk js rs) = Err "all vectors in the pubkey matrix must be the same size"%string.
Proof.
  intros I0 N. destruct (prove_snd p sk js rs) as [p' [_ [S E]]]. rewrite E. cbn [fst]. unfold prove_shuffled.
  destruct (forallb _ (mp_matrix R p')) eqn:D; [|reflexivity]. exfalso. apply N. apply (shuffled_regular p p' I0 S).
  unfold regular. rewrite Forall_forall. intros row Hin. rewrite forallb_forall in D. apply Nat.eqb_eq. apply (D row Hin).
Qed.
Lemma prove_regular p sk js rs : minv p -> regular p -> mp_matrix R p <> [] -> andb sk (Nat.eqb (length (mp_priv R p)) 0) = false ->
  exists sg, fst (prove R p sk js rs) = Ok (sg, images (mp_priv R p) sk) /\
    sg_pub R sg = mp_matrix R (snd (prove R p sk js rs)) /\ sg_msg R sg = mp_msg R p /\
    length (sg_r R sg) = length (mp_matrix R p) + 1 /\
    (images (R := R) (mp_priv R p) sk <> [] -> sig_Verify R sg (images (mp_priv R p) sk) = Ok true).
Proof.
  intros I0 HR HM HL. destruct (prove_snd p sk js rs) as [p' [_ [S E]]]. rewrite E. cbn [fst snd].
  destruct (shuffled_ring p p' I0 S HR) as [G1 [G2 [G3 G4]]].
  assert (HN : 2 <= length (mp_matrix R p')) by (rewrite G4; destruct (mp_matrix R p); [congruence|cbn; lia]).
  pose proof S as [S1 [_ [S3 _]]]. rewrite <- S1 in HL.
  pose proof (prove_shuffled_ok p' sk rs G1 G2 G3 HN HL) as X.
  pose proof (honest_verifies OK p' sk rs G1 G3 HN) as Y. rewrite S1 in X, Y.
  eexists. split; [exact X|]. split; [reflexivity|]. split; [exact S3|].
  split; [cbn [honest_sig sg_r]; rewrite upd_length, responses_length; exact G4|]. exact Y.
Qed.
Lemma prove_alone p sk js rs : minv p -> mp_matrix R p = [] -> mp_priv R p <> [] -> fst (prove R p sk js rs) = Panic.
Proof.
  intros I0 HM HP. destruct (prove_snd p sk js rs) as [p' [_ [S E]]]. rewrite E. cbn [fst].
  assert (HR : regular p) by (unfold regular; rewrite HM; constructor).
  destruct (shuffled_ring p p' I0 S HR) as [G1 [G2 [[row [Er Ek]] G4]]]. rewrite HM in G4. cbn in G4.
  pose proof S as [S1 _]. rewrite <- S1 in HP.
  assert (E0 : mp_index R p' = 0). { assert (mp_index R p' < length (mp_matrix R p')) by (apply nth_error_Some; congruence). lia. }
  destruct (mp_matrix R p') as [|row' [|]] eqn:EM; try discriminate. rewrite E0 in Er. cbn in Er. injection Er as ->.
  unfold prove_shuffled. rewrite EM, E0. pose proof (G1 0 row eq_refl) as L. cbn [forallb]. unfold pk_Len. rewrite L, Nat.eqb_refl. cbn [andb negb].
  assert (NZ : length (mp_priv R p') <> 0) by (destruct (mp_priv R p'); [congruence|discriminate]).
  rewrite calculateKeyImages_ok by exact G2. rewrite (proj2 (Nat.eqb_neq _ _) NZ), andb_false_r. cbn [bind].
  set (priv := mp_priv R p') in *. set (I := images priv sk).
  unfold idx at 1. cbn [nth_error bind].
  rewrite (for_loop_ext _ (fun i buf => let! x := (let! a := idx (generateNonces rs (length priv)) i in Ok (pbytes R (a [*] pbase R))) in Ok (buf ++ x))).
  2:{ intros i st. destruct (idx _ i); reflexivity. }
  assert (LN : length (generateNonces rs (length priv)) = length priv) by (unfold generateNonces; rewrite map_length; apply seq_length).
  rewrite (app_loop _ (fun i => pbytes R (nth i (generateNonces rs (length priv)) f0 [*] pbase R))).
  2:{ intros i Hi. rewrite (idx_nth _ i f0) by lia. reflexivity. }
  cbn [bind].
  rewrite (for_loop_ext _ (fun i buf => let! x := (let! a := idx (generateNonces rs (length priv)) i in let! K := idx (pk_keys R row) i in
    Ok (pbytes R (a [*] pderive R (pbytes R K)))) in Ok (buf ++ x))).
  2:{ intros i st. destruct (idx _ i); cbn [bind]; try reflexivity. destruct (idx _ i); reflexivity. }
  assert (LI : length I <= length priv) by (unfold I; rewrite images_length; destruct sk; lia).
  rewrite (app_loop _ (fun i => pbytes R (nth i (generateNonces rs (length priv)) f0 [*] pderive R (pbytes R (nth i (pk_keys R row) (pt0 R)))))).
  2:{ intros i Hi. rewrite (idx_nth _ i f0) by lia. cbn [bind]. rewrite (idx_nth _ i (pt0 R)) by lia. reflexivity. }
  cbn [bind]. cbn [length]. replace ((0 + 1) mod 1) with 0 by reflexivity. cbn [repeat]. unfold set_idx at 1. cbn [length Nat.ltb Nat.leb bind upd].
  change (1 + 2) with 3. cbn [ring_loop]. change (Nat.eqb (0 + 2) 0) with false. cbv iota. change ((0 + 2) mod 1) with 0. change (prev_index 0 1) with 0.
  unfold idx at 1. unfold generateResponses at 1. cbn [seq fold_left Nat.eqb app fst nth_error bind]. unfold idx at 1. cbn [nth_error bind].
  rewrite generateChallenge_panic; [reflexivity|]. cbn [length]. lia.
Qed.

Lemma bind_Ok {A B} (r : res A) (k : A -> res B) b : bind r k = Ok b -> exists a, r = Ok a /\ k a = Ok b.
Proof. destruct r; cbn; try discriminate. eauto. Qed.
Lemma prove_images p sk js rs sg J p' : minv p -> prove R p sk js rs = (Ok (sg, J), p') -> J = images (mp_priv R p) sk.
Proof.
  intros I0 E. destruct (prove_snd p sk js rs) as [q [_ [S E1]]]. rewrite E in E1. injection E1 as E1 _. symmetry in E1.
  pose proof (proj1 (shuffled_inv p q I0 S)) as Q. pose proof (proj1 S) as S1. unfold prove_shuffled in E1. destruct (negb _); [discriminate|].
  apply bind_Ok in E1. destruct E1 as [K [E2 E1]]. rewrite calculateKeyImages_ok in E2 by exact Q. rewrite S1 in E2. destruct (andb _ _); [discriminate|].
  injection E2 as <-.
  repeat (apply bind_Ok in E1; let a := fresh "a" in destruct E1 as [a [_ E1]]; try destruct a as [a ?]).
  injection E1 as _ E1. symmetry. exact E1.
Qed.

(** ** Special soundness *)
Lemma extract K J (r r' : list F) c c' : length J <= length K -> length K <= length r -> length K <= length r' -> c <> c' ->
  row_points R J K r c = row_points R J K r' c' ->
  forall j k a b, nth_error K j = Some k -> nth_error r j = Some a -> nth_error r' j = Some b ->
  let x := fmul (fsub a b) (finv (fsub c' c)) in
  k = x [*] pbase R /\ forall im, nth_error J j = Some im -> im = x [*] pderive R (pbytes R k).
Proof.
  intros H1 H2 H3 N E j k a b Ek Ea Eb x. unfold row_points in E.
  assert (NZ : fsub c' c <> f0). { intros C. apply N. transitivity (fsub c' (fsub c' c)); [ring|]. rewrite C. ring. }
  assert (HX : fmul (fsub c' c) x = fsub a b). { unfold x. transitivity (fmul (fsub a b) (fmul (finv (fsub c' c)) (fsub c' c))); [ring|]. rewrite finv_l by exact NZ. ring. }
  assert (LZ : forall A B C (f : A -> B -> C) u v, length v <= length u -> length (zipw f u v) = length v).
  { intros A B C f u. induction u as [|y u IH]; intros [|z v] L; cbn in *; try lia. rewrite IH; lia. }
  set (Z1 := zipw (fun r k => r [*] pbase R [+] c [*] k) r K) in *.
  set (Z2 := zipw (fun r k => r [*] pbase R [+] c' [*] k) r' K) in *.
  assert (L1 : length Z1 = length K) by (apply LZ; lia). assert (L2 : length Z2 = length K) by (apply LZ; lia).
  assert (E12 : Z1 = Z2 /\ zipw (fun r ki => r [*] pderive R (pbytes R (fst ki)) [+] c [*] snd ki) r (combine K J) =
     zipw (fun r ki => r [*] pderive R (pbytes R (fst ki)) [+] c' [*] snd ki) r' (combine K J)).
  { revert E. revert L1 L2. generalize Z1 Z2. clear. intros Z1 Z2 L1 L2 E.
    assert (G : forall (a b c d : list (pt R)), length a = length c -> a ++ b = c ++ d -> a = c /\ b = d).
    { clear. induction a as [|x a IH]; intros b [|y c] d L E; try discriminate; cbn in *; [auto|].
      injection E as -> E. apply IH in E; [|lia]. destruct E as [-> ->]. auto. }
    refine (G _ _ _ _ _ E). congruence. }
  destruct E12 as [E1 E2].
  assert (LIN : forall p q, a [*] p [+] c [*] q = b [*] p [+] c' [*] q -> q = x [*] p).
  { intros p q EQ. apply (smul_inj_r OK (fsub c' c)); [exact NZ|]. rewrite <- (smul_mul R OK), HX.
    transitivity ((b [*] p [+] c' [*] q) [+] fneg b [*] p [+] fneg c [*] q); [lin OK|]. rewrite <- EQ. lin OK. }
  split.
  - apply LIN. pose proof (zipw_nth (fun r k => r [*] pbase R [+] c [*] k) r K j a k Ea Ek) as X1. fold Z1 in X1.
    pose proof (zipw_nth (fun r k => r [*] pbase R [+] c' [*] k) r' K j b k Eb Ek) as X2. fold Z2 in X2. congruence.
  - intros im Ei. apply LIN. pose proof (combine_nth_error K J j k im Ek Ei) as EC.
    pose proof (zipw_nth (fun r ki => r [*] pderive R (pbytes R (fst ki)) [+] c [*] snd ki) r (combine K J) j a (k, im) Ea EC) as X1.
    pose proof (zipw_nth (fun r ki => r [*] pderive R (pbytes R (fst ki)) [+] c' [*] snd ki) r' (combine K J) j b (k, im) Eb EC) as X2.
    rewrite E2, X2 in X1. cbn [fst snd] in X1. congruence.
Qed.
Lemma hashed_points msg J K r c r' c' :
  let hashed r c := msg ++ concat (map (pbytes R) (row_points R J K r c)) in
  hashed r c = hashed r' c' -> row_points R J K r c = row_points R J K r' c'.
Proof.
  cbv zeta. intros D. apply app_inv_head in D. apply (concat_fixed_inj 32) in D; [|discriminate| |].
  - revert D. generalize (row_points R J K r c) (row_points R J K r' c'). induction l as [|x l IH]; intros [|y m] D; try discriminate; [reflexivity|].
    cbn in D. injection D as D1 D2. apply (pbytes_inj OK) in D1. rewrite D1, (IH _ D2). reflexivity.
  - apply Forall_map, Forall_forall. intros x _. apply (pbytes_len R OK).
  - apply Forall_map, Forall_forall. intros x _. apply (pbytes_len R OK).
Qed.

(** ** DualKey *)
Lemma dk_zero d k0 k1 l js rs : dk_keys R d = k0 :: k1 :: l -> k0 = f0 \/ k1 = f0 ->
  dk_Prove R d js rs = (Err "primary key or commitment to zero cannot be zero"%string, d).
Proof.
  intros E Z. unfold dk_Prove. rewrite E.
  replace (orb (feqb k0 f0) (feqb k1 f0)) with true; [reflexivity|]. symmetry. apply orb_true_iff.
  destruct Z as [-> | ->]; rewrite feqb_refl; auto.
Qed.
Definition dk_fresh (d : dualkey R) : Prop :=
  mp_priv R (dk_proof R d) = [] /\ pk_keys R (mp_signer R (dk_proof R d)) = [] /\
  Forall (fun row => pk_decoy R row = true) (mp_matrix R (dk_proof R d)).
Lemma dk_fresh_inv d k0 k1 : dk_fresh d -> let p := AddSecret R (AddSecret R (dk_proof R d) k0) k1 in
  minv p /\ mp_priv R p = [k0; k1] /\ mp_matrix R p = mp_matrix R (dk_proof R d).
Proof.
  intros [F1 [F2 F3]]. cbv zeta. unfold minv, AddSecret, AddPubKey. cbn [mp_priv mp_signer mp_matrix pk_keys pk_decoy]. rewrite F1, F2. cbn [app].
  split; [|auto]. split; [reflexivity|]. cbn [mp_matrix mp_priv]. revert F3. apply Forall_impl. intros row H C. congruence.
Qed.
Lemma dk_ok d k0 k1 l js rs : dk_fresh d -> dk_keys R d = k0 :: k1 :: l -> k0 <> f0 -> k1 <> f0 -> mp_matrix R (dk_proof R d) <> [] ->
  Forall (fun row => length (pk_keys R row) = 2) (mp_matrix R (dk_proof R d)) ->
  exists sg d', dk_Prove R d js rs = (Ok (sg, key_image R k0), d') /\ sg_msg R sg = mp_msg R (dk_proof R d) /\
    Permutation (mp_matrix R (dk_proof R d) ++ [mkPK R false [k0 [*] pbase R; k1 [*] pbase R]]) (sg_pub R sg) /\
    sig_Verify R sg [key_image R k0] = Ok true.
Proof.
  intros HF EK N0 N1 HM HR. destruct (dk_fresh_inv d k0 k1 HF) as [I0 [EP EM]]. unfold dk_Prove. rewrite EK.
  destruct (feqb_spec k0 f0) as [C|_]; [contradiction|]. destruct (feqb_spec k1 f0) as [C|_]; [contradiction|]. cbn [orb].
  set (p := AddSecret R (AddSecret R (dk_proof R d) k0) k1) in *.
  destruct (prove_regular p true js rs) as [sg [E [E1 [E2 [_ E3]]]]].
  - exact I0.
  - unfold regular. rewrite EM, EP. exact HR.
  - rewrite EM. exact HM.
  - rewrite EP. reflexivity.
  - rewrite EP in E, E3. cbn [images map removelast] in E, E3.
    assert (P : Permutation (mp_matrix R (dk_proof R d) ++ [mkPK R false [k0 [*] pbase R; k1 [*] pbase R]]) (sg_pub R sg)).
    { rewrite E1. destruct (prove_snd p true js rs) as [p' [_ [S ES]]]. rewrite ES. cbn [snd]. destruct S as [_ [_ [_ [S4 _]]]].
      rewrite EM in S4. assert (EQ : pk_keys R (mp_signer R p) = [k0 [*] pbase R; k1 [*] pbase R]).
      { transitivity (pubs (mp_priv R p)); [apply I0|]. rewrite EP. reflexivity. }
      rewrite EQ in S4. exact S4. }
    destruct (prove R p true js rs) as [r p']. cbn [fst] in E. subst r. do 2 eexists. split; [reflexivity|].
    split; [exact E2|]. split; [exact P|]. apply E3. discriminate.
Qed.
Lemma dk_irregular d k0 k1 l js rs : dk_keys R d = k0 :: k1 :: l ->
  Exists (fun row => length (pk_keys R row) <> length (mp_priv R (dk_proof R d)) + 2) (mp_matrix R (dk_proof R d)) ->
  fst (dk_Prove R d js rs) = Err (if orb (feqb k0 f0) (feqb k1 f0) then "primary key or commitment to zero cannot be zero" else "all vectors in the pubkey matrix must be the same size")%string.
Proof.
  intros EK HX. unfold dk_Prove. rewrite EK. destruct (orb _ _); [reflexivity|].
  set (p := AddSecret R (AddSecret R (dk_proof R d) k0) k1) in *.
  destruct (prove_snd p true js rs) as [p' [_ [S E]]]. rewrite E.
  replace (prove_shuffled R p' true rs) with (Err "all vectors in the pubkey matrix must be the same size"%string : res (sig R * list (pt R))).
  - reflexivity.
  - unfold prove_shuffled. destruct (forallb _ (mp_matrix R p')) eqn:D; [|reflexivity]. exfalso.
    apply Exists_exists in HX. destruct HX as [row [Hin Hl]]. destruct S as [S1 [_ [_ [S4 _]]]].
    assert (X : In row (mp_matrix R p')). { apply (Permutation_in _ S4). apply in_app_iff. left. exact Hin. }
    rewrite forallb_forall in D. apply D in X. apply Nat.eqb_eq in X. apply Hl. unfold pk_Len in X. rewrite X, S1.
    unfold p. cbn [AddSecret mp_priv]. rewrite !app_length. cbn [length]. lia.
Qed.

(** a fresh dual key alone, or with a decoy of another size *)
Lemma dk_alone d k0 k1 l js rs : dk_fresh d -> dk_keys R d = k0 :: k1 :: l -> k0 <> f0 -> k1 <> f0 -> mp_matrix R (dk_proof R d) = [] ->
  fst (dk_Prove R d js rs) = Panic.
Proof.
  intros HF EK N0 N1 HM. destruct (dk_fresh_inv d k0 k1 HF) as [I0 [EP EM]]. unfold dk_Prove. rewrite EK.
  destruct (feqb_spec k0 f0) as [C|_]; [contradiction|]. destruct (feqb_spec k1 f0) as [C|_]; [contradiction|]. cbn [orb].
  set (p := AddSecret R (AddSecret R (dk_proof R d) k0) k1) in *.
  pose proof (prove_alone p true js rs I0 ltac:(rewrite EM; exact HM) ltac:(rewrite EP; discriminate)) as X.
  destruct (prove R p true js rs) as [r p']. cbn [fst] in X. subst r. reflexivity.
Qed.
Lemma dk_uneven d k0 k1 l js rs : dk_fresh d -> dk_keys R d = k0 :: k1 :: l -> k0 <> f0 -> k1 <> f0 ->
  Exists (fun row => length (pk_keys R row) <> 2) (mp_matrix R (dk_proof R d)) ->
  fst (dk_Prove R d js rs) = Err "all vectors in the pubkey matrix must be the same size"%string.
Proof.
  intros HF EK N0 N1 HX. destruct (dk_fresh_inv d k0 k1 HF) as [I0 [EP EM]]. unfold dk_Prove. rewrite EK.
  destruct (feqb_spec k0 f0) as [C|_]; [contradiction|]. destruct (feqb_spec k1 f0) as [C|_]; [contradiction|]. cbn [orb].
  set (p := AddSecret R (AddSecret R (dk_proof R d) k0) k1) in *.
  assert (N : ~ regular p).
  { unfold regular. rewrite EM, EP. intros F. rewrite Forall_forall in F. apply Exists_exists in HX. destruct HX as (row & Hin & Hl). apply Hl, F, Hin. }
  pose proof (prove_irregular p true js rs I0 N) as X.
  destruct (prove R p true js rs) as [r p']. cbn [fst] in X. subst r. reflexivity.
Qed.

(** a row that is too short for ever *)
Definition stuck (d : dualkey R) : Prop :=
  (exists k0 k1 l, dk_keys R d = k0 :: k1 :: l) /\
  length (pk_keys R (mp_signer R (dk_proof R d))) = length (mp_priv R (dk_proof R d)) /\
  Exists (fun row => length (pk_keys R row) <= length (mp_priv R (dk_proof R d))) (mp_matrix R (dk_proof R d)).
Lemma stuck_Err d js rs : stuck d -> exists a b l, dk_keys R d = a :: b :: l /\
  fst (dk_Prove R d js rs) = Err (if orb (feqb a f0) (feqb b f0) then "primary key or commitment to zero cannot be zero" else "all vectors in the pubkey matrix must be the same size")%string.
Proof.
  intros [[k0 [k1 [l EK]]] [ES HX]]. exists k0, k1, l. split; [exact EK|]. apply (dk_irregular d k0 k1 l js rs EK). revert HX. apply Exists_impl. intros row H. lia.
Qed.
Lemma dk_Prove_stuck d k0 k1 l js rs : dk_keys R d = k0 :: k1 :: l -> k0 <> f0 -> k1 <> f0 ->
  length (pk_keys R (mp_signer R (dk_proof R d))) = length (mp_priv R (dk_proof R d)) -> stuck (snd (dk_Prove R d js rs)).
Proof.
  intros EK N0 N1 ES. unfold dk_Prove. rewrite EK.
  destruct (feqb_spec k0 f0) as [C|_]; [contradiction|]. destruct (feqb_spec k1 f0) as [C|_]; [contradiction|]. cbn [orb].
  set (p := AddSecret R (AddSecret R (dk_proof R d) k0) k1) in *.
  destruct (prove_snd p true js rs) as [p' [_ [S E]]]. rewrite E. cbn [snd].
  assert (ESp : length (pk_keys R (mp_signer R p)) = length (mp_priv R p)).
  { unfold p. cbn [AddSecret AddPubKey mp_signer mp_priv pk_keys]. rewrite !app_length, ES. reflexivity. }
  destruct S as [S1 [S2 [_ [S4 _]]]]. unfold stuck. cbn [dk_keys dk_proof]. split; [do 3 eexists; reflexivity|].
  split; [rewrite S2, S1; exact ESp|]. rewrite S1. apply Exists_exists. eexists. split.
  - apply (Permutation_in _ S4). apply in_app_iff. right. left. reflexivity.
  - cbn [pk_keys]. rewrite ESp. lia.
Qed.
Lemma stuck_step o d d' : stuck d -> run_dop o d = Ok d' -> stuck d'.
Proof.
  intros [[k0 [k1 [l EK]]] [ES HX]] E. destruct o as [k|x|m|x|x|q|js rs]; cbn [run_dop] in E.
  - injection E as <-. unfold stuck, on_proof. cbn. split; [eauto|]. split; [exact ES|]. apply Exists_app. left. exact HX.
  - injection E as <-. unfold stuck, on_proof. cbn. split; [eauto|]. split; [rewrite !app_length, ES; reflexivity|].
    revert HX. apply Exists_impl. intros row H. rewrite app_length. lia.
  - injection E as <-. unfold stuck, on_proof. cbn. split; [eauto|]. auto.
  - unfold SetPrimaryKey in E. rewrite EK in E. cbn in E. injection E as <-. unfold stuck. cbn. split; [eauto|]. auto.
  - unfold SetCommToZero in E. rewrite EK in E. cbn in E. injection E as <-. unfold stuck. cbn. split; [eauto|]. auto.
  - assert (F : Forall (fun row => 2 <= length (pk_keys R row)) (mp_matrix R (dk_proof R d))).
    { destruct (Forall_dec (fun row => 2 <= length (pk_keys R row)) (fun row => le_dec 2 (length (pk_keys R row))) (mp_matrix R (dk_proof R d))) as [F|F]; [exact F|].
      rewrite (Sub_panic d q) in E by exact F. discriminate. }
    rewrite (Sub_ok d q) in E by exact F. injection E as <-. unfold stuck. cbn [dk_keys dk_proof mp_signer mp_priv mp_matrix].
    split; [eauto|]. split; [exact ES|]. apply Exists_exists in HX. destruct HX as [row [Hin Hl]].
    apply Exists_exists. exists (sub_second q row). split; [apply in_map; exact Hin|]. unfold sub_second. cbn [pk_keys].
    destruct (pk_keys R row) as [|a [|b t]]; cbn in *; exact Hl.
  - assert (EE : d' = snd (dk_Prove R d js rs)) by (destruct (fst (dk_Prove R d js rs)); congruence). subst d'.
    destruct (feqb_spec k0 f0) as [C|N0]; [rewrite (dk_zero d k0 k1 l js rs EK (or_introl C)); cbn [snd]; split; [do 3 eexists; exact EK|split; [exact ES|exact HX]]|].
    destruct (feqb_spec k1 f0) as [C|N1]; [rewrite (dk_zero d k0 k1 l js rs EK (or_intror C)); cbn [snd]; split; [do 3 eexists; exact EK|split; [exact ES|exact HX]]|].
    apply (dk_Prove_stuck d k0 k1 l js rs EK N0 N1 ES).
Qed.
Lemma stuck_run ops : forall d d', stuck d -> run_all run_dop ops d = Ok d' -> stuck d'.
Proof.
  induction ops as [|o ops IH]; intros d d' S E; cbn [run_all] in E; [injection E as <-; exact S|].
  destruct (run_dop o d) as [d1|e|] eqn:E1; cbn [bind] in E; try discriminate. apply (IH d1 d' (stuck_step o d d1 S E1) E).
Qed.

(** ** Equality *)
Lemma eqloop {A} (f : A -> A -> res bool) (g : A -> A -> bool) (a b : list A) : length a <= length b ->
  (forall x y, In x a -> f x y = Ok (g x y)) -> forall acc lo pre pre', length pre = lo -> length pre' = lo ->
  for_loop lo (length a) (fun i ok => if negb ok then Ok ok else let! x := idx (pre ++ a) i in let! y := idx (pre' ++ b) i in f x y) acc =
  Ok (andb acc (forallb (fun '(x, y) => g x y) (combine a b))).
Proof.
  revert b. induction a as [|x a IH]; intros b L H acc lo pre pre' Lp Lp'; cbn [length for_loop combine forallb].
  - rewrite andb_true_r. reflexivity.
  - destruct b as [|y b]; [cbn in L; lia|]. destruct acc; cbn [negb bind].
    + unfold idx at 1. rewrite nth_error_app2, Lp, Nat.sub_diag by lia. cbn [nth_error bind].
      unfold idx at 1. rewrite nth_error_app2, Lp', Nat.sub_diag by lia. cbn [nth_error bind].
      rewrite H by (left; reflexivity). cbn [bind andb combine forallb].
      specialize (IH b ltac:(cbn in L; lia) (fun x y Hx => H x y (or_intror Hx)) (g x y) (1 + lo) (pre ++ [x]) (pre' ++ [y])).
      rewrite <- !app_assoc in IH. cbn [app Nat.add] in IH. cbn [Nat.add]. rewrite IH by (rewrite app_length; cbn; lia). reflexivity.
    + specialize (IH b ltac:(cbn in L; lia) (fun x y Hx => H x y (or_intror Hx)) false (1 + lo) (pre ++ [x]) (pre' ++ [y])).
      rewrite <- !app_assoc in IH. cbn [app Nat.add] in IH. cbn [Nat.add]. rewrite IH by (rewrite app_length; cbn; lia). reflexivity.
Qed.
Lemma forallb_eq {A} (e : A -> A -> bool) (E : forall x y, e x y = true <-> x = y) a b : length a = length b ->
  forallb (fun '(x, y) => e x y) (combine a b) = true <-> a = b.
Proof.
  revert b. induction a as [|x a IH]; intros [|y b] L; try discriminate; [cbn; tauto|]. cbn [combine forallb].
  rewrite andb_true_iff, E, IH by (cbn in L; lia). split; [intros [-> ->]; reflexivity|intros H; injection H as -> ->; auto].
Qed.
Lemma rsp_Equals_ok a b : exists e, rsp_Equals a b = Ok e /\ (e = true <-> a = b).
Proof.
  unfold rsp_Equals. destruct (Nat.eqb_spec (length a) (length b)) as [L|L]; cbn [negb].
  - pose proof (eqloop (fun x y => Ok (feqb x y)) feqb a b ltac:(lia) (fun _ _ _ => eq_refl) true 0 [] [] eq_refl eq_refl) as X. cbn [app] in X.
    rewrite X. eexists. split; [reflexivity|]. cbn [andb]. apply forallb_eq; [|exact L]. intros x y. apply feqb_eq.
  - exists false. split; [reflexivity|]. split; [discriminate|]. intros ->. congruence.
Qed.
Lemma pk_Equals_ok a b : exists e, pk_Equals R a b = Ok e /\ (e = true <-> pk_keys R a = pk_keys R b).
Proof.
  unfold pk_Equals. destruct (Nat.eqb_spec (length (pk_keys R a)) (length (pk_keys R b))) as [L|L]; cbn [negb].
  - pose proof (eqloop (fun x y => Ok (peqb R x y)) (peqb R) (pk_keys R a) (pk_keys R b) ltac:(lia) (fun _ _ _ => eq_refl) true 0 [] [] eq_refl eq_refl) as X. cbn [app] in X.
    rewrite X. eexists. split; [reflexivity|]. cbn [andb]. apply forallb_eq; [|exact L]. intros x y. apply (peqb_ok R OK).
  - exists false. split; [reflexivity|]. split; [discriminate|]. intros C. rewrite C in L. congruence.
Qed.
Definition rsp_eqb (a b : list F) : bool := match rsp_Equals a b with Ok e => e | _ => false end.
Lemma rsp_eqb_ok a b : rsp_Equals a b = Ok (rsp_eqb a b).
Proof. unfold rsp_eqb. destruct (rsp_Equals_ok a b) as [e [-> _]]. reflexivity. Qed.
Lemma rsp_eqb_eq a b : rsp_eqb a b = true <-> a = b.
Proof. destruct (rsp_Equals_ok a b) as [e [E H]]. rewrite rsp_eqb_ok in E. injection E as ->. exact H. Qed.
Definition pk_eqb (a b : pubkeys R) : bool := match pk_Equals R a b with Ok e => e | _ => false end.
Lemma pk_eqb_ok a b : pk_Equals R a b = Ok (pk_eqb a b).
Proof. unfold pk_eqb. destruct (pk_Equals_ok a b) as [e [-> _]]. reflexivity. Qed.
Lemma pk_eqb_eq a b : pk_eqb a b = true <-> pk_keys R a = pk_keys R b.
Proof. destruct (pk_Equals_ok a b) as [e [E H]]. rewrite pk_eqb_ok in E. injection E as ->. exact H. Qed.
Lemma prefix_eq {A} (e : A -> A -> bool) (E : forall x y, e x y = true <-> x = y) a b : length a <= length b ->
  forallb (fun '(x, y) => e x y) (combine a b) = true <-> exists tl, b = a ++ tl.
Proof.
  revert b. induction a as [|x a IH]; intros b L; [split; [intros _; exists b; reflexivity|reflexivity]|].
  destruct b as [|y b]; [cbn in L; lia|]. cbn [combine forallb]. rewrite andb_true_iff, E, IH by (cbn in L; lia). split.
  - intros [-> [tl ->]]. exists tl. reflexivity.
  - intros [tl H]. injection H as -> ->. split; [reflexivity|]. exists tl. reflexivity.
Qed.
Lemma sig_Equals_nokeys s o : length (sg_r R s) <= length (sg_r R o) ->
  exists e, sig_Equals R s o false = Ok e /\ (e = true <-> sg_c R s = sg_c R o /\ exists tl, sg_r R o = sg_r R s ++ tl).
Proof.
  intros L. unfold sig_Equals. destruct (feqb_spec (sg_c R s) (sg_c R o)) as [EC|EC]; cbn [negb].
  - pose proof (eqloop rsp_Equals rsp_eqb (sg_r R s) (sg_r R o) L (fun x y _ => rsp_eqb_ok x y) true 0 [] [] eq_refl eq_refl) as X. cbn [app] in X.
    rewrite X. cbn [bind andb]. pose proof (prefix_eq rsp_eqb rsp_eqb_eq (sg_r R s) (sg_r R o) L) as P.
    destruct (forallb _ _); cbn [negb]; eexists; (split; [reflexivity|]); split; intros; try discriminate; try tauto.
  - exists false. split; [reflexivity|]. split; [discriminate|]. tauto.
Qed.
Lemma sig_Equals_keys s o : length (sg_r R s) <= length (sg_r R o) ->
  exists e, sig_Equals R s o true = Ok e /\ (e = true <-> sg_c R s = sg_c R o /\ (exists tl, sg_r R o = sg_r R s ++ tl) /\
    map (pk_keys R) (sg_pub R s) = map (pk_keys R) (sg_pub R o)).
Proof.
  intros L. unfold sig_Equals. destruct (feqb_spec (sg_c R s) (sg_c R o)) as [EC|EC]; cbn [negb].
  - pose proof (eqloop rsp_Equals rsp_eqb (sg_r R s) (sg_r R o) L (fun x y _ => rsp_eqb_ok x y) true 0 [] [] eq_refl eq_refl) as X. cbn [app] in X.
    rewrite X. cbn [bind andb]. pose proof (prefix_eq rsp_eqb rsp_eqb_eq (sg_r R s) (sg_r R o) L) as P.
    destruct (forallb _ (combine (sg_r R s) (sg_r R o))); cbn [negb].
    + destruct (Nat.eqb_spec (length (sg_pub R s)) (length (sg_pub R o))) as [LP|LP]; cbn [negb].
      * pose proof (eqloop (pk_Equals R) pk_eqb (sg_pub R s) (sg_pub R o) ltac:(lia) (fun x y _ => pk_eqb_ok x y) true 0 [] [] eq_refl eq_refl) as Y. cbn [app] in Y.
        rewrite Y. eexists. split; [reflexivity|]. cbn [andb].
        assert (Q : forallb (fun '(x, y) => pk_eqb x y) (combine (sg_pub R s) (sg_pub R o)) = true <-> map (pk_keys R) (sg_pub R s) = map (pk_keys R) (sg_pub R o)).
        { revert LP. generalize (sg_pub R s) (sg_pub R o). induction l as [|x a IH]; intros [|y b] LP; try discriminate; [cbn; tauto|].
          cbn [combine forallb map]. rewrite andb_true_iff, pk_eqb_eq, IH by (cbn in LP; lia).
          split; [intros [-> ->]; reflexivity|intros H; injection H as -> ->; auto]. }
        rewrite Q. tauto.
      * exists false. split; [reflexivity|]. split; [discriminate|]. intros [_ [_ H]]. apply (f_equal (@length _)) in H. rewrite !map_length in H. congruence.
    + exists false. split; [reflexivity|]. split; [discriminate|]. tauto.
  - exists false. split; [reflexivity|]. split; [discriminate|]. tauto.
Qed.
Lemma eqloop_panic (f : list F -> list F -> res bool) (a b : list (list F)) : forall lo pre pre', length pre = lo -> length pre' = lo ->
  (exists tl, a = b ++ tl /\ tl <> []) -> (forall x, f x x = Ok true) ->
  for_loop lo (length a) (fun i ok => if negb ok then Ok ok else let! x := idx (pre ++ a) i in let! y := idx (pre' ++ b) i in f x y) true = Panic.
Proof.
  revert a. induction b as [|y b IH]; intros a lo pre pre' L1 L2 [tl [-> T]] H.
  - cbn [app]. destruct tl as [|x tl]; [congruence|]. cbn [length for_loop negb]. unfold idx at 1. rewrite nth_error_app2, L1, Nat.sub_diag by lia.
    cbn [nth_error bind]. rewrite (proj2 (idx_Panic (pre' ++ []) lo)) by (rewrite app_nil_r; lia). reflexivity.
  - cbn [app length for_loop negb]. unfold idx at 1. rewrite nth_error_app2, L1, Nat.sub_diag by lia. cbn [nth_error bind].
    unfold idx at 1. rewrite nth_error_app2, L2, Nat.sub_diag by lia. cbn [nth_error bind]. rewrite H. cbn [bind].
    specialize (IH (b ++ tl) (1 + lo) (pre ++ [y]) (pre' ++ [y])). rewrite <- !app_assoc in IH. cbn [app Nat.add] in IH. cbn [Nat.add].
    apply IH; [rewrite app_length; cbn; lia|rewrite app_length; cbn; lia|exists tl; auto|exact H].
Qed.
Lemma sig_Equals_panic s o b : sg_c R s = sg_c R o -> (exists tl, sg_r R s = sg_r R o ++ tl /\ tl <> []) -> sig_Equals R s o b = Panic.
Proof.
  intros EC HT. unfold sig_Equals. rewrite EC, feqb_refl. cbn [negb].
  pose proof (eqloop_panic rsp_Equals (sg_r R s) (sg_r R o) 0 [] [] eq_refl eq_refl HT) as X. cbn [app] in X. rewrite X; [reflexivity|].
  intros x. rewrite rsp_eqb_ok. f_equal. apply rsp_eqb_eq. reflexivity.
Qed.

(** ** Codec *)
Definition rows_enc (r : list (list F)) : bytes := concat (map (fun a => concat (map (sbytes R) a)) r).
Definition pubs_enc (k : list (pubkeys R)) : bytes := concat (map (fun a => concat (map (pbytes R) (pk_keys R a))) k).
Definition sig_enc (s : sig R) (b : bool) : bytes :=
  sbytes R (sg_c R s) ++ put_u32 (u32 (Z.of_nat (length (sg_r R s)))) ++
  match sg_r R s with
  | [] => []
  | r0 :: _ => put_u32 (u32 (Z.of_nat (length r0))) ++ rows_enc (sg_r R s) ++ (if b then pubs_enc (sg_pub R s) else [])
  end.
Lemma write_all' cs : forall out, w_each w_write cs (mkW out []) = (Ok tt, mkW (out ++ concat cs) []).
Proof.
  change (w_each w_write cs) with (write_chunks cs).
  induction cs as [|c cs IH]; intros out.
  - cbn. rewrite app_nil_r. reflexivity.
  - rewrite write_chunks_cons. cbn [w_plan w_out]. rewrite IH, <- app_assoc. reflexivity.
Qed.
Lemma each_all {A} (f : A -> writer -> res unit * writer) (e : A -> bytes) (H : forall a out, f a (mkW out []) = (Ok tt, mkW (out ++ e a) [])) l :
  forall out, w_each f l (mkW out []) = (Ok tt, mkW (out ++ concat (map e l)) []).
Proof.
  induction l as [|a l IH]; intros out; cbn [w_each map concat]; [rewrite app_nil_r; reflexivity|].
  unfold w_seq. rewrite H. rewrite IH, <- app_assoc. reflexivity.
Qed.
Lemma w_write_fresh b out : w_write b (mkW out []) = (Ok tt, mkW (out ++ b) []). Proof. reflexivity. Qed.
Lemma sig_encode s b : (Z.of_nat (length (sg_r R s)) < 2 ^ 32)%Z -> sig_Encode R s b w_fresh = (Ok tt, mkW (sig_enc s b) []).
Proof.
  intros L. unfold sig_Encode, w_fresh. unfold w_seq at 1. rewrite w_write_fresh. unfold w_seq at 1. rewrite w_write_fresh. cbn [app].
  unfold sig_enc. destruct (sg_r R s) as [|r0 rows] eqn:E.
  - cbn [length Z.of_nat u32]. change (u32 0) with 0%Z. cbn [Z.leb Z.compare]. unfold w_ret. rewrite app_nil_r. reflexivity.
  - set (z := Z.of_nat (length (r0 :: rows))) in *. assert (EZ : u32 z = z) by (unfold u32; apply Z.mod_small; lia). rewrite EZ.
    destruct (Z.leb_spec z 0) as [C|_]; [unfold z in C; cbn in C; lia|].
    unfold w_seq at 1. rewrite w_write_fresh. unfold w_seq at 1.
    rewrite (each_all (rsp_Encode R) (fun a => concat (map (sbytes R) a))) by (intros a out; apply write_all').
    fold (rows_enc (r0 :: rows)). destruct b; cbn [negb].
    + rewrite (each_all (pk_Encode R) (fun a => concat (map (pbytes R) (pk_keys R a)))) by (intros a out; apply write_all').
      fold (pubs_enc (sg_pub R s)). rewrite <- !app_assoc. reflexivity.
    + unfold w_ret. rewrite !app_nil_r, <- !app_assoc. reflexivity.
Qed.
Lemma concat_len {A} (f : A -> bytes) n l : (forall a, In a l -> length (f a) = n) -> length (concat (map f l)) = length l * n.
Proof.
  induction l as [|a l IH]; intros H; [reflexivity|]. cbn [map concat length]. rewrite app_length, IH, H by (try (left; reflexivity); intros; apply H; right; assumption). lia.
Qed.
Lemma rows_enc_len r k : Forall (fun a => length a = k) r -> length (rows_enc r) = 32 * k * length r.
Proof.
  intros F. unfold rows_enc. rewrite (concat_len _ (k * 32)); [lia|]. intros a Ha. rewrite Forall_forall in F.
  rewrite (concat_len _ 32); [rewrite (F a Ha); lia|]. intros. apply (sbytes_len R OK).
Qed.
Lemma pubs_enc_len r k : Forall (fun a => length (pk_keys R a) = k) r -> length (pubs_enc r) = 32 * k * length r.
Proof.
  intros F. unfold pubs_enc. rewrite (concat_len _ (k * 32)); [lia|]. intros a Ha. rewrite Forall_forall in F.
  rewrite (concat_len _ 32); [rewrite (F a Ha); lia|]. intros. apply (pbytes_len R OK).
Qed.
Lemma reads_rsp a acc : reads (rsp_Decode R acc (Z.of_nat (length a))) (concat (map (sbytes R) a)) (acc ++ a).
Proof.
  unfold rsp_Decode. rewrite Nat2Z.id. pose proof (fold_snoc F F (fun x => x) a 0 acc) as E. rewrite map_id in E. rewrite <- E.
  apply (reads_for _ (sbytes R) (fun i s x => s ++ [x])). intros i s x _ _. rewrite <- (app_nil_r (sbytes R x)).
  eapply (reads_bind (r_bytes 32)); [apply reads_bytes, (sbytes_len R OK)|]. rewrite (sset_sbytes R OK). apply reads_ret.
Qed.
Lemma reads_pk ks acc : reads (pk_Decode R acc (Z.of_nat (length ks))) (concat (map (pbytes R) ks)) (mkPK R (pk_decoy R acc) (pk_keys R acc ++ ks)).
Proof.
  unfold pk_Decode. rewrite Nat2Z.id.
  assert (E : forall l lo acc, snd (fold_left (fun '(i, s) x => (1 + i, AddPubKey R s x)) l (lo, acc)) = mkPK R (pk_decoy R acc) (pk_keys R acc ++ l)).
  { induction l as [|x l IH]; intros lo acc'; cbn [fold_left].
    - rewrite app_nil_r. destruct acc'; reflexivity.
    - rewrite IH. unfold AddPubKey. cbn [pk_decoy pk_keys]. rewrite <- app_assoc. reflexivity. }
  rewrite <- (E ks 0 acc). apply (reads_for _ (pbytes R) (fun i s x => AddPubKey R s x)). intros i s x _ _. rewrite <- (app_nil_r (pbytes R x)).
  eapply (reads_bind (r_bytes 32)); [apply reads_bytes, (pbytes_len R OK)|]. rewrite (pset_pbytes R OK). apply reads_ret.
Qed.
Definition plain (k : pubkeys R) : pubkeys R := mkPK R false (pk_keys R k).
Lemma reads_rows r k : Forall (fun a => length a = k) r ->
  reads (r_for 0 (length r) (fun _ rows => let? a := rsp_Decode R [] (Z.of_nat k) in rret (rows ++ [a])) []) (rows_enc r) r.
Proof.
  intros F. pose proof (fold_snoc (list Fld.F) _ (fun x => x) r 0 []) as E. rewrite map_id in E. cbn [app] in E.
  assert (C : forall (p : rprog (res (list (list Fld.F)))) e v v', v = v' -> reads p e v -> reads p e v') by (intros; subst; assumption).
  apply (C _ _ _ _ E). apply (reads_for _ (fun a => concat (map (sbytes R) a)) (fun i s x => s ++ [x])).
  intros i s x _ Hx. rewrite Forall_forall in F. rewrite <- (F x Hx). rewrite <- (app_nil_r (concat _)).
  eapply (reads_bind (rsp_Decode R [] (Z.of_nat (length x)))); [apply reads_rsp|]. cbn [app]. apply reads_ret.
Qed.
Lemma reads_pubs r k : Forall (fun a => length (pk_keys R a) = k) r ->
  reads (r_for 0 (length r) (fun _ rows => let? a := pk_Decode R (mkPK R false []) (Z.of_nat k) in rret (rows ++ [a])) []) (pubs_enc r) (map plain r).
Proof.
  intros F. rewrite <- (app_nil_l (map plain r)), <- (fold_snoc _ _ plain r 0 []).
  apply (reads_for _ (fun a => concat (map (pbytes R) (pk_keys R a))) (fun i s x => s ++ [plain x])).
  intros i s x _ Hx. rewrite Forall_forall in F. rewrite <- (F x Hx). rewrite <- (app_nil_r (concat _)).
  eapply (reads_bind (pk_Decode R (mkPK R false []) (Z.of_nat (length (pk_keys R x))))); [apply reads_pk|]. cbn [app pk_decoy pk_keys]. apply reads_ret.
Qed.
Lemma sig_decode s s0 b k : sg_r R s <> [] -> (Z.of_nat (length (sg_r R s)) < 2 ^ 32)%Z -> (Z.of_nat k < 2 ^ 32)%Z ->
  Forall (fun a => length a = k) (sg_r R s) ->
  (b = true -> length (sg_pub R s) = length (sg_r R s) /\ Forall (fun a => length (pk_keys R a) = k) (sg_pub R s)) ->
  reads (sig_Decode R s0 b) (sig_enc s b)
    (mkSig R (sg_c R s) (sg_r R s) (if b then map plain (sg_pub R s) else sg_pub R s0) (sg_msg R s0)).
Proof.
  intros N L1 L2 F HB. unfold sig_Decode, sig_enc.
  assert (U : forall z, (0 <= z < 2 ^ 32)%Z -> u32 z = z) by (intros; apply Z.mod_small; lia).
  destruct (sg_r R s) as [|r0 rows] eqn:E; [congruence|]. rewrite !U by (try lia; inversion F; lia).
  assert (L0 : length r0 = k) by (inversion F; assumption). rewrite L0. set (r := r0 :: rows) in *.
  eapply (reads_bind (r_bytes 32)); [apply reads_bytes, (sbytes_len R OK)|]. rewrite (sset_sbytes R OK).
  apply (reads_bind r_u32 _ _ (Z.of_nat (length r))).
  { pose proof (reads_u32 (Z.of_nat (length r))) as X. rewrite Z.mod_small in X by lia. exact X. }
  apply (reads_bind r_u32 _ _ (Z.of_nat k)).
  { pose proof (reads_u32 (Z.of_nat k)) as X. rewrite Z.mod_small in X by lia. exact X. }
  apply reads_alloc. rewrite Nat2Z.id. eapply reads_bind; [apply reads_rows; exact F|].
  destruct b; cbn [negb].
  - destruct HB as [H1 H2]; [reflexivity|]. apply reads_alloc. rewrite <- (app_nil_r (pubs_enc _)). rewrite <- H1.
    eapply reads_bind; [apply reads_pubs; exact H2|]. apply reads_ret.
  - apply reads_ret.
Qed.
Lemma sig_decode_empty s s0 b b' r : sg_r R s = [] -> fault_free r -> rbytes r = sig_enc s b -> exists e, fst (exec (sig_Decode R s0 b') r) = Err e.
Proof.
  intros E F EB. unfold sig_enc in EB. rewrite E in EB. rewrite app_nil_r in EB. unfold sig_Decode.
  destruct (reads_bytes 32 (sbytes R (sg_c R s)) (sbytes_len R OK _) r _ F EB) as [r1 [X1 [Y1 Z1]]].
  rewrite exec_rbind, X1. rewrite exec_rbind.
  destruct (reads_u32 (u32 (Z.of_nat (@length (list Fld.F) []))) r1 [] Z1) as [r2 [X2 [Y2 Z2]]]; [rewrite app_nil_r; exact Y1|]. rewrite X2.
  rewrite exec_rbind. unfold r_u32 at 1. rewrite exec_rbind. destruct (r_bytes_short 4 r2 Z2) as [e E2]; [rewrite Y2; cbn; lia|].
  rewrite E2. exists e. reflexivity.
Qed.

(** ** Sessions *)
Lemma session_inv bops ops p : session bops ops = Ok p -> minv p.
Proof.
  unfold session. destruct (run_all _ bops mp_new) as [q|e|] eqn:E; cbn [bind]; intros H; try discriminate. injection H as <-.
  apply minv_run. apply (run_bops_inv bops mp_new q minv_new (Forall_nil _) E).
Qed.
Definition dk_shape (d : dualkey R) : Prop :=
  (exists k0 k1, dk_keys R d = [k0; k1]) /\ length (pk_keys R (mp_signer R (dk_proof R d))) = length (mp_priv R (dk_proof R d)).
Lemma dk_shape_step o d d' : dk_shape d -> run_dop o d = Ok d' -> dk_shape d'.
Proof.
  intros [[k0 [k1 EK]] ES] E. destruct o as [k|x|m|x|x|q|js rs]; cbn [run_dop] in E.
  - injection E as <-. split; [eauto|exact ES].
  - injection E as <-. split; [eauto|]. cbn. rewrite !app_length, ES. reflexivity.
  - injection E as <-. split; [eauto|exact ES].
  - unfold SetPrimaryKey in E. rewrite EK in E. cbn in E. injection E as <-. split; [cbn; eauto|exact ES].
  - unfold SetCommToZero in E. rewrite EK in E. cbn in E. injection E as <-. split; [cbn; eauto|exact ES].
  - unfold SubCommToZero in E. destruct (for_loop _ _ _ _) as [m|e|]; cbn [bind] in E; try discriminate. injection E as <-. split; [cbn; eauto|exact ES].
  - assert (EE : d' = snd (dk_Prove R d js rs)) by (destruct (fst (dk_Prove R d js rs)); congruence). subst d'.
    unfold dk_Prove. rewrite EK. destruct (orb _ _); [split; [eauto|exact ES]|].
    set (p := AddSecret R (AddSecret R (dk_proof R d) k0) k1). destruct (prove_snd p true js rs) as [p' [_ [S E']]]. rewrite E'. cbn [snd].
    destruct S as [S1 [S2 _]]. split; cbn [dk_keys dk_proof]; [eauto|]. rewrite S1, S2. cbn [pk_keys]. unfold p, AddSecret, AddPubKey.
    cbn [mp_signer mp_priv pk_keys]. rewrite !app_length, ES. reflexivity.
Qed.
Lemma dk_shape_run ops : forall d d', dk_shape d -> run_all run_dop ops d = Ok d' -> dk_shape d'.
Proof.
  induction ops as [|o ops IH]; intros d d' S E; cbn [run_all] in E; [injection E as <-; exact S|].
  destruct (run_dop o d) as [d1|e|] eqn:E1; cbn [bind] in E; try discriminate. apply (IH d1 d' (dk_shape_step o d d1 S E1) E).
Qed.
Lemma dk_shape_new : dk_shape (NewDualKey R). Proof. split; [do 2 eexists; reflexivity|reflexivity]. Qed.
Lemma dk_fresh_step o d d' : dk_fresh d -> dk_shape d -> setup o -> run_dop o d = Ok d' -> dk_fresh d'.
Proof.
  intros [F1 [F2 F3]] [[k0 [k1 EK]] _] HS E. destruct o as [k|x|m|x|x|q|js rs]; cbn [run_dop setup] in *; try contradiction.
  - injection E as <-. split; [exact F1|]. split; [exact F2|]. cbn. apply Forall_app. split; [exact F3|]. constructor; [reflexivity|constructor].
  - injection E as <-. split; [exact F1|]. split; [exact F2|exact F3].
  - unfold SetPrimaryKey in E. rewrite EK in E. cbn in E. injection E as <-. split; [exact F1|]. split; [exact F2|exact F3].
  - unfold SetCommToZero in E. rewrite EK in E. cbn in E. injection E as <-. split; [exact F1|]. split; [exact F2|exact F3].
  - assert (F : Forall (fun row => 2 <= length (pk_keys R row)) (mp_matrix R (dk_proof R d))).
    { destruct (Forall_dec (fun row => 2 <= length (pk_keys R row)) (fun row => le_dec 2 (length (pk_keys R row))) (mp_matrix R (dk_proof R d))) as [F|F]; [exact F|].
      rewrite (Sub_panic d q) in E by exact F. discriminate. }
    rewrite (Sub_ok d q) in E by exact F. injection E as <-. split; [exact F1|]. split; [exact F2|]. cbn [dk_proof mp_matrix]. apply Forall_map. exact F3.
Qed.
Lemma dk_fresh_run ops : forall d d', dk_fresh d -> dk_shape d -> Forall setup ops -> run_all run_dop ops d = Ok d' -> dk_fresh d'.
Proof.
  induction ops as [|o ops IH]; intros d d' S H HF E; cbn [run_all] in E; [injection E as <-; exact S|]. inversion HF; subst.
  destruct (run_dop o d) as [d1|e|] eqn:E1; cbn [bind] in E; try discriminate. apply (IH d1 d'); eauto using dk_fresh_step, dk_shape_step.
Qed.
Lemma dk_fresh_new : dk_fresh (NewDualKey R). Proof. split; [reflexivity|]. split; [reflexivity|constructor]. Qed.
Lemma dk_second ops d k0 k1 js rs ops' d' js' rs' : run_all run_dop ops (NewDualKey R) = Ok d -> dk_keys R d = [k0; k1] -> k0 <> f0 -> k1 <> f0 ->
  run_all run_dop ops' (snd (dk_Prove R d js rs)) = Ok d' -> exists a b l, dk_keys R d' = a :: b :: l /\
  fst (dk_Prove R d' js' rs') = Err (if orb (feqb a f0) (feqb b f0) then "primary key or commitment to zero cannot be zero" else "all vectors in the pubkey matrix must be the same size")%string.
Proof.
  intros E EK N0 N1 E'. pose proof (dk_shape_run ops _ d dk_shape_new E) as [_ HS].
  apply stuck_Err, (stuck_run ops' _ d' (dk_Prove_stuck d k0 k1 [] js rs EK N0 N1 HS) E').
Qed.

(** ** Surplus keys and responses *)
Lemma zipw_more {A B C} (f : A -> B -> C) a e b : length b <= length a -> zipw f (a ++ e) b = zipw f a b.
Proof. revert b. induction a as [|x a IH]; intros [|y b] L; cbn in *; try lia; [destruct e; reflexivity|reflexivity|]. f_equal. apply IH. lia. Qed.
Lemma row_points_more J K r e c : length K <= length r -> row_points R J K (r ++ e) c = row_points R J K r c.
Proof. intros L. unfold row_points. rewrite (zipw_more _ r e K) by exact L. rewrite (zipw_more _ r e (combine K J)) by (rewrite combine_length; lia). reflexivity. Qed.
Lemma combine_more {A B} (a e : list A) (b : list B) : length b <= length a -> combine (a ++ e) b = combine a b.
Proof. revert b. induction a as [|x a IH]; intros [|y b] L; cbn in *; try lia; [destruct e; reflexivity|reflexivity|]. f_equal. apply IH. lia. Qed.
Lemma dec_and_le a b c : {a <= b <= c} + {~ (a <= b <= c)}.
Proof. destruct (le_dec a b), (le_dec b c); [left; lia|right; lia|right; lia|right; lia]. Qed.
Definition longer (r r' : list F) : Prop := exists e, r' = r ++ e.
Lemma surplus s s' extra J : sg_c R s' = sg_c R s -> sg_msg R s' = sg_msg R s -> sg_pub R s' = sg_pub R s ++ extra ->
  length (sg_r R s) <= length (sg_pub R s) -> Forall2 longer (sg_r R s) (sg_r R s') ->
  Forall2 (fun k r => length (pk_keys R k) <= length r) (firstn (length (sg_r R s)) (sg_pub R s)) (sg_r R s) ->
  sig_Verify R s' J = sig_Verify R s J.
Proof.
  intros EC EM EP L F2 FL. pose proof (Forall2_length F2) as LR.
  assert (N1 : sg_r R s = [] \/ sg_r R s <> []) by (destruct (sg_r R s); [left; reflexivity|right; discriminate]).
  destruct N1 as [ER|N1].
  { assert (E0 : sg_r R s' = []) by (rewrite ER in LR; destruct (sg_r R s'); [reflexivity|discriminate]).
    unfold sig_Verify. rewrite ER, E0. cbn [length Nat.eqb]. rewrite !orb_true_r. reflexivity. }
  assert (N1' : sg_r R s' <> []) by (intros C; rewrite C in LR; destruct (sg_r R s); [congruence|discriminate]).
  assert (N2 : sg_pub R s <> []) by (intros C; rewrite C in L; destruct (sg_r R s); [congruence|cbn in L; lia]).
  assert (N2' : sg_pub R s' <> []) by (rewrite EP; destruct (sg_pub R s); [congruence|discriminate]).
  destruct J as [|j J']; [unfold sig_Verify; cbn [length Nat.eqb]; rewrite !orb_true_r; reflexivity|]. set (J := j :: J'). assert (N3 : J <> []) by discriminate.
  assert (HR : Forall2 (fun a b => fst b = fst a /\ length (fst a) <= length (snd a) /\ longer (snd a) (snd b)) (sig_rows s) (sig_rows s')).
  { unfold sig_rows. rewrite EP, map_app, combine_more by (rewrite map_length; lia).
    revert L F2 FL. generalize (sg_pub R s) (sg_r R s) (sg_r R s'). clear. intros pub r r'. revert pub r'. induction r as [|x r IH]; intros pub r' L F2 FL.
    - inversion F2. destruct (map _ pub); constructor.
    - inversion F2 as [|? y ? r1 HL HF]; subst. destruct pub as [|k pub]; [cbn in L; lia|]. cbn [length firstn map combine] in *. inversion FL; subst.
      constructor; [cbn [fst snd]; auto|]. apply IH; [lia|assumption|assumption]. }
  assert (CH : forall m c, ring_chain R m J (sig_rows s') c = ring_chain R m J (sig_rows s) c).
  { intros m. unfold ring_chain. induction HR as [|a b la lb [H1 [H2 [e H3]]] _ IH]; intros c; [reflexivity|]. cbn [fold_left].
    rewrite H1, H3. unfold ring_chal at 2 4. rewrite row_points_more by exact H2. apply IH. }
  assert (CH2 : forall m c, ring_chain R m J (verify_rows s') c = ring_chain R m J (verify_rows s) c).
  { intros m c. unfold verify_rows. rewrite <- LR. destruct (Nat.eqb (length (sg_r R s)) 1); [|apply CH].
    unfold ring_chain. rewrite !fold_left_app. pose proof (fun c => CH m c) as CH'. unfold ring_chain in CH'. rewrite !CH'. reflexivity. }
  assert (SH : shape_ok s' J <-> shape_ok s J).
  { unfold shape_ok. rewrite EP, app_length, <- LR.
    assert (FF : Forall (row_ok R J) (sig_rows s') <-> Forall (row_ok R J) (sig_rows s)).
    { clear - HR. induction HR as [|a b la lb [H1 [H2 [e H3]]] _ IH]; [split; constructor|]. rewrite !Forall_cons_iff, IH. unfold row_ok. rewrite H1, H3, app_length.
      split; intros [A B]; (split; [lia|exact B]). }
    rewrite FF. split; intros [A B]; (split; [lia|exact B]). }
  destruct (Nat.le_gt_cases (length (sg_r R s)) (length (sg_pub R s))) as [_|]; [|lia].
  assert (D : shape_ok s J \/ ~ shape_ok s J).
  { unfold shape_ok. destruct (Forall_dec (row_ok R J) (fun x => dec_and_le _ _ _) (sig_rows s)) as [A|A]; [left; auto|right; tauto]. }
  destruct D as [D|D].
  - rewrite (Verify_shape s J N2 N1 N3 D), (Verify_shape s' J N2' N1' N3 (proj2 SH D)). rewrite EC, EM, CH2. reflexivity.
  - rewrite (Verify_bad s J N2 N1 N3 D), (Verify_bad s' J N2' N1' N3) by tauto. reflexivity.
Qed.

Lemma regular_dec p : {regular p} + {~ regular p}.
Proof. apply Forall_dec. intros row. apply Nat.eq_dec. Qed.
Lemma prove_verifies p sk js rs sg J p' : minv p -> prove R p sk js rs = (Ok (sg, J), p') -> J <> [] -> sig_Verify R sg J = Ok true.
Proof.
  intros I0 E NJ. pose proof (prove_images p sk js rs sg J p' I0 E) as EJ.
  assert (HP : mp_priv R p <> []). { intros C. apply NJ. rewrite EJ, C. unfold images. destruct sk; reflexivity. }
  assert (HM : mp_matrix R p <> []). { intros C. pose proof (prove_alone p sk js rs I0 C HP) as X. rewrite E in X. discriminate. }
  destruct (regular_dec p) as [D|D].
  - destruct (prove_regular p sk js rs I0 D HM) as [sg' [E' [_ [_ [_ V]]]]].
    + destruct (mp_priv R p); [congruence|]. apply andb_false_r.
    + rewrite E in E'. injection E' as -> _. rewrite EJ in *. apply V. exact NJ.
  - pose proof (prove_irregular p sk js rs I0 D) as X. rewrite E in X. discriminate.
Qed.
Lemma prove_outcome p sk js rs : minv p -> mp_priv R p <> [] -> mp_matrix R p <> [] ->
  (regular p -> exists sg J, fst (prove R p sk js rs) = Ok (sg, J)) /\ (~ regular p -> exists e, fst (prove R p sk js rs) = Err e).
Proof.
  intros I0 HP HM. split; intros D.
  - destruct (prove_regular p sk js rs I0 D HM) as [sg [E _]]; [|eauto]. destruct (mp_priv R p); [congruence|]. apply andb_false_r.
  - eexists. apply (prove_irregular p sk js rs I0 D).
Qed.
Lemma key_image_relation x y : x <> y -> key_image R x = key_image R y ->
  pbytes R (x [*] pbase R) <> pbytes R (y [*] pbase R) /\
  x [*] pderive R (pbytes R (x [*] pbase R)) = y [*] pderive R (pbytes R (y [*] pbase R)) /\
  (pderive R (pbytes R (x [*] pbase R)) = pderive R (pbytes R (y [*] pbase R)) -> pderive R (pbytes R (x [*] pbase R)) = pt0 R).
Proof.
  intros N E. split.
  - intros C. apply (pbytes_inj OK) in C. apply (smul_inj_l OK) in C; [contradiction|]. apply (pbase_nz R OK).
  - split; [exact E|]. intros C. unfold key_image in E. rewrite <- C in E.
    destruct (pt_eq_dec OK (pderive R (pbytes R (x [*] pbase R))) (pt0 R)) as [Z|Z]; [exact Z|]. exfalso. apply N. apply (smul_inj_l OK x y _ Z E).
Qed.

Lemma prove_iff p sk js rs : minv p -> mp_priv R p <> [] -> mp_matrix R p <> [] ->
  ((exists e, fst (prove R p sk js rs) = Err e) <-> Exists (fun row => length (pk_keys R row) <> length (mp_priv R p)) (mp_matrix R p)) /\
  ((exists sg J, fst (prove R p sk js rs) = Ok (sg, J)) <-> Forall (fun row => length (pk_keys R row) = length (mp_priv R p)) (mp_matrix R p)).
Proof.
  intros I0 HP HM. destruct (prove_outcome p sk js rs I0 HP HM) as [A B].
  assert (X : Exists (fun row => length (pk_keys R row) <> length (mp_priv R p)) (mp_matrix R p) <-> ~ regular p).
  { unfold regular. split.
    - intros E F. apply Exists_exists in E. destruct E as [row [Hin N]]. rewrite Forall_forall in F. apply N, F, Hin.
    - apply neg_Forall_Exists_neg. intros row. apply Nat.eq_dec. }
  rewrite X. fold (regular p). destruct (regular_dec p) as [D|D].
  - destruct (A D) as [sg [J E]]. rewrite E. split; split; intros; try tauto; try eauto. destruct H; discriminate.
  - destruct (B D) as [e E]. rewrite E. split; split; intros; try tauto; try eauto. destruct H as [? [? ?]]; discriminate.
Qed.
Lemma prove_content p sk js rs sg J p' : minv p -> prove R p sk js rs = (Ok (sg, J), p') -> J <> [] ->
  sg_msg R sg = mp_msg R p /\ Permutation (mp_matrix R p ++ [mkPK R false (pubs (mp_priv R p))]) (sg_pub R sg) /\
  length (sg_r R sg) = length (sg_pub R sg).
Proof.
  intros I0 E NJ. pose proof (prove_images p sk js rs sg J p' I0 E) as EJ.
  assert (HP : mp_priv R p <> []). { intros C. apply NJ. rewrite EJ, C. unfold images. destruct sk; reflexivity. }
  assert (HM : mp_matrix R p <> []). { intros C. pose proof (prove_alone p sk js rs I0 C HP) as X. rewrite E in X. discriminate. }
  destruct (regular_dec p) as [D|D].
  - destruct (prove_regular p sk js rs I0 D HM) as [sg' [E' [E1 [E2 [E3 _]]]]].
    + destruct (mp_priv R p); [congruence|]. apply andb_false_r.
    + destruct (prove_snd p sk js rs) as [q [_ [S ES]]]. rewrite ES in E', E1. rewrite E in ES. injection ES as ES1 ->. cbn [fst snd] in *. rewrite <- ES1 in E'. injection E' as <- _.
      destruct S as [_ [_ [_ [S4 _]]]]. rewrite (proj1 I0) in S4. split; [exact E2|]. rewrite E1, E3. split; [exact S4|].
      rewrite <- (Permutation_length S4), app_length. reflexivity.
  - pose proof (prove_irregular p sk js rs I0 D) as X. rewrite E in X. discriminate.
Qed.
Lemma image_at p sk js rs sg J p' i x im : minv p -> prove R p sk js rs = (Ok (sg, J), p') -> nth_error (mp_priv R p) i = Some x ->
  nth_error J i = Some im -> im = key_image R x.
Proof.
  intros I0 E EX EI. rewrite (prove_images p sk js rs sg J p' I0 E) in EI.
  rewrite images_nth in EI by (apply nth_error_Some; congruence). rewrite EX in EI. injection EI as <-. reflexivity.
Qed.
Lemma extract_key msg J K r r' c c' : length J <= length K -> length K <= length r -> length K <= length r' -> c <> c' ->
  let hashed r c := msg ++ concat (map (pbytes R) (row_points R J K r c)) in
  sderive R (hashed r c) = sderive R (hashed r' c') ->
  hashed r c <> hashed r' c' \/
  forall j k a b, nth_error K j = Some k -> nth_error r j = Some a -> nth_error r' j = Some b ->
  let x := fmul (fsub a b) (finv (fsub c' c)) in
  k = x [*] pbase R /\ forall im, nth_error J j = Some im -> im = key_image R x.
Proof.
  intros H1 H2 H3 N hashed _. destruct (bytes_eq_dec (hashed r c) (hashed r' c')) as [P|P]; [right|left; exact P].
  apply hashed_points in P.
  intros j k a b Ek Ea Eb. destruct (extract K J r r' c c' H1 H2 H3 N P j k a b Ek Ea Eb) as [X Y]. cbv zeta in *. split; [exact X|].
  intros im Ei. unfold key_image. rewrite <- X. apply Y. exact Ei.
Qed.
Lemma shuffle_spec p js : exists p', shuffleSet R js (addSignerPubKey R p) = (Ok tt, p') /\
  mp_priv R p' = mp_priv R p /\ mp_msg R p' = mp_msg R p /\ pk_keys R (mp_signer R p') = pk_keys R (mp_signer R p) /\
  Permutation (mp_matrix R p ++ [mkPK R false (pk_keys R (mp_signer R p))]) (mp_matrix R p') /\
  (Forall (fun row => pk_decoy R row = true) (mp_matrix R p) ->
   nth_error (mp_matrix R p') (mp_index R p') = Some (mkPK R false (pk_keys R (mp_signer R p)))).
Proof.
  destruct (shuffleSet_ok js p) as [p' [E [S1 [S2 [S3 [S4 [row [S5 [S6 _]]]]]]]]]. exists p'. split; [exact E|]. split; [exact S1|]. split; [exact S3|].
  split; [rewrite S2; reflexivity|]. split; [exact S4|]. intros D. rewrite S5. f_equal.
  apply nth_error_In in S5. apply (Permutation_in _ (Permutation_sym S4)) in S5. apply in_app_iff in S5. destruct S5 as [S5|[S5|[]]]; [|congruence].
  rewrite Forall_forall in D. apply D in S5. congruence.
Qed.
Lemma sig_roundtrip s b k s0 : sg_r R s <> [] -> (Z.of_nat (length (sg_r R s)) < 2 ^ 32)%Z -> (Z.of_nat k < 2 ^ 32)%Z ->
  Forall (fun a => length a = k) (sg_r R s) ->
  (b = true -> length (sg_pub R s) = length (sg_r R s) /\ Forall (fun a => length (pk_keys R a) = k) (sg_pub R s)) ->
  exists enc, sig_Encode R s b w_fresh = (Ok tt, mkW enc []) /\
    length enc = 40 + 32 * k * length (sg_r R s) + (if b then 32 * k * length (sg_r R s) else 0) /\
    reads (sig_Decode R s0 b) enc (mkSig R (sg_c R s) (sg_r R s) (if b then map plain (sg_pub R s) else sg_pub R s0) (sg_msg R s0)).
Proof.
  intros N L1 L2 F HB. exists (sig_enc s b). split; [apply sig_encode; exact L1|]. split; [|apply (sig_decode s s0 b k); assumption].
  assert (LR : length (rows_enc (sg_r R s)) = 32 * k * length (sg_r R s)) by (apply rows_enc_len; exact F).
  assert (LP : length (if b then pubs_enc (sg_pub R s) else []) = if b then 32 * k * length (sg_r R s) else 0).
  { destruct b; [|reflexivity]. destruct HB as [H1 H2]; [reflexivity|]. rewrite <- H1. apply pubs_enc_len. exact H2. }
  unfold sig_enc. rewrite !app_length, (sbytes_len R OK), put_u32_length. destruct (sg_r R s) as [|r0 rows]; [congruence|].
  rewrite !app_length, put_u32_length, LR, LP. lia.
Qed.
Lemma sig_no_rows s b b' s0 : sg_r R s = [] ->
  exists enc, sig_Encode R s b w_fresh = (Ok tt, mkW enc []) /\ length enc = 36 /\
    forall r, fault_free r -> rbytes r = enc -> exists e, fst (exec (sig_Decode R s0 b') r) = Err e.
Proof.
  intros E. exists (sig_enc s b). split; [apply sig_encode; rewrite E; cbn; lia|]. split.
  - unfold sig_enc. rewrite E, !app_length, (sbytes_len R OK), put_u32_length. reflexivity.
  - intros r F EB. apply (sig_decode_empty s s0 b b' r E F EB).
Qed.
Lemma Verify_two s J : sg_pub R s <> [] -> 2 <= length (sg_r R s) -> J <> [] -> length (sg_r R s) <= length (sg_pub R s) ->
  Forall (row_ok R J) (sig_rows s) ->
  sig_Verify R s J = if feqb (ring_chain R (sg_msg R s) J (sig_rows s) (sg_c R s)) (sg_c R s) then Ok true else Err "c'0 does not equal c0"%string.
Proof.
  intros H1 H2 H3 H4 H5. rewrite Verify_shape; [|exact H1|intros C; rewrite C in H2; cbn in H2; lia|exact H3|split; assumption].
  unfold verify_rows. destruct (Nat.eqb_spec (length (sg_r R s)) 1); [lia|]. reflexivity.
Qed.
Lemma Verify_one c r k msg J : J <> [] -> length J <= length (pk_keys R k) <= length r ->
  let f := ring_chal R msg J (pk_keys R k) r in
  sig_Verify R (mkSig R c [r] [k] msg) J = if feqb (f (f c)) c then Ok true else Err "c'0 does not equal c0"%string.
Proof.
  intros H1 H2 f. rewrite Verify_shape; [reflexivity|discriminate|discriminate|exact H1|]. split; [cbn; lia|]. constructor; [exact H2|constructor].
Qed.
Lemma Verify_outcomes s J :
  (sg_pub R s = [] \/ sg_r R s = [] \/ J = [] -> exists e, sig_Verify R s J = Err e) /\
  (sg_pub R s <> [] -> sg_r R s <> [] -> J <> [] ->
   (sig_Verify R s J = Panic <->
    length (sg_pub R s) < length (sg_r R s) \/
    Exists (fun row => length (snd row) < length (fst row) \/ length (fst row) < length J) (sig_rows s))).
Proof.
  split.
  - intros H. eexists. unfold sig_Verify.
    replace (orb _ _) with true; [reflexivity|]. symmetry. destruct H as [-> | [-> | ->]]; cbn [length Nat.eqb]; rewrite ?orb_true_r; reflexivity.
  - intros H1 H2 H3. destruct (le_dec (length (sg_r R s)) (length (sg_pub R s))) as [L|L].
    + destruct (Forall_dec (row_ok R J) (fun x => dec_and_le _ _ _) (sig_rows s)) as [A|A].
      * rewrite Verify_shape by (try assumption; split; assumption). split; [destruct (feqb _ _); discriminate|].
        intros [C|C]; [lia|]. apply Exists_exists in C. destruct C as [row [Hin C]]. rewrite Forall_forall in A. apply A in Hin. unfold row_ok in Hin. lia.
      * rewrite Verify_bad by (try assumption; intros [_ C]; contradiction). split; [intros _; right|reflexivity].
        apply neg_Forall_Exists_neg in A; [|intros x; apply dec_and_le]. revert A. apply Exists_impl. intros row H. unfold row_ok in H. lia.
    + rewrite Verify_bad by (try assumption; intros [C _]; contradiction). split; [intros _; left; lia|reflexivity].
Qed.
Lemma Sub_spec d q :
  (Forall (fun row => 2 <= length (pk_keys R row)) (mp_matrix R (dk_proof R d)) ->
   exists d', SubCommToZero R d q = Ok d' /\ mp_matrix R (dk_proof R d') = map (sub_second q) (mp_matrix R (dk_proof R d)) /\
     dk_keys R d' = dk_keys R d /\ mp_priv R (dk_proof R d') = mp_priv R (dk_proof R d) /\
     mp_signer R (dk_proof R d') = mp_signer R (dk_proof R d) /\ mp_msg R (dk_proof R d') = mp_msg R (dk_proof R d) /\
     mp_index R (dk_proof R d') = mp_index R (dk_proof R d)) /\
  (Exists (fun row => length (pk_keys R row) < 2) (mp_matrix R (dk_proof R d)) -> SubCommToZero R d q = Panic).
Proof.
  split.
  - intros H. eexists. split; [apply Sub_ok; exact H|]. repeat split.
  - intros H. apply Sub_panic. intros F. apply Exists_exists in H. destruct H as [row [Hin C]]. rewrite Forall_forall in F. apply F in Hin. lia.
Qed.
Lemma sig_Equals_spec s o b : length (sg_r R s) <= length (sg_r R o) ->
  exists e, sig_Equals R s o b = Ok e /\
  (e = true <-> sg_c R s = sg_c R o /\ (exists tl, sg_r R o = sg_r R s ++ tl) /\
     (b = true -> map (pk_keys R) (sg_pub R s) = map (pk_keys R) (sg_pub R o))).
Proof.
  intros L. destruct b.
  - destruct (sig_Equals_keys s o L) as [e [E H]]. exists e. split; [exact E|]. rewrite H. tauto.
  - destruct (sig_Equals_nokeys s o L) as [e [E H]]. exists e. split; [exact E|]. rewrite H. split; [intros [A B]; repeat split; auto; discriminate|tauto].
Qed.

(** ** Every order is reached by the shuffle *)
Definition swap_body (js : nat -> nat) (t : nat) (m : list (pubkeys R)) : res (list (pubkeys R)) :=
  let i := (length m - 1 - t)%nat in
  let j := intn js t i in
  let! a := idx m j in let! b := idx m i in let! m := set_idx m i a in set_idx m j b.
Lemma loop_ext_from {S} (b1 b2 : nat -> S -> res S) n : forall lo st,
  (forall i s, lo <= i -> b1 i s = b2 i s) -> for_loop lo n b1 st = for_loop lo n b2 st.
Proof.
  induction n as [|n IH]; intros lo st H; cbn [for_loop]; [reflexivity|]. rewrite H by lia.
  destruct (b2 lo st); cbn [bind]; try reflexivity. apply IH. intros i s0 Hi. apply H. lia.
Qed.
Lemma snoc_of (l : list (pubkeys R)) n x : nth_error l n = Some x -> length l = n + 1 -> l = firstn n l ++ [x].
Proof. intros E L. rewrite <- (firstn_S_nth _ _ _ E). symmetry. apply firstn_all2. lia. Qed.
Lemma shuffle_reach n : forall (a a' suf : list (pubkeys R)), length a = n -> Permutation a a' ->
  exists js, for_loop (length suf) (n - 1) (swap_body js) (a ++ suf) = Ok (a' ++ suf).
Proof.
  induction n as [|n IH]; intros a a' suf L P.
  - destruct a; [|discriminate]. apply Permutation_nil in P. subst. exists (fun _ => 0). reflexivity.
  - destruct n as [|n].
    + destruct a as [|x [|]]; try discriminate. apply Permutation_length_1_inv in P. subst. exists (fun _ => 0). reflexivity.
    + replace (S (S n) - 1) with (S n) by lia. pose proof (Permutation_length P) as LP. rewrite L in LP.
      destruct (nth_error a' (S n)) as [x|] eqn:EX; [|apply nth_error_None in EX; lia].
      assert (HX : In x a) by (apply (Permutation_in _ (Permutation_sym P)), (nth_error_In _ _ EX)).
      apply In_nth_error in HX. destruct HX as [j EJ]. assert (Hj : j < S (S n)) by (rewrite <- L; apply nth_error_Some; congruence).
      destruct (nth_error a (S n)) as [b|] eqn:EB; [|apply nth_error_None in EB; lia].
      set (a1 := upd (upd a (S n) x) j b). pose proof (swap_perm a (S n) j x b EJ EB) as P1. fold a1 in P1.
      assert (L1 : length a1 = S (S n)) by (unfold a1; rewrite !upd_length; exact L).
      assert (E1 : nth_error a1 (S n) = Some x).
      { unfold a1. destruct (Nat.eq_dec j (S n)) as [->|N].
        - rewrite upd_same by (rewrite upd_length; lia). congruence.
        - rewrite upd_other by exact N. apply upd_same. lia. }
      assert (S1 : a1 = firstn (S n) a1 ++ [x]) by (apply snoc_of; [exact E1|lia]).
      assert (S2 : a' = firstn (S n) a' ++ [x]) by (apply snoc_of; [exact EX|lia]).
      destruct (IH (firstn (S n) a1) (firstn (S n) a') (x :: suf)) as [js E].
      * rewrite firstn_length. lia.
      * apply (Permutation_app_inv_r [x]). rewrite <- S1, <- S2. rewrite <- P1. exact P.
      * exists (fun t => if Nat.eqb t (length suf) then j else js t). cbn [for_loop].
        assert (EB1 : swap_body (fun t => if Nat.eqb t (length suf) then j else js t) (length suf) (a ++ suf) = Ok (a1 ++ suf)).
        { unfold swap_body. rewrite app_length, L. replace (S (S n) + length suf - 1 - length suf) with (S n) by lia.
          unfold intn. rewrite Nat.eqb_refl, Nat.mod_small by lia. unfold idx at 1. rewrite nth_error_app1, EJ by lia. cbn [bind].
          unfold idx at 1. rewrite nth_error_app1, EB by lia. cbn [bind].
          assert (U : forall (l : list (pubkeys R)) i y, i < length l -> upd (l ++ suf) i y = upd l i y ++ suf).
          { clear. induction l as [|z l IH]; intros [|i] y H; cbn in *; try lia; try reflexivity. f_equal. apply IH. lia. }
          rewrite set_idx_ok by (rewrite app_length; lia). cbn [bind]. rewrite U by lia.
          rewrite set_idx_ok by (rewrite app_length, upd_length; lia). rewrite U by (rewrite upd_length; lia). reflexivity. }
        rewrite EB1. cbn [bind]. replace (S n - 1) with n in E by lia.
        rewrite (loop_ext_from _ (swap_body js)).
        -- rewrite S1, <- app_assoc. cbn [app]. cbn [length] in E. rewrite E. f_equal. rewrite S2 at 2. rewrite <- app_assoc. reflexivity.
        -- intros i m Hi. unfold swap_body, intn. destruct (Nat.eqb_spec i (length suf)); [lia|reflexivity].
Qed.
Lemma shuffle_onto (m m' : list (pubkeys R)) : Permutation m m' -> exists js, shuffle R js m = Ok m'.
Proof.
  intros P. destruct (shuffle_reach (length m) m m' [] eq_refl P) as [js E]. rewrite !app_nil_r in E. exists js. exact E.
Qed.
(** when the receiver has more responses *)
Lemma rows_loop_longer V : forall W, length W < length V ->
  let l := for_loop 0 (length V) (fun i ok => if negb ok then Ok ok else let! a := idx V i in let! b := idx W i in rsp_Equals a b) true in
  (l = Panic /\ exists w, V = W ++ w) \/ (l = Ok false /\ forall w, V <> W ++ w).
Proof.
  assert (FF : forall (V W : list (list F)) n lo, for_loop lo n (fun i ok => if negb ok then Ok ok else let! a := idx V i in let! b := idx W i in rsp_Equals a b) false = Ok false).
  { intros V0 W0. induction n as [|n IH]; intros lo; cbn [for_loop bind negb]; [reflexivity|apply IH]. }
  induction V as [|a V IH]; intros W L; [cbn in L; lia|]. cbv zeta. destruct W as [|b W].
  - left. split; [reflexivity|]. exists (a :: V). reflexivity.
  - cbn [length for_loop idx nth_error bind negb]. rewrite rsp_eqb_ok. pose proof (rsp_eqb_eq a b) as E. cbn [bind]. destruct (rsp_eqb a b).
    + destruct E as [E _]. specialize (E eq_refl). subst b.
      rewrite (for_loop_shift _ (fun i ok => if negb ok then Ok ok else let! a := idx V i in let! b := idx W i in rsp_Equals a b) _ 0) by reflexivity.
      destruct (IH W) as [(X & w & H)|(X & H)]; [cbn in L; lia| |]; cbv zeta in X; rewrite X.
      * left. split; [reflexivity|]. exists w. cbn. now rewrite H.
      * right. split; [reflexivity|]. intros w Q. injection Q as Q. exact (H w Q).
    + right. split; [apply FF|]. intros w Q. injection Q as Q _. apply E in Q. discriminate.
Qed.
Lemma sig_Equals_longer s o b : length (sg_r R o) < length (sg_r R s) ->
  (sig_Equals R s o b = Panic /\ sg_c R s = sg_c R o /\ exists tl, sg_r R s = sg_r R o ++ tl) \/
  (sig_Equals R s o b = Ok false /\ ~ (sg_c R s = sg_c R o /\ exists tl, sg_r R s = sg_r R o ++ tl)).
Proof.
  intros L. unfold sig_Equals. destruct (feqb_spec (sg_c R s) (sg_c R o)) as [EC|EC]; cbn [negb].
  - destruct (rows_loop_longer (sg_r R s) (sg_r R o) L) as [(X & H)|(X & H)]; cbv zeta in X; rewrite X; cbn [bind negb].
    + left. auto.
    + right. split; [reflexivity|]. intros [_ [w Q]]. exact (H w Q).
  - right. split; [reflexivity|]. intros [Q _]. contradiction.
Qed.

(** ** Accessors *)
Lemma two_keys ops (d d' : dualkey R) : dk_shape d -> run_all run_dop ops d = Ok d' -> exists k0 k1, dk_keys R d' = [k0; k1].
Proof. intros S E. exact (proj1 (dk_shape_run ops d d' S E)). Qed.
Lemma keys_step o (d d' : dualkey R) k0 k1 : dk_keys R d = [k0; k1] -> run_dop o d = Ok d' ->
  dk_keys R d' = [match o with DPrimary x => x | _ => k0 end; match o with DComm x => x | _ => k1 end].
Proof.
  intros K E. destruct o as [k|x|m|x|x|q|js rs]; cbn [run_dop] in E.
  - injection E as <-. exact K.
  - injection E as <-. exact K.
  - injection E as <-. exact K.
  - unfold SetPrimaryKey in E. rewrite K in E. cbn in E. injection E as <-. reflexivity.
  - unfold SetCommToZero in E. rewrite K in E. cbn in E. injection E as <-. reflexivity.
  - unfold SubCommToZero in E. match type of E with bind ?X _ = _ => destruct X as [m|e|] end; cbn [bind] in E; try discriminate E. injection E as <-. exact K.
  - assert (KS : dk_keys R (snd (dk_Prove R d js rs)) = dk_keys R d).
    { unfold dk_Prove. rewrite K. destruct (orb _ _); [exact K|]. destruct (prove R _ true js rs) as [r p]. reflexivity. }
    destruct (fst (dk_Prove R d js rs)); try discriminate E; injection E as <-; rewrite KS; exact K.
Qed.
Lemma keys_set ops : forall (d d' : dualkey R) k0 k1, dk_keys R d = [k0; k1] -> run_all run_dop ops d = Ok d' ->
  dk_keys R d' = [last (flat_map (fun o => match o with DPrimary x => [x] | _ => [] end) ops) k0;
                  last (flat_map (fun o => match o with DComm x => [x] | _ => [] end) ops) k1].
Proof.
  assert (LC : forall (x : F) l k, last (x :: l) k = last l x).
  { intros x l. revert x. induction l as [|y l IH]; intros x k; [reflexivity|]. change (last (y :: l) k = last (y :: l) x). now rewrite !IH. }
  induction ops as [|o ops IH]; intros d d' k0 k1 K E; cbn [run_all] in E; [injection E as <-; exact K|].
  destruct (run_dop o d) as [d1|e|] eqn:E1; cbn [bind] in E; try discriminate. rewrite (IH d1 d' _ _ (keys_step o d d1 k0 k1 K E1) E).
  cbn [flat_map]. destruct o; cbn [app]; rewrite ?LC; reflexivity.
Qed.
Lemma run_all_app {O S} (f : O -> S -> res S) a b s s' : run_all f a s = Ok s' -> run_all f (a ++ b) s = run_all f b s'.
Proof.
  revert s. induction a as [|o a IH]; intros s E; cbn [run_all app] in *; [congruence|].
  destruct (f o s) as [t|e|]; cbn [bind] in *; try discriminate. exact (IH t E).
Qed.
Lemma setters_row ops d d1 d2 x0 x1 P0 P1 js rs sg KI d' :
  run_all run_dop ops (NewDualKey R) = Ok d -> Forall setup ops ->
  SetPrimaryKey R d x0 = Ok (d1, P0) -> SetCommToZero R d1 x1 = Ok (d2, P1) ->
  dk_Prove R d2 js rs = (Ok (sg, KI), d') -> In (mkPK R false [P0; P1]) (sg_pub R sg).
Proof.
  intros E HS E0 E1 EP.
  assert (E2 : run_all run_dop (ops ++ [DPrimary x0; DComm x1]) (NewDualKey R) = Ok d2).
  { rewrite (run_all_app _ _ _ _ d E). cbn [run_all run_dop]. rewrite E0. cbn [bind]. rewrite E1. reflexivity. }
  destruct (two_keys ops _ d dk_shape_new E) as [k0 [k1 EK]].
  unfold SetPrimaryKey in E0. rewrite EK in E0. cbn in E0. injection E0 as <- <-. unfold SetCommToZero in E1. cbn in E1. injection E1 as E3 <-.
  assert (HF : dk_fresh d2). { apply (dk_fresh_run _ _ d2 dk_fresh_new dk_shape_new) in E2; [exact E2|]. apply Forall_app. split; [exact HS|]. repeat constructor. }
  unfold dk_Prove in EP. assert (EK2 : dk_keys R d2 = [x0; x1]) by (rewrite <- E3; reflexivity). rewrite EK2 in EP.
  destruct (orb _ _); [discriminate|]. destruct (dk_fresh_inv d2 x0 x1 HF) as [I0 [HP HM]].
  destruct (prove R _ true js rs) as [[[s J]|e|] p'] eqn:EPr; try discriminate. destruct J as [|K [|? ?]]; try discriminate. injection EP as -> -> _.
  destruct (prove_content _ true js rs sg [KI] p' I0 EPr) as [_ [HPm _]]; [discriminate|]. rewrite HP in HPm.
  apply (Permutation_in _ HPm), in_or_app. right. left. reflexivity.
Qed.
Lemma members_count (f : mop (R := R) -> bool) : (forall k, f (ODecoy k) = true) -> (forall x, f (OSecret x) = false) -> (forall m, f (OMsg m) = false) ->
  (forall sk js rs, f (OProve sk js rs) = true) ->
  forall ops p, LenMembers R (fold_left run_mop ops p) = LenMembers R p + length (filter f ops).
Proof.
  intros F1 F2 F3 F4. induction ops as [|o ops IH]; intros p; cbn [fold_left filter]; [cbn; lia|]. rewrite IH.
  assert (E : LenMembers R (run_mop p o) = LenMembers R p + if f o then 1 else 0).
  { unfold LenMembers. destruct o as [k|x|m|sk js rs]; rewrite ?F1, ?F2, ?F3, ?F4; cbn [run_mop].
    - unfold AddDecoy, addPubKeys. cbn [mp_matrix]. rewrite app_length. reflexivity.
    - cbn. lia.
    - cbn. lia.
    - destruct (prove_snd p sk js rs) as [p' [_ [S ES]]]. rewrite ES. cbn [snd]. destruct S as [_ [_ [_ [S4 _]]]].
      rewrite <- (Permutation_length S4), app_length. reflexivity. }
  rewrite E. destruct (f o); cbn [length]; lia.
Qed.
Lemma keys_added ks : forall p : pubkeys R, let q := fold_left (AddPubKey R) ks p in
  pk_keys R q = pk_keys R p ++ ks /\ pk_decoy R q = pk_decoy R p /\ pk_Len R q = pk_Len R p + length ks /\
  OutputKey R q = match pk_keys R p ++ ks with k :: _ => Ok k | [] => Panic end.
Proof.
  intros p. cbv zeta.
  assert (E : pk_keys R (fold_left (AddPubKey R) ks p) = pk_keys R p ++ ks /\ pk_decoy R (fold_left (AddPubKey R) ks p) = pk_decoy R p).
  { revert p. induction ks as [|k ks IH]; intros p; cbn [fold_left]; [rewrite app_nil_r; auto|].
    destruct (IH (AddPubKey R p k)) as [E1 E2]. rewrite E1, E2. cbn [AddPubKey pk_keys pk_decoy]. rewrite <- app_assoc. auto. }
  destruct E as [E1 E2]. split; [exact E1|]. split; [exact E2|]. unfold pk_Len, OutputKey. rewrite E1, app_length. split; [reflexivity|].
  destruct (pk_keys R p ++ ks); reflexivity.
Qed.
End Props.
