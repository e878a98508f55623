(** Facts for C10 (levels) and C71: the complete structure of a tree, and what
    VerifyContent and VerifyTree say about trees that were altered afterwards. *)
From Coq Require Import String ZArith List Arith Lia Bool.
From Verif Require Import GoModel GoFacts MerkleModel SpecMerkle MerkleFacts MerkleProps.
Import ListNotations.

Section Tamper.
Context {P : Type} (calc : P -> res bytes) (sha3 : bytes -> bytes).
Notation node := (node P).
Notation heap := (heap P).
Notation NewTree := (@NewTree P calc sha3).
Notation VerifyTree := (@VerifyTree P calc sha3).
Notation VerifyContent := (@VerifyContent P calc sha3).
Notation CalculateNodeHash := (@CalculateNodeHash P calc sha3).
Notation climb := (@climb P calc sha3).

(** ** Levels *)
Lemma joins_mono (h h' : heap) s l r j :
  map strip h' = map strip h ++ s -> (par h' l = par h l) -> par h' r = par h r ->
  joins sha3 h l r j -> joins sha3 h' l r j.
Proof.
  intros E Pl Pr (nl & nr & p & El & Er & P1 & P2 & Ej).
  destruct (strip_nth_old _ _ _ _ _ E El) as [nl' [El' Sl]].
  destruct (strip_nth_old _ _ _ _ _ E Er) as [nr' [Er' Sr]].
  destruct (strip_nth_old _ _ _ _ _ E Ej) as [nj' [Ej' Sj]].
  exists nl', nr', (n_parent nj'). split; [exact El'|]. split; [exact Er'|].
  unfold par in Pl, Pr. rewrite El, El' in Pl. rewrite Er, Er' in Pr.
  split; [congruence|]. split; [congruence|]. rewrite Ej'. f_equal.
  injection Sl as _ _ Hl _ _ _. injection Sr as _ _ Hr _ _ _.
  destruct nj'; cbn in *. injection Sj as -> -> -> -> -> ->. rewrite Hl, Hr. reflexivity.
Qed.

Lemma level_of (h h1 : heap) : forall nl k0,
  (forall i, In i nl -> i < length h) ->
  (forall k n, nth_error (@level_nodes P sha3 (hash_at h) nl) k = Some n ->
     exists m, nth_error h1 (k0 + k) = Some m /\ strip m = n) ->
  (forall i, i < length h -> exists n m, nth_error h i = Some n /\ nth_error h1 i = Some m /\ strip m = strip n) ->
  (forall k i, nth_error nl k = Some i -> par h1 i = Some (k0 + k / 2)) ->
  level sha3 h1 nl (seq k0 (length (@level_nodes P sha3 (hash_at h) nl))).
Proof.
  assert (J : forall (a b k0 : nat), a < length h -> b < length h ->
     (exists m, nth_error h1 k0 = Some m /\ strip m = new_node sha3 (hash_at h) a b) ->
     (forall i, i < length h -> exists n m, nth_error h i = Some n /\ nth_error h1 i = Some m /\ strip m = strip n) ->
     par h1 a = Some k0 -> par h1 b = Some k0 -> joins sha3 h1 a b k0).
  { intros a b k0 La Lb [m [Em Sm]] HO Pa Pb.
    destruct (HO a La) as [na [ma [Ea [Ea' Sa]]]]. destruct (HO b Lb) as [nb [mb [Eb [Eb' Sb]]]].
    exists ma, mb, (n_parent m). split; [exact Ea'|]. split; [exact Eb'|].
    unfold par in Pa, Pb. rewrite Ea' in Pa. rewrite Eb' in Pb.
    split; [exact Pa|]. split; [exact Pb|]. rewrite Em. f_equal.
    injection Sa as _ _ Ha _ _ _. injection Sb as _ _ Hb _ _ _.
    unfold new_node, hash_at in Sm. rewrite Ea, Eb in Sm. rewrite Ha, Hb.
    destruct m; cbn in *. injection Sm as -> -> -> -> -> ->. reflexivity. }
  induction nl as [|a|a b l IH] using pair_ind; intros k0 HB HN HO HP.
  - constructor.
  - cbn. constructor. apply J; auto.
    + apply HB. left. reflexivity.
    + apply HB. left. reflexivity.
    + destruct (HN 0 _ eq_refl) as [m Hm]. rewrite Nat.add_0_r in Hm. eauto.
    + rewrite (HP 0 a eq_refl). cbn. f_equal. lia.
    + rewrite (HP 0 a eq_refl). cbn. f_equal. lia.
  - cbn [level_nodes length seq]. constructor.
    + apply J; auto.
      * apply HB. cbn. auto.
      * apply HB. cbn. auto.
      * destruct (HN 0 _ eq_refl) as [m Hm]. rewrite Nat.add_0_r in Hm. eauto.
      * rewrite (HP 0 a eq_refl). cbn. f_equal. lia.
      * rewrite (HP 1 b eq_refl). cbn. f_equal. lia.
    + apply IH; auto.
      * intros i Hi. apply HB. cbn. auto.
      * intros k n Hn. destruct (HN (S k) n Hn) as [m Hm]. exists m.
        replace (S k0 + k) with (k0 + S k) by lia. exact Hm.
      * intros k i Hk. rewrite (HP (S (S k)) i Hk). f_equal.
        replace (S (S k)) with (k + 1 * 2) by lia. rewrite Nat.div_add by lia. lia.
Qed.

Lemma level_mono (h h' : heap) s nl js :
  map strip h' = map strip h ++ s -> (forall i, In i nl -> par h' i = par h i) ->
  level sha3 h nl js -> level sha3 h' nl js.
Proof.
  intros E HP L. induction L as [|a j J|a b nl j js J L IH].
  - constructor.
  - constructor. eapply joins_mono; eauto; apply HP; cbn; auto.
  - constructor.
    + eapply joins_mono; eauto; apply HP; cbn; auto.
    + apply IH. intros i Hi. apply HP. cbn. auto.
Qed.

Lemma intermediate_levels (fuel : nat) : forall (h : heap) nl (h' : heap) root,
  (forall i, In i nl -> i < length h) -> NoDup nl -> 2 <= length nl -> length nl <= fuel ->
  createIntermediate sha3 fuel h nl = Some (Ok (h', root)) -> levels sha3 h' nl root.
Proof.
  induction fuel as [|fuel IH]; intros h nl h' root HB HN L2 LF E; [lia|].
  destruct (create_level_spec sha3 nl h [] HB HN) as [h1 [E1 [S1 [PA PB]]]].
  pose proof (strip_length _ _ _ S1) as L1.
  assert (LV : level sha3 h1 nl (seq (length h) (length (@level_nodes P sha3 (hash_at h) nl)))).
  { apply level_of; auto.
    - intros k n Hn. exact (strip_nth_new _ _ _ _ _ S1 Hn).
    - intros i Hi. destruct (nth_error h i) as [n|] eqn:En; [|apply nth_error_None in En; lia].
      destruct (strip_nth_old _ _ _ _ _ S1 En) as [m [Em Sm]]. exists n, m. auto. }
  cbn [MerkleModel.createIntermediate] in E.
  destruct (Nat.eqb_spec (length nl) 2) as [C|C].
  - destruct nl as [|a [|b [|c l]]]; try discriminate C.
    rewrite create_level_two, E1 in E. cbn [level_nodes length seq app] in E. injection E as <- <-.
    cbn [level_nodes length seq] in LV. inversion LV; subst. constructor; [assumption|].
    rewrite PB; [apply par_out; lia|]. intros Hi. apply HB in Hi. lia.
  - rewrite E1 in E. cbn [app] in E.
    assert (LN : length (@level_nodes P sha3 (hash_at h) nl) < length nl /\ 2 <= length (@level_nodes P sha3 (hash_at h) nl)).
    { rewrite level_nodes_length. pose proof (pair_up_lt sha3 (map (hash_at h) nl)) as X.
      rewrite map_length in X. apply X. lia. }
    assert (HB1 : forall i, In i (seq (length h) (length (@level_nodes P sha3 (hash_at h) nl))) -> i < length h1).
    { intros i Hi. apply in_seq in Hi. lia. }
    apply (ls_up sha3 h' nl (seq (length h) (length (@level_nodes P sha3 (hash_at h) nl)))); [lia| |].
    + destruct (createIntermediate_built calc sha3 0 fuel h1 (seq (length h) (length (@level_nodes P sha3 (hash_at h) nl))))
        as [h2 [root2 [E2 B2]]]; [exact HB1|apply seq_NoDup|rewrite seq_length; lia|rewrite seq_length; lia|].
      rewrite E in E2. injection E2 as <- <-. destruct (b_strip _ _ _ _ _ _ _ B2) as [s Hs].
      eapply level_mono; [exact Hs| |exact LV].
      intros i Hi. apply (b_frame _ _ _ _ _ _ _ B2); [|specialize (HB i Hi); lia].
      intros C2. apply in_seq in C2. specialize (HB i Hi). lia.
    + eapply IH; [exact HB1|apply seq_NoDup|rewrite seq_length; lia|rewrite seq_length; lia|exact E].
Qed.

Lemma newtree_levels fuel h pl h' t : NewTree fuel h pl = Some (h', Ok t) ->
  exists root, t_root t = Some root /\ levels sha3 h' (t_leaves t) root.
Proof.
  intros E. destruct (newtree_inv calc sha3 _ _ _ _ _ E) as [hs T].
  pose proof (tf_calc _ _ _ _ _ _ _ T) as HF. pose proof (tf_ne _ _ _ _ _ _ _ T) as Hne.
  pose proof (newtree_ok calc sha3 (fuel + S (length pl)) h pl hs Hne HF ltac:(lia)) as [h2 [t2 [E2 _]]].
  assert (X : create calc sha3 (fuel + S (length pl)) h pl = create calc sha3 fuel h pl).
  { unfold MerkleModel.NewTree in E. destruct (create calc sha3 fuel h pl) as [r|] eqn:Ec; [|discriminate].
    apply (create_mono calc sha3 fuel h pl r Ec). lia. }
  unfold MerkleModel.NewTree in E. rewrite <- X in E.
  rewrite (create_eq calc sha3 _ h pl hs Hne HF) in E.
  assert (LA : length (all_leaves pl hs) = length (padded pl)).
  { rewrite <- (map_length (@n_data P)), all_leaves_data, map_length by (symmetry; apply (Forall2_length HF)). reflexivity. }
  assert (LP : 2 <= length (padded pl) <= S (length pl)).
  { rewrite padded_length. destruct pl as [|a [|b l]]; [congruence|cbn; lia|].
    cbn [length]. pose proof (Nat.mod_upper_bound (S (S (length l))) 2). lia. }
  destruct (createIntermediate sha3 (fuel + S (length pl)) (h ++ all_leaves pl hs) (seq (length h) (length (padded pl))))
    as [[[h3 root]|e|]|] eqn:Ei; try discriminate.
  destruct (idx h3 root) as [n|e|]; try discriminate. injection E as <- <-. cbn [t_root t_leaves].
  exists root. split; [reflexivity|].
  eapply intermediate_levels; [| | | |exact Ei].
  - intros i Hi. apply in_seq in Hi. rewrite app_length. lia.
  - apply seq_NoDup.
  - rewrite seq_length. lia.
  - rewrite seq_length. lia.
Qed.

(** ** VerifyContent on any heap *)
Lemma node_value_iff (h : heap) p x : node_value calc sha3 h p x <-> CalculateNodeHash h p = Ok x.
Proof.
  unfold MerkleModel.CalculateNodeHash, deref, idx, data_hash. split.
  - intros N. inversion N as [i n q y E L D C|i n l nl r nr E L El Enl Er Enr]; subst; rewrite E; cbn [bind]; rewrite L.
    + rewrite D. exact C.
    + rewrite El, Enl, Er, Enr. reflexivity.
  - destruct p as [i|]; [|discriminate]. destruct (nth_error h i) as [n|] eqn:E; [|discriminate]. cbn [bind].
    destruct (n_isleaf n) eqn:L.
    + destruct (n_data n) as [q|] eqn:D; [|discriminate]. intros C. eapply nv_leaf; eauto.
    + destruct (n_left n) as [l|] eqn:El; [|discriminate]. destruct (nth_error h l) as [nl|] eqn:Enl; [|discriminate].
      cbn [bind]. destruct (n_right n) as [r|] eqn:Er; [|discriminate]. destruct (nth_error h r) as [nr|] eqn:Enr; [|discriminate].
      cbn [bind]. intros C. injection C as <-. eapply nv_inner; eauto.
Qed.

Lemma climb_true_iff (h : heap) p : path_right calc sha3 h p <-> exists f0, forall f, f0 <= f -> climb f h p = Ok true.
Proof.
  split.
  - induction 1 as [|j n xl xr E Nl Nr Hh _ [f0 IH]].
    + exists 0. intros [|f] _; reflexivity.
    + exists (S f0). intros f Hf. destruct f as [|f]; [lia|]. cbn [MerkleModel.climb].
      unfold deref, idx. rewrite E. cbn [bind].
      rewrite (proj1 (node_value_iff h _ _) Nr), (proj1 (node_value_iff h _ _) Nl). cbn [bind].
      rewrite Hh, bytes_eqb_refl. apply IH. lia.
  - intros [f0 H]. specialize (H f0 (le_n _)). revert p H.
    induction f0 as [|f IH]; intros [j|] H; cbn [MerkleModel.climb] in H; try discriminate; try constructor.
    unfold deref, idx in H. destruct (nth_error h j) as [n|] eqn:E; [|discriminate]. cbn [bind] in H.
    destruct (CalculateNodeHash h (n_right n)) as [xr| |] eqn:Er; try discriminate. cbn [bind] in H.
    destruct (CalculateNodeHash h (n_left n)) as [xl| |] eqn:El; try discriminate. cbn [bind] in H.
    destruct (bytes_eqb_spec (sha3 (xl ++ xr)) (n_hash n)) as [Hh|]; [|discriminate].
    eapply pr_step; [exact E|apply node_value_iff; exact El|apply node_value_iff; exact Er|auto|apply IH; exact H].
Qed.

Lemma content_step f (h : heap) i rest d x : calc d = Ok x ->
  (exists y, holds calc h i y) ->
  (holds calc h i x /\ exists n, nth_error h i = Some n /\
     verify_content_loop calc sha3 f h (i :: rest) (Some d) = climb f h (n_parent n)) \/
  (~ holds calc h i x /\
     verify_content_loop calc sha3 f h (i :: rest) (Some d) = verify_content_loop calc sha3 f h rest (Some d)).
Proof.
  intros Hd [y [n [p [E [D C]]]]]. cbn [verify_content_loop]. unfold idx. rewrite E. cbn [bind].
  unfold equals. rewrite D, C. cbn [bind]. rewrite Hd. cbn [bind].
  destruct (bytes_eqb_spec y x) as [->|N].
  - left. split; [exists n, p; auto|]. exists n. auto.
  - right. split; [|reflexivity]. intros [n' [p' [E' [D' C']]]]. congruence.
Qed.

Lemma content_true_iff (h : heap) t d x : calc d = Ok x ->
  ((exists f0, forall f, f0 <= f -> VerifyContent f h t (Some d) = Ok true) <->
   exists pre i post n, t_leaves t = pre ++ i :: post /\
     (forall k, In k pre -> exists y, holds calc h k y /\ y <> x) /\
     holds calc h i x /\ nth_error h i = Some n /\ path_right calc sha3 h (n_parent n)).
Proof.
  intros Hd. unfold MerkleModel.VerifyContent. generalize (t_leaves t) as ls. clear t. intros ls. split.
  - intros [f0 H]. specialize (H f0 (le_n _)) as H0. revert H. induction ls as [|i rest IH]; intros H; [discriminate H0|].
    assert (HH : exists y, holds calc h i y).
    { cbn [verify_content_loop] in H0. unfold idx in H0. destruct (nth_error h i) as [n|] eqn:E; [|discriminate].
      cbn [bind] in H0. unfold equals in H0. destruct (n_data n) as [p|] eqn:D; [|discriminate].
      destruct (calc p) as [y| |] eqn:C; try discriminate. exists y, n, p. auto. }
    destruct (content_step f0 h i rest d x Hd HH) as [[Hx [n [En E]]]|[Hx E]].
    + exists [], i, rest, n. split; [reflexivity|]. split; [intros k []|]. split; [exact Hx|]. split; [exact En|].
      apply climb_true_iff. exists f0. intros f Hf. specialize (H f Hf).
      destruct (content_step f h i rest d x Hd HH) as [[_ [n' [En' E']]]|[C _]]; [|contradiction].
      congruence.
    + rewrite E in H0. destruct (IH H0) as (pre & j & post & n & -> & A & B & C & D).
      { intros f Hf. specialize (H f Hf).
        destruct (content_step f h i rest d x Hd HH) as [[C _]|[_ E']]; [contradiction|congruence]. }
      exists (i :: pre), j, post, n. split; [reflexivity|]. split; [|auto].
      intros k [<-|Hk]; [|auto]. destruct HH as [y Hy]. exists y. split; [exact Hy|]. congruence.
  - intros (pre & i & post & n & -> & A & B & C & D). apply climb_true_iff in D. destruct D as [f0 D].
    exists f0. intros f Hf. induction pre as [|k pre IH]; cbn [app].
    + destruct (content_step f h i post d x Hd ltac:(eauto)) as [[_ [n' [En' E']]]|[X _]]; [|contradiction].
      rewrite E'. assert (n' = n) by congruence. subst. apply D. exact Hf.
    + destruct (A k (or_introl eq_refl)) as [y [Hy Ny]].
      destruct (content_step f h k (pre ++ i :: post) d x Hd ltac:(eauto)) as [[X _]|[_ E']].
      * exfalso. destruct Hy as (n1 & p1 & e1 & e2 & e3). destruct X as (n2 & p2 & g1 & g2 & g3). congruence.
      * rewrite E'. apply IH. intros k' Hk'. apply A. right. exact Hk'.
Qed.

(** ** Replaced payloads *)
Lemma level_find (h : heap) nl js i : level sha3 h nl js -> In i nl -> Nat.even (length nl) = true ->
  exists m a b j, nth_error nl (2 * m) = Some a /\ nth_error nl (2 * m + 1) = Some b /\ (i = a \/ i = b) /\
    joins sha3 h a b j.
Proof.
  induction 1 as [|a j J|a b nl j js J L IH]; intros Hi Ev; [destruct Hi|discriminate|].
  destruct Hi as [->|[->|Hi]].
  - exists 0, i, b, j. cbn. auto.
  - exists 0, a, i, j. cbn. auto.
  - destruct (IH Hi Ev) as (m & a' & b' & j' & E1 & E2 & E3 & E4).
    exists (S m), a', b', j'. replace (2 * S m) with (S (S (2 * m))) by lia. cbn [nth_error Nat.add].
    rewrite Nat.add_1_r in E2. replace (2 * m + 1) with (S (2 * m)) by lia. auto.
Qed.

Lemma levels_find (h : heap) nl root i : levels sha3 h nl root -> In i nl -> Nat.even (length nl) = true ->
  exists m a b j, nth_error nl (2 * m) = Some a /\ nth_error nl (2 * m + 1) = Some b /\ (i = a \/ i = b) /\
    joins sha3 h a b j.
Proof.
  intros L Hi Ev. inversion L as [a b r J PN|nl' js r L2 LV LS]; subst.
  - exists 0, a, b, root. cbn. destruct Hi as [<-|[<-|[]]]; auto.
  - eapply level_find; eauto.
Qed.

Lemma level_inputs_nth (hs : list bytes) : forall m x y,
  nth_error hs (2 * m) = Some x -> nth_error hs (2 * m + 1) = Some y ->
  nth_error (level_inputs hs) m = Some (x ++ y).
Proof.
  induction hs as [|a|a b l IH] using pair_ind; intros m x y E1 E2.
  - destruct (2 * m); discriminate.
  - destruct m as [|m]; [discriminate|]. replace (2 * S m) with (S (S (2 * m))) in E1 by lia. discriminate.
  - destruct m as [|m]; cbn [level_inputs].
    + cbn in E1, E2. injection E1 as ->. injection E2 as ->. reflexivity.
    + replace (2 * S m) with (S (S (2 * m))) in * by lia. cbn [nth_error] in *.
      replace (S (S (2 * m)) + 1) with (S (S (2 * m + 1))) in E2 by lia. cbn [nth_error] in E2. apply IH; assumption.
Qed.

Lemma find_combine_collision (xs ys : list bytes) m u v :
  nth_error xs m = Some u -> nth_error ys m = Some v -> u <> v -> sha3 u = sha3 v ->
  exists x y, find (is_collision sha3) (combine xs ys) = Some (x, y) /\ x <> y /\ sha3 x = sha3 y.
Proof.
  intros E1 E2 N C.
  destruct (find (is_collision sha3) (combine xs ys)) as [[x y]|] eqn:F.
  - exists x, y. split; [reflexivity|]. apply find_some in F. destruct F as [_ F].
    unfold is_collision in F. cbn in F. apply andb_prop in F. destruct F as [F1 F2].
    apply negb_true_iff in F1. destruct (bytes_eqb_spec x y); [discriminate|].
    destruct (bytes_eqb_spec (sha3 x) (sha3 y)); [|discriminate]. auto.
  - exfalso. assert (I : In (u, v) (combine xs ys)).
    { clear -E1 E2. revert xs ys E1 E2. induction m as [|m IH]; intros [|a xs] [|b ys] E1 E2; cbn in *; try discriminate.
      - left. congruence.
      - right. auto. }
    apply (find_none _ _ F) in I. unfold is_collision in I. cbn in I. rewrite C, bytes_eqb_refl, andb_true_r in I.
    apply negb_false_iff in I. destruct (bytes_eqb_spec u v); [contradiction|discriminate].
Qed.

Lemma Forall2_nth_l {A B} (Q : A -> B -> Prop) l m k a : Forall2 Q l m -> nth_error l k = Some a ->
  exists b, nth_error m k = Some b /\ Q a b.
Proof.
  intros F. revert k. induction F as [|x y l m Hxy F IH]; intros [|k] E; cbn in *; try discriminate.
  - injection E as <-. eauto.
  - auto.
Qed.

Lemma Forall2_nth_r {A B} (Q : A -> B -> Prop) l m k b : Forall2 Q l m -> nth_error m k = Some b ->
  exists a, nth_error l k = Some a /\ Q a b.
Proof.
  intros F. revert k. induction F as [|x y l m Hxy F IH]; intros [|k] E; cbn in *; try discriminate.
  - injection E as <-. eauto.
  - auto.
Qed.

Lemma even_padded {A} (l : list A) : Nat.even (length (padded l)) = true.
Proof.
  rewrite padded_length. apply Nat.even_spec.
  pose proof (Nat.div_mod (length l) 2 ltac:(lia)) as D.
  pose proof (Nat.mod_upper_bound (length l) 2 ltac:(lia)) as UB.
  exists (length l / 2 + length l mod 2). lia.
Qed.

Lemma hashes_det pl hs hs' : hashes calc pl hs -> hashes calc pl hs' -> hs = hs'.
Proof.
  intros HF. revert hs'. induction HF as [|a b la lb Hab HF' IH]; intros hs' HF2; inversion HF2; subst; [reflexivity|].
  f_equal; [congruence|auto].
Qed.

Lemma newtree_content_tamper fuel h pl h' t hs h2 pl2 hs2 d x f0 :
  NewTree fuel h pl = Some (h', Ok t) -> hashes calc pl hs ->
  Forall (fun x => length x = 32) hs -> tampered h' h2 (t_leaves t) pl2 -> hashes calc pl2 hs2 ->
  Forall (fun x => length x = 32) hs2 -> calc d = Ok x ->
  (forall f, f0 <= f -> VerifyContent f h2 t (Some d) = Ok true) ->
  In x hs \/ exists u v, leaf_collision sha3 hs2 (padded hs) = Some (u, v) /\ u <> v /\ sha3 u = sha3 v.
Proof.
  intros E HF A1 TA HF2 A2 Hd HV.
  destruct (newtree_levels _ _ _ _ _ E) as [root [_ LV]].
  destruct (newtree_inv calc sha3 _ _ _ _ _ E) as [hs' T].
  assert (hs' = hs) by (eapply hashes_det; [apply (tf_calc _ _ _ _ _ _ _ T)|exact HF]). subst hs'.
  pose proof (tf_leaves _ _ _ _ _ _ _ T) as FL.
  destruct (proj1 (content_true_iff h2 t d x Hd)) as (pre & i & post & n & EL & _ & Hx & En & PR); [exists f0; exact HV|].
  assert (Hi : In i (t_leaves t)) by (rewrite EL; apply in_or_app; right; left; reflexivity).
  assert (Ev : Nat.even (length (t_leaves t)) = true) by (rewrite (Forall2_length FL); apply even_padded).
  destruct (levels_find _ _ _ _ LV Hi Ev) as (m & a & b & j & Ea & Eb & Hab & J).
  destruct J as (na & nb & pj & Na & Nb & Pa & Pb & Nj).
  (* values of the two leaves before and after *)
  pose proof (padded_Forall2 _ _ _ HF) as HFP.
  assert (V : forall k c nc, nth_error (t_leaves t) k = Some c -> nth_error h' c = Some nc ->
     exists y y2 q2, nth_error (padded hs) k = Some y /\ n_hash nc = y /\
       nth_error hs2 k = Some y2 /\ calc q2 = Ok y2 /\ nth_error h2 c = Some (with_data nc q2) /\ n_isleaf nc = true).
  { intros k c nc Ek Ec.
    destruct (Forall2_nth_l _ _ _ _ _ FL Ek) as [p [Ep [nc' [Ec' [Dc [Lc Cc]]]]]].
    assert (nc' = nc) by congruence. subst nc'.
    destruct (Forall2_nth_l _ _ _ _ _ HFP Ep) as [y [Ey Cy]].
    destruct TA as [_ TB]. destruct (Forall2_nth_l _ _ _ _ _ TB Ek) as [q2 [Eq2 [nc2 [Ec2 Ec3]]]].
    assert (nc2 = nc) by congruence. subst nc2.
    destruct (Forall2_nth_l _ _ _ _ _ HF2 Eq2) as [y2 [Ey2 Cy2]].
    exists y, y2, q2. repeat split; auto. congruence. }
  destruct (V _ _ _ Ea Na) as (ya & ya2 & qa & Hya & Hna & Hya2 & Ca & Ha2 & La).
  destruct (V _ _ _ Eb Nb) as (yb & yb2 & qb & Hyb & Hnb & Hyb2 & Cb & Hb2 & Lb).
  (* the parent is unchanged *)
  assert (Hj2 : nth_error h2 j = Some (mkNode pj (Some a) (Some b) (sha3 (n_hash na ++ n_hash nb)) None false false)).
  { rewrite <- Nj. apply (proj1 TA). intros Hj.
    destruct (In_nth_error _ _ Hj) as [k Hk]. destruct (Forall2_nth_l _ _ _ _ _ FL Hk) as [p [_ [nj [Ej [_ [Lj _]]]]]].
    rewrite Nj in Ej. injection Ej as <-. discriminate Lj. }
  (* so the path starts there *)
  assert (Pn : n_parent n = Some j).
  { destruct Hab as [->| ->].
    - rewrite Ha2 in En. injection En as <-. exact Pa.
    - rewrite Hb2 in En. injection En as <-. exact Pb. }
  rewrite Pn in PR. inversion PR as [|j' nj xl xr Ej NL NR HH _]; subst j'.
  rewrite Hj2 in Ej. injection Ej as <-. cbn [n_left n_right n_hash] in *.
  assert (xl = ya2).
  { apply node_value_iff in NL. unfold MerkleModel.CalculateNodeHash, deref, idx in NL. rewrite Ha2 in NL. cbn [bind with_data n_isleaf] in NL.
    rewrite La in NL. unfold data_hash in NL. cbn in NL. congruence. }
  assert (xr = yb2).
  { apply node_value_iff in NR. unfold MerkleModel.CalculateNodeHash, deref, idx in NR. rewrite Hb2 in NR. cbn [bind with_data n_isleaf] in NR.
    rewrite Lb in NR. unfold data_hash in NR. cbn in NR. congruence. }
  subst xl xr. rewrite Hna, Hnb in HH.
  assert (XX : x = ya2 \/ x = yb2).
  { destruct Hx as (n' & p' & e1 & e2 & e3). assert (n' = n) by congruence. subst n'.
    destruct Hab as [->| ->]; [left; rewrite Ha2 in En|right; rewrite Hb2 in En]; injection En as <-; cbn in e2; congruence. }
  destruct (list_eq_dec Byte.byte_eq_dec (ya2 ++ yb2) (ya ++ yb)) as [Q|Q].
  - left. assert (L1 : length ya2 = 32) by (rewrite Forall_forall in A2; apply A2; eapply nth_error_In; exact Hya2).
    assert (L2 : length ya = 32).
    { apply all32_padded in A1. unfold all32 in A1. rewrite Forall_forall in A1. apply A1. eapply nth_error_In; exact Hya. }
    destruct (app_eq_len ya2 yb2 ya yb ltac:(congruence) Q) as [-> ->].
    destruct XX as [->| ->]; apply In_padded; eapply nth_error_In; eassumption.
  - right. unfold leaf_collision. eapply find_combine_collision with (m := m).
    + apply level_inputs_nth; eassumption.
    + apply level_inputs_nth; eassumption.
    + exact Q.
    + congruence.
Qed.

(** ** An altered root *)
Lemma newtree_altered_mroot fuel h pl h' t r : NewTree fuel h pl = Some (h', Ok t) -> r <> t_mroot t ->
  exists f0, forall f, f0 <= f -> VerifyTree f h' (mkTree (t_root t) r (t_leaves t)) = Ok false.
Proof.
  intros E N. destruct (newtree_verifies calc sha3 _ _ _ _ _ E) as [f0 H]. exists f0. intros f Hf.
  specialize (H f Hf). unfold MerkleModel.VerifyTree in *. cbn [t_root t_mroot].
  destruct (VerifyNode calc sha3 f h' (t_root t)) as [c| |]; cbn [bind] in *; try discriminate.
  destruct (bytes_eqb_spec (t_mroot t) c) as [X|]; [|discriminate].
  rewrite <- X. destruct (bytes_eqb_spec r (t_mroot t)); [contradiction|reflexivity].
Qed.

(** every newly allocated node stores the hash recomputed by both functions *)
Lemma newtree_nodes fuel h pl h' t i n : NewTree fuel h pl = Some (h', Ok t) -> length h <= i -> nth_error h' i = Some n ->
  CalculateNodeHash h' (Some i) = Ok (n_hash n) /\
  exists f0, forall f, f0 <= f -> VerifyNode calc sha3 f h' (Some i) = Ok (n_hash n).
Proof.
  intros E Hi En. destruct (newtree_inv calc sha3 _ _ _ _ _ E) as [hs T].
  pose proof (tf_wf _ _ _ _ _ _ _ T) as W.
  split; [eapply calc_node_hash; eassumption|].
  revert n Hi En. induction i as [i IH] using lt_wf_ind. intros n Hi En.
  destruct (W i n Hi En) as [[L [p [D C]]]|[L [l [r [El [Er [Hl [Hr Hh]]]]]]]].
  - exists 1. intros [|f] Hf; [lia|]. cbn [VerifyNode]. unfold deref, idx. rewrite En. cbn [bind]. rewrite L.
    unfold data_hash. rewrite D. exact C.
  - assert (Li : i < length h') by (apply nth_error_Some; congruence).
    destruct (nth_error h' l) as [nl|] eqn:Enl; [|apply nth_error_None in Enl; lia].
    destruct (nth_error h' r) as [nr|] eqn:Enr; [|apply nth_error_None in Enr; lia].
    destruct (IH l ltac:(lia) nl ltac:(lia) Enl) as [f1 H1]. destruct (IH r ltac:(lia) nr ltac:(lia) Enr) as [f2 H2].
    exists (S (f1 + f2)). intros [|f] Hf; [lia|]. cbn [VerifyNode]. unfold deref, idx. rewrite En. cbn [bind]. rewrite L, El, Er.
    rewrite H2, H1 by lia. cbn [bind]. unfold hash_at in Hh. rewrite Enl, Enr in Hh. rewrite Hh. reflexivity.
Qed.

(** ** A wrong hash stored in the root node *)
Lemma upd_hash_value (h : heap) j n v i x : nth_error h j = Some n -> n_isleaf n = false ->
  (forall m, nth_error h i = Some m -> n_isleaf m = false -> n_left m <> Some j /\ n_right m <> Some j) ->
  node_value calc sha3 h (Some i) x -> node_value calc sha3 (upd h j (with_hash n v)) (Some i) x.
Proof.
  intros Ej Lj NC NV.
  assert (Lk : forall k m, nth_error h k = Some m ->
     exists m', nth_error (upd h j (with_hash n v)) k = Some m' /\ n_left m' = n_left m /\ n_right m' = n_right m /\
       n_isleaf m' = n_isleaf m /\ n_data m' = n_data m /\ (k <> j -> m' = m)).
  { intros k m Ek. destruct (Nat.eq_dec k j) as [->|D].
    - assert (m = n) by congruence. subst m. exists (with_hash n v). split.
      + apply upd_same. apply nth_error_Some. congruence.
      + repeat split; auto. congruence.
    - exists m. rewrite upd_other by congruence. repeat split; auto. }
  inversion NV as [i' m p y E L D C|i' m l nl r nr E L El Enl Er Enr]; subst.
  - destruct (Lk _ _ E) as (m' & E' & _ & _ & Q3 & Q4 & _). eapply nv_leaf; [exact E'|congruence|rewrite Q4; exact D|exact C].
  - destruct (Lk _ _ E) as (m' & E' & Q1 & Q2 & Q3 & _ & _).
    destruct (Lk _ _ Enl) as (ml' & El' & _ & _ & _ & _ & Ql). destruct (Lk _ _ Enr) as (mr' & Er' & _ & _ & _ & _ & Qr).
    destruct (NC m E L) as [Cl Cr].
    rewrite <- (Ql ltac:(congruence)), <- (Qr ltac:(congruence)).
    eapply nv_inner; [exact E'|rewrite Q3; exact L|rewrite Q1; exact El|exact El'|rewrite Q2; exact Er|exact Er'].
Qed.

Lemma chain_le (h : heap) root : forall d i, chain h i d root -> i <= root.
Proof.
  induction d as [|d IH]; intros i C; cbn in C; [lia|]. destruct C as (a & b & _ & L & _ & _ & _ & C).
  apply IH in C. lia.
Qed.

(** climbing through nodes that are all right reaches [root], whose hash is wrong *)
Lemma climb_from (h : heap) s0 root nr xl xr : nth_error h root = Some nr ->
  node_value calc sha3 h (n_left nr) xl -> node_value calc sha3 h (n_right nr) xr -> n_hash nr <> sha3 (xl ++ xr) ->
  forall d i f, 1 <= d -> s0 <= i -> chain h i d root -> d <= f ->
  (forall j n, s0 <= j -> j < root -> nth_error h j = Some n -> n_isleaf n = false ->
     exists yl yr, node_value calc sha3 h (n_left n) yl /\ node_value calc sha3 h (n_right n) yr /\ n_hash n = sha3 (yl ++ yr)) ->
  climb f h (par h i) = Ok false.
Proof.
  intros Er Nl Nr W. induction d as [|d IH]; intros i f Hd Hi Ch Hf OKs; [lia|].
  cbn [chain] in Ch. destruct Ch as (j & n & Pi & Lij & En & Ln & Hlr & Ch).
  rewrite Pi. destruct f as [|f]; [lia|]. cbn [MerkleModel.climb]. unfold deref, idx. rewrite En. cbn [bind].
  destruct d as [|d].
  - cbn [chain] in Ch. destruct Ch as [-> _]. assert (n = nr) by congruence. subst n.
    rewrite (proj1 (node_value_iff h _ _) Nr), (proj1 (node_value_iff h _ _) Nl). cbn [bind].
    destruct (bytes_eqb_spec (sha3 (xl ++ xr)) (n_hash nr)); [congruence|reflexivity].
  - assert (j < root).
    { cbn [chain] in Ch. destruct Ch as (j' & n' & Pj & Lj & _ & _ & _ & Ch). apply chain_le in Ch. lia. }
    destruct (OKs j n ltac:(lia) H En Ln) as (yl & yr & Yl & Yr & Hh).
    rewrite (proj1 (node_value_iff h _ _) Yr), (proj1 (node_value_iff h _ _) Yl). cbn [bind].
    rewrite Hh, bytes_eqb_refl. replace (n_parent n) with (par h j) by (unfold par; rewrite En; reflexivity).
    apply IH; auto; lia.
Qed.

Lemma upd_hash_nth (h : heap) j n v k : nth_error h j = Some n ->
  nth_error (upd h j (with_hash n v)) k = if Nat.eqb k j then Some (with_hash n v) else nth_error h k.
Proof.
  intros E. destruct (Nat.eqb_spec k j) as [->|D].
  - apply upd_same. apply nth_error_Some. congruence.
  - apply upd_other. congruence.
Qed.

Lemma upd_hash_par (h : heap) j n v k : nth_error h j = Some n -> par (upd h j (with_hash n v)) k = par h k.
Proof.
  intros E. unfold par. rewrite (upd_hash_nth _ _ _ _ _ E). destruct (Nat.eqb_spec k j) as [->|D]; [rewrite E|]; reflexivity.
Qed.

Lemma upd_hash_chain (h : heap) j n v root : nth_error h j = Some n ->
  forall d i, chain h i d root <-> chain (upd h j (with_hash n v)) i d root.
Proof.
  intros E. induction d as [|d IH]; intros i; cbn [chain].
  - rewrite (upd_hash_par _ _ _ _ _ E). reflexivity.
  - split.
    + intros (k & m & Pi & L & Ek & Lk & Hlr & C). rewrite (upd_hash_par _ _ _ _ _ E), Pi.
      exists k, (if Nat.eqb k j then with_hash n v else m). split; [reflexivity|]. split; [exact L|].
      rewrite (upd_hash_nth _ _ _ _ _ E). destruct (Nat.eqb_spec k j) as [->|D].
      * assert (m = n) by congruence. subst m. cbn. split; [reflexivity|]. split; [exact Lk|]. split; [exact Hlr|]. apply IH. exact C.
      * split; [exact Ek|]. split; [exact Lk|]. split; [exact Hlr|]. apply IH. exact C.
    + intros (k & m & Pi & L & Ek & Lk & Hlr & C). rewrite (upd_hash_par _ _ _ _ _ E) in Pi. rewrite Pi.
      rewrite (upd_hash_nth _ _ _ _ _ E) in Ek. destruct (Nat.eqb_spec k j) as [->|D].
      * injection Ek as <-. exists j, n. cbn in Lk, Hlr. split; [reflexivity|]. split; [exact L|]. split; [exact E|].
        split; [exact Lk|]. split; [exact Hlr|]. apply IH. exact C.
      * exists k, m. split; [reflexivity|]. split; [exact L|]. split; [exact Ek|].
        split; [exact Lk|]. split; [exact Hlr|]. apply IH. exact C.
Qed.

Lemma newtree_altered_root fuel h pl h' t root n v d x :
  NewTree fuel h pl = Some (h', Ok t) -> t_root t = Some root -> nth_error h' root = Some n -> v <> n_hash n ->
  calc d = Ok x ->
  exists f0, forall f, f0 <= f -> VerifyContent f (upd h' root (with_hash n v)) t (Some d) = Ok false.
Proof.
  intros E Rt En Nv Hd. destruct (newtree_inv calc sha3 _ _ _ _ _ E) as [hs T].
  pose proof (tf_wf _ _ _ _ _ _ _ T) as W. pose proof (tf_s0 _ _ _ _ _ _ _ T) as S0.
  destruct (tf_root _ _ _ _ _ _ _ T) as [root' [Rt' [_ [_ [[dep [Hdep Ch]] _]]]]].
  assert (root' = root) by congruence. subst root'. clear Rt'.
  set (h2 := upd h' root (with_hash n v)).
  assert (RL : n_isleaf n = false).
  { pose proof (tf_ne _ _ _ _ _ _ _ T) as Hne. pose proof (tf_leaves _ _ _ _ _ _ _ T) as FL.
    destruct (t_leaves t) as [|i0 ls] eqn:El.
    { inversion FL as [X|]. symmetry in X. exfalso. apply (padded_ne _ Hne). congruence. }
    specialize (Ch i0 (or_introl eq_refl)). clear -Ch Hdep En. revert i0 Ch.
    induction dep as [|dep IH]; intros i0 Ch; [lia|]. cbn [chain] in Ch.
    destruct Ch as (j & m & _ & _ & Ej & Lj & _ & Ch). destruct dep as [|dep].
    - cbn in Ch. destruct Ch as [-> _]. congruence.
    - apply (IH ltac:(lia) j Ch). }
  (* the values of the children of an inner node at or below the root *)
  assert (CV : forall j m, length h <= j -> j <= root -> nth_error h' j = Some m -> n_isleaf m = false ->
     exists yl yr, node_value calc sha3 h2 (n_left m) yl /\ node_value calc sha3 h2 (n_right m) yr /\ n_hash m = sha3 (yl ++ yr)).
  { intros j m Hj Hjr Ej Lj. destruct (W j m Hj Ej) as [[L _]|[_ [l [r [El [Er [Hl [Hr Hh]]]]]]]]; [congruence|].
    assert (Lj' : j < length h') by (apply nth_error_Some; congruence).
    assert (One : forall c, length h <= c < j -> node_value calc sha3 h2 (Some c) (hash_at h' c)).
    { intros c Hc. destruct (nth_error h' c) as [nc|] eqn:Ec; [|apply nth_error_None in Ec; lia].
      apply upd_hash_value; auto.
      - intros mk Ek Lk. assert (mk = nc) by congruence. subst mk.
        destruct (W c nc ltac:(lia) Ec) as [[L _]|[_ [l' [r' [El' [Er' [Hl' [Hr' _]]]]]]]]; [congruence|].
        rewrite El', Er'. split; intros X; injection X as ->; lia.
      - unfold hash_at. rewrite Ec. apply node_value_iff. eapply calc_node_hash; [exact W| |exact Ec]. lia. }
    exists (hash_at h' l), (hash_at h' r). rewrite El, Er. split; [apply One; lia|]. split; [apply One; lia|exact Hh]. }
  assert (HL : forall i, In i (t_leaves t) -> (exists y, holds calc h2 i y)).
  { intros i Hi. pose proof (tf_leaves _ _ _ _ _ _ _ T) as FL. destruct (In_nth_error _ _ Hi) as [k Hk].
    destruct (Forall2_nth_l _ _ _ _ _ FL Hk) as [p [_ [ni [Ei [Di [Li Ci]]]]]].
    exists (n_hash ni), ni, p. split; [|auto]. unfold h2. rewrite (upd_hash_nth _ _ _ _ _ En).
    destruct (Nat.eqb_spec i root) as [->|D]; [congruence|exact Ei]. }
  assert (S1 : forall d' i, chain h' i (S d') root -> length h <= i -> forall j, par h' i = Some j -> length h <= j /\ j <= root).
  { intros d' i C Hi j Pj. cbn [chain] in C. destruct C as (j' & m & Pj' & L & _ & _ & _ & C).
    assert (j' = j) by congruence. subst j'. apply chain_le in C. lia. }
  destruct (CV root n) as (xl & xr & NL & NR & Hh); auto.
  { assert (I : exists i, In i (t_leaves t)).
    { pose proof (tf_leaves _ _ _ _ _ _ _ T) as FL. pose proof (padded_ne _ (tf_ne _ _ _ _ _ _ _ T)) as Hne.
      destruct (t_leaves t) as [|i0 ls]; [inversion FL; congruence|]. exists i0. left. reflexivity. }
    destruct I as [i Hi]. pose proof (S0 i Hi). pose proof (chain_le _ _ _ _ (Ch i Hi)). lia. }
  exists dep. intros f Hf. unfold MerkleModel.VerifyContent.
  assert (CL : forall i, In i (t_leaves t) -> climb f h2 (par h2 i) = Ok false).
  { intros i Hi. 
    assert (E2 : nth_error h2 root = Some (with_hash n v)).
    { unfold h2. rewrite (upd_hash_nth _ _ _ _ _ En), Nat.eqb_refl. reflexivity. }
    eapply (climb_from h2 (length h) root (with_hash n v) xl xr E2 NL NR ltac:(cbn; congruence) dep i f Hdep);
      [apply S0; exact Hi| |exact Hf|].
    - apply (upd_hash_chain h' root n v root En). apply Ch. exact Hi.
    - intros j m Hj Hjr Ej Lj. apply (CV j m); [lia|lia| |].
      + unfold h2 in Ej. rewrite (upd_hash_nth _ _ _ _ _ En) in Ej. destruct (Nat.eqb_spec j root); [lia|exact Ej].
      + exact Lj. }
  clear -HL CL Hd. revert HL CL. generalize (t_leaves t) as ls. induction ls as [|i ls IH]; intros HL CL; [reflexivity|].
  destruct (content_step f h2 i ls d x Hd (HL i (or_introl eq_refl))) as [[_ [m [Em ->]]]|[_ ->]].
  - specialize (CL i (or_introl eq_refl)). unfold par in CL. rewrite Em in CL. exact CL.
  - apply IH; intros k Hk; [apply HL|apply CL]; right; exact Hk.
Qed.
End Tamper.
