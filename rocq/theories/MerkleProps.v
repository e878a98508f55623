(** Proofs of the Merkle tree properties (statements repeated in P_Merkle.v) *)
From Coq Require Import String ZArith List Arith Lia Bool.
From Verif Require Import GoModel GoFacts MerkleModel SpecMerkle MerkleFacts.
Import ListNotations.

Section Props.
Context {P : Type} (calc : P -> res bytes) (sha3 : bytes -> bytes).
Notation heap := (heap P).
Notation node := (node P).
Notation NewTree := (@NewTree P calc sha3).
Notation VerifyNode := (@VerifyNode P calc sha3).
Notation VerifyTree := (@VerifyTree P calc sha3).
Notation VerifyContent := (@VerifyContent P calc sha3).
Notation tree_for := (@tree_for P calc sha3).
Notation evals := (@evals P calc sha3).
Notation hashes := (@hashes P calc).
Notation usable := (@usable P calc).
Notation current := (@current P calc).
Notation run_rebuilds := (@run_rebuilds P calc sha3).
Lemma createIntermediate_mono f : forall h nl r, createIntermediate sha3 f h nl = Some r ->
  forall f', f <= f' -> @createIntermediate P sha3 f' h nl = Some r.
Proof.
  induction f as [|f IH]; intros h nl r E f' L; [discriminate|].
  destruct f' as [|f']; [lia|]. cbn [createIntermediate] in *.
  destruct (create_level _ _ _ _ _) as [[h' [root|nodes]]|e|]; auto. apply IH; [exact E|lia].
Qed.

Lemma create_mono f h pl r : create calc sha3 f h pl = Some r ->
  forall f', f <= f' -> create calc sha3 f' h pl = Some r.
Proof.
  intros E f' L. unfold create in *. destruct pl as [|p pl]; [exact E|].
  destruct (make_leaves calc h [] (p :: pl)) as [h1 [leaves|e|]]; try exact E.
  cbv zeta in *.
  match goal with |- context [match ?x with Ok _ => _ | Err _ => _ | Panic => _ end] =>
    destruct x as [[h2 ls]|e|] end; try exact E.
  destruct (createIntermediate sha3 f h2 ls) as [r'|] eqn:Er; [|discriminate].
  rewrite (createIntermediate_mono _ _ _ _ Er f' L). exact E.
Qed.

Lemma create_inv f h pl h' root leaves : create calc sha3 f h pl = Some (h', Ok (root, leaves)) ->
  exists hs n, hashes pl hs /\ pl <> [] /\ nth_error h' root = Some n /\
    tree_for (length h) h' (mkTree (Some root) (n_hash n) leaves) pl hs.
Proof.
  intros E.
  assert (Hne : pl <> []) by (intros ->; discriminate E).
  destruct (make_leaves_err calc pl h []) as [[hs HF]|[h0 [pre [bad [post [Epl [_ R]]]]]]].
  - apply create_mono with (f' := f + S (length pl)) in E; [|lia].
    destruct (create_ok calc sha3 (length h) (f + S (length pl)) h pl hs eq_refl Hne HF ltac:(lia))
      as [h2 [root2 [n [E2 [En T]]]]].
    rewrite E2 in E. injection E as -> -> <-. exists hs, n. auto.
  - exfalso. unfold create in E. destruct pl as [|p pl]; [congruence|].
    destruct R as [[e [_ R]]|[_ R]]; rewrite R in E; discriminate.
Qed.

Lemma newtree_inv f h pl h' t : NewTree f h pl = Some (h', Ok t) ->
  exists hs, tree_for (length h) h' t pl hs.
Proof.
  unfold MerkleModel.NewTree. intros E.
  destruct (create calc sha3 f h pl) as [[h1 [[root leaves]|e|]]|] eqn:Ec; try discriminate.
  destruct (create_inv _ _ _ _ _ _ Ec) as [hs [n [HF [Hne [En T]]]]].
  unfold idx in E. rewrite En in E. injection E as <- <-. exists hs. exact T.
Qed.

(** ** C03 *)
Lemma newtree_ok f h pl hs : pl <> [] -> hashes pl hs -> S (length pl) <= f ->
  exists h' t, NewTree f h pl = Some (h', Ok t) /\ merkle_root sha3 hs (t_mroot t).
Proof.
  intros Hne HF L.
  destruct (create_ok calc sha3 (length h) f h pl hs eq_refl Hne HF L) as [h2 [root2 [n [E2 [En T]]]]].
  exists h2. eexists. unfold MerkleModel.NewTree. rewrite E2. unfold idx. rewrite En.
  split; [reflexivity|]. apply (tf_mroot _ _ _ _ _ _ _ T).
Qed.

Lemma newtree_err_iff f h pl : S (length pl) <= f -> (forall p, In p pl -> calc p <> Panic) ->
  ((exists h' e, NewTree f h pl = Some (h', Err e)) <->
   (pl = [] \/ exists p e, In p pl /\ calc p = Err e)).
Proof.
  intros L NP. split.
  - intros [h' [e E]]. destruct pl as [|p pl]; [left; reflexivity|right].
    destruct (make_leaves_err calc (p :: pl) h []) as [[hs HF]|[h0 [pre [bad [post [Epl [_ R]]]]]]].
    + destruct (newtree_ok f h (p :: pl) hs) as [h2 [t [E2 _]]]; try assumption; congruence.
    + destruct R as [[e' [R _]]|[R _]].
      * exists bad, e'. split; [|exact R]. rewrite Epl. apply in_or_app. right. left. reflexivity.
      * exfalso. apply (NP bad); [|exact R]. rewrite Epl. apply in_or_app. right. left. reflexivity.
  - intros [->|[p [e [Hin He]]]].
    + exists h. eexists. reflexivity.
    + destruct pl as [|p0 pl0]; [destruct Hin|]. set (pl := p0 :: pl0) in *.
      destruct (make_leaves_err calc pl h []) as [[hs HF]|[h0 [pre [bad [post [Epl [_ R]]]]]]].
      * exfalso. clear -HF Hin He. induction HF as [|a b la lb Hab HF IH]; [destruct Hin|].
        destruct Hin as [->|Hin]; [congruence|auto].
      * destruct R as [[e' [R R']]|[R _]].
        -- exists h0, e'. unfold MerkleModel.NewTree, create. unfold pl in *. rewrite R'. reflexivity.
        -- exfalso. apply (NP bad); [|exact R]. rewrite Epl. apply in_or_app. right. left. reflexivity.
Qed.

(** termination: the result does not depend on the fuel once it is large enough, and
    there is always a result *)
Lemma newtree_total h pl : (forall p, In p pl -> calc p <> Panic) ->
  exists r, (forall f, S (length pl) <= f -> NewTree f h pl = Some r) /\ snd r <> Panic.
Proof.
  intros NP. destruct pl as [|p pl].
  - eexists. split; [reflexivity|discriminate].
  - destruct (make_leaves_err calc (p :: pl) h []) as [[hs HF]|[h0 [pre [bad [post [Epl [_ R]]]]]]].
    + destruct (newtree_ok (S (length (p :: pl))) h (p :: pl) hs) as [h2 [t [E2 _]]]; [congruence|exact HF|lia|].
      exists (h2, Ok t). split; [|discriminate]. intros f L.
      unfold MerkleModel.NewTree in *.
      destruct (create calc sha3 (S (length (p :: pl))) h (p :: pl)) as [r|] eqn:Ec; [|discriminate].
      rewrite (create_mono _ _ _ _ Ec f L). exact E2.
    + destruct R as [[e' [R R']]|[R _]].
      * exists (h0, Err e'). split; [|discriminate]. intros f _.
        unfold MerkleModel.NewTree, create. rewrite R'. reflexivity.
      * exfalso. apply (NP bad); [|exact R]. rewrite Epl. apply in_or_app. right. left. reflexivity.
Qed.

(** ** C04 *)
Lemma skext_refl (h : heap) : skext h h.
Proof. intros i n E. exists n. auto. Qed.

Lemma leaf_evals s0 h t pl hs : tree_for s0 h t pl hs -> Forall2 (evals h) (t_leaves t) (padded hs).
Proof.
  intros T. pose proof (tf_leaves _ _ _ _ _ _ _ T) as FL.
  pose proof (padded_Forall2 _ _ _ (tf_calc _ _ _ _ _ _ _ T)) as FC.
  revert FC. generalize (padded hs). induction FL as [|i p li lp Hip FL IH]; intros hh FC.
  - inversion FC; subst. constructor.
  - inversion FC as [|? x ? hh' Hx FC']; subst. constructor; [|apply IH; exact FC'].
    destruct Hip as [n [En [Dn [Ln Cn]]]]. exists 1. cbn [MerkleModel.VerifyNode deref].
    unfold idx. rewrite En. cbn [bind]. rewrite Ln. unfold data_hash. rewrite Dn. exact Hx.
Qed.

Lemma hs_ne s0 h t pl hs : tree_for s0 h t pl hs -> hs <> [].
Proof.
  intros T ->. apply (tf_ne _ _ _ _ _ _ _ T).
  pose proof (Forall2_length (tf_calc _ _ _ _ _ _ _ T)) as L. destruct pl; [reflexivity|discriminate].
Qed.

Lemma tree_for_verifies s0 h t pl hs : tree_for s0 h t pl hs ->
  exists f0, forall f, f0 <= f -> VerifyTree f h t = Ok true.
Proof.
  intros T. pose proof (leaf_evals _ _ _ _ _ T) as LE.
  destruct (tf_root _ _ _ _ _ _ _ T) as [root [Er [Hr [_ [_ Ev]]]]].
  destruct (Ev h (padded hs) (t_mroot t) (skext_refl h) LE) as [f0 E0].
  - apply merkle_root_padded; [eapply hs_ne; exact T|]. apply (tf_mroot _ _ _ _ _ _ _ T).
  - exists f0. intros f L. unfold MerkleModel.VerifyTree. rewrite Er.
    rewrite (VerifyNode_mono calc sha3 _ _ _ _ E0 f L). cbn [bind]. rewrite bytes_eqb_refl. reflexivity.
Qed.

Lemma newtree_verifies fuel h pl h' t : NewTree fuel h pl = Some (h', Ok t) ->
  exists f0, forall f, f0 <= f -> VerifyTree f h' t = Ok true.
Proof. intros E. apply newtree_inv in E. destruct E as [hs T]. eapply tree_for_verifies. exact T. Qed.

(** ** C05 *)
Lemma calc_node_hash s0 h i n : wf calc sha3 s0 h -> s0 <= i -> nth_error h i = Some n ->
  CalculateNodeHash calc sha3 h (Some i) = Ok (n_hash n).
Proof.
  intros W Hi En. unfold CalculateNodeHash, deref, idx. rewrite En. cbn [bind].
  destruct (W i n Hi En) as [[W1 [p [W2 W3]]]|[W1 [l [r [W2 [W3 [W4 [W5 W6]]]]]]]].
  - rewrite W1. unfold data_hash. rewrite W2. exact W3.
  - rewrite W1, W2, W3. assert (LI : i < length h) by (apply nth_error_Some; congruence).
    unfold hash_at in W6.
    destruct (nth_error h l) as [nl|] eqn:El; [|apply nth_error_None in El; lia].
    destruct (nth_error h r) as [nr|] eqn:Er'; [|apply nth_error_None in Er'; lia].
    cbn [bind]. rewrite W6. reflexivity.
Qed.

Lemma climb_chain s0 h : wf calc sha3 s0 h -> forall d i root f, s0 <= i -> chain h i d root -> d <= f ->
  climb calc sha3 f h (par h i) = Ok true.
Proof.
  intros W. induction d as [|d IH]; intros i root f Hi Hc Hf; cbn [chain] in Hc.
  - destruct Hc as [-> ->]. destruct f; reflexivity.
  - destruct Hc as [j [n [Hp [Hij [En [Ln [_ Hc]]]]]]]. rewrite Hp.
    destruct f as [|f]; [lia|]. cbn [climb deref]. unfold idx at 1. rewrite En. cbn [bind].
    destruct (W j n ltac:(lia) En) as [[W1 _]|[W1 [l [r [W2 [W3 [W4 [W5 W6]]]]]]]]; [congruence|].
    assert (LI : j < length h) by (apply nth_error_Some; congruence).
    rewrite W2, W3. unfold hash_at in W6.
    destruct (nth_error h l) as [nl|] eqn:El; [|apply nth_error_None in El; lia].
    destruct (nth_error h r) as [nr|] eqn:Er; [|apply nth_error_None in Er; lia].
    rewrite (calc_node_hash s0 h r nr W ltac:(lia) Er), (calc_node_hash s0 h l nl W ltac:(lia) El).
    cbn [bind]. rewrite W6, bytes_eqb_refl.
    replace (n_parent n) with (par h j) by (unfold par; rewrite En; reflexivity).
    apply (IH j root f); [lia|exact Hc|lia].
Qed.

Lemma content_loop s0 h dep root d x f : wf calc sha3 s0 h -> calc d = Ok x -> dep <= f ->
  forall leaves pl,
  Forall2 (fun i p => exists n, nth_error h i = Some n /\ n_data n = Some p /\
       n_isleaf n = true /\ calc p = Ok (n_hash n)) leaves pl ->
  (forall i, In i leaves -> s0 <= i) -> (forall i, In i leaves -> chain h i dep root) ->
  (verify_content_loop calc sha3 f h leaves (Some d) = Ok true /\ exists p, In p pl /\ calc p = Ok x) \/
  (verify_content_loop calc sha3 f h leaves (Some d) = Ok false /\ forall p, In p pl -> calc p <> Ok x).
Proof.
  intros W Hd Hf leaves pl FL.
  induction FL as [|i p li lp [n [En [Dn [Ln Cn]]]] FL IH]; intros HS HC.
  - right. split; [reflexivity|]. intros p [].
  - cbn [verify_content_loop]. unfold idx. rewrite En. cbn [bind].
    rewrite Dn. cbn [equals]. rewrite Cn. cbn [bind]. rewrite Hd. cbn [bind].
    destruct (bytes_eqb_spec (n_hash n) x) as [Hx|Hx].
    + left. split.
      * replace (n_parent n) with (par h i) by (unfold par; rewrite En; reflexivity).
        apply (climb_chain s0 h W dep i root); [apply HS|apply HC|exact Hf]; left; reflexivity.
      * exists p. split; [left; reflexivity|]. congruence.
    + destruct IH as [[E [q [Hq Cq]]]|[E Hq]].
      * intros j Hj. apply HS. right. exact Hj.
      * intros j Hj. apply HC. right. exact Hj.
      * left. split; [exact E|]. exists q. split; [right; exact Hq|exact Cq].
      * right. split; [exact E|]. intros q [<-|Hin]; [congruence|auto].
Qed.

Lemma In_padded {A} (p : A) l : In p (padded l) <-> In p l.
Proof.
  unfold padded. destruct (Nat.odd (length l)); [|reflexivity].
  rewrite in_app_iff. split; [|auto]. intros [H|H]; [exact H|].
  destruct (rev l) as [|x r] eqn:E; [destruct H|]. destruct H as [<-|[]].
  rewrite in_rev, E. left. reflexivity.
Qed.

Lemma newtree_content fuel h pl h' t d x : NewTree fuel h pl = Some (h', Ok t) -> calc d = Ok x ->
  exists f0, forall f, f0 <= f ->
  (VerifyContent f h' t (Some d) = Ok true /\ exists p, In p pl /\ calc p = Ok x) \/
  (VerifyContent f h' t (Some d) = Ok false /\ forall p, In p pl -> calc p <> Ok x).
Proof.
  intros E Hd. apply newtree_inv in E. destruct E as [hs T].
  destruct (tf_root _ _ _ _ _ _ _ T) as [root [_ [_ [_ [[dep [_ Ch]] _]]]]].
  exists dep. intros f Hf.
  destruct (content_loop (length h) h' dep root d x f (tf_wf _ _ _ _ _ _ _ T) Hd Hf
     (t_leaves t) (padded pl) (tf_leaves _ _ _ _ _ _ _ T) (tf_s0 _ _ _ _ _ _ _ T) Ch)
    as [[E [p [Hp Cp]]]|[E Hn]].
  - left. split; [exact E|]. exists p. rewrite <- In_padded. auto.
  - right. split; [exact E|]. intros p Hp. apply Hn. apply In_padded. exact Hp.
Qed.

Lemma newtree_content_err fuel h pl h' t d e f : NewTree fuel h pl = Some (h', Ok t) -> calc d = Err e ->
  VerifyContent f h' t (Some d) = Err e.
Proof.
  intros E Hd. apply newtree_inv in E. destruct E as [hs T].
  pose proof (tf_leaves _ _ _ _ _ _ _ T) as FL. pose proof (tf_ne _ _ _ _ _ _ _ T) as Hne.
  assert (padded pl <> []) as Hpn.
  { intros C. apply (f_equal (@length _)) in C. rewrite padded_length in C.
    destruct pl; [congruence|cbn in C; lia]. }
  unfold MerkleModel.VerifyContent.
  destruct FL as [|i p li lp [n [En [Dn [Ln Cn]]]] FL]; [congruence|].
  cbn [verify_content_loop]. unfold idx. rewrite En. cbn [bind]. rewrite Dn. cbn [equals].
  rewrite Cn. cbn [bind]. rewrite Hd. reflexivity.
Qed.
Lemma newtree_nil fuel h pl h' t f : NewTree fuel h pl = Some (h', Ok t) ->
  VerifyContent f h' t None = Panic /\
  forall i rest n d, t_leaves t = i :: rest -> nth_error h' i = Some n ->
    VerifyContent f (upd h' i (mkNode (n_parent n) (n_left n) (n_right n) (n_hash n) None (n_isleaf n) (n_isdup n))) t d = Panic.
Proof.
  intros E. apply newtree_inv in E. destruct E as [hs T].
  pose proof (tf_leaves _ _ _ _ _ _ _ T) as FL. pose proof (tf_ne _ _ _ _ _ _ _ T) as Hne. split.
  - assert (padded pl <> []) as Hpn.
    { intros C. apply (f_equal (@length _)) in C. rewrite padded_length in C.
      destruct pl; [congruence|cbn in C; lia]. }
    unfold MerkleModel.VerifyContent.
    destruct FL as [|i p li lp [n [En [Dn [Ln Cn]]]] FL]; [congruence|].
    cbn [verify_content_loop]. unfold idx. rewrite En. cbn [bind]. rewrite Dn. cbn [equals].
    rewrite Cn. reflexivity.
  - intros i rest n d EL En. unfold MerkleModel.VerifyContent. rewrite EL. cbn [verify_content_loop]. unfold idx.
    rewrite upd_same by (apply nth_error_Some; congruence). reflexivity.
Qed.

(** ** C06 *)
Lemma tampered_skext (h h2 : heap) leaves pl : tampered h h2 leaves pl -> skext h h2.
Proof.
  intros [A B] i n En. destruct (in_dec Nat.eq_dec i leaves) as [Hi|Hi].
  - clear A. revert i n En Hi. induction B as [|j p lj lp [m [E1 E2]] B IH]; intros i n En Hi; [destruct Hi|].
    destruct Hi as [->|Hi]; [|eauto]. exists (with_data m p). split; [exact E2|].
    assert (m = n) by congruence. subst. reflexivity.
  - exists n. rewrite A by assumption. auto.
Qed.

Lemma tampered_evals (h h2 : heap) leaves pl hs :
  (forall i n, In i leaves -> nth_error h i = Some n -> n_isleaf n = true) ->
  tampered h h2 leaves pl -> hashes pl hs -> Forall2 (evals h2) leaves hs.
Proof.
  intros HL [_ B]. revert hs HL. induction B as [|j p lj lp [m [E1 E2]] B IH]; intros hs HL HF;
    inversion HF as [|? x ? hs' Hx HF']; subst; constructor.
  - exists 1. cbn [MerkleModel.VerifyNode deref]. unfold idx. rewrite E2. cbn [bind with_data n_isleaf].
    rewrite (HL j m (or_introl eq_refl) E1). unfold data_hash. cbn. exact Hx.
  - apply IH; [|exact HF']. intros i n Hi. apply HL. right. exact Hi.
Qed.

Lemma all32_padded hs : Forall (fun x : bytes => length x = 32) hs -> all32 (padded hs).
Proof.
  intros HF. unfold all32. rewrite Forall_forall in *. intros x Hx. apply HF.
  apply In_padded. exact Hx.
Qed.

Lemma newtree_tamper fuel h pl h' t hs h2 pl2 hs2 :
  NewTree fuel h pl = Some (h', Ok t) -> hashes pl hs ->
  (forall x, length (sha3 x) = 32) -> Forall (fun x => length x = 32) hs ->
  tampered h' h2 (t_leaves t) pl2 -> hashes pl2 hs2 -> Forall (fun x => length x = 32) hs2 ->
  exists f0 b, (forall f, f0 <= f -> VerifyTree f h2 t = Ok b) /\
    (hs2 = padded hs -> b = true) /\
    (b = true -> hs2 = padded hs \/
       exists x y, find_collision sha3 hs2 (padded hs) = Some (x, y) /\ x <> y /\ sha3 x = sha3 y).
Proof.
  intros E HF HH H32 TA HF2 H322. apply newtree_inv in E. destruct E as [hs' T].
  assert (hs' = hs).
  { pose proof (tf_calc _ _ _ _ _ _ _ T) as HF'. clear -HF HF'.
    revert hs HF. induction HF' as [|a b la lb Hab HF' IH]; intros hs HF; inversion HF; subst; [reflexivity|].
    f_equal; [congruence|auto]. }
  subst hs'.
  destruct (tf_root _ _ _ _ _ _ _ T) as [root [Er [Hr [_ [_ Ev]]]]].
  pose proof (tf_leaves _ _ _ _ _ _ _ T) as FL.
  assert (LL : length hs2 = length (padded hs)).
  { rewrite <- (Forall2_length HF2). destruct TA as [_ B]. rewrite <- (Forall2_length B).
    rewrite (Forall2_length FL). apply (Forall2_length (padded_Forall2 _ _ _ HF)). }
  assert (Hne : hs2 <> []).
  { intros ->. pose proof (hs_ne _ _ _ _ _ T) as X. symmetry in LL. cbn [length] in LL.
    rewrite padded_length in LL. destruct hs; [congruence|cbn in LL; lia]. }
  destruct (merkle_root_ex sha3 hs2 Hne) as [x Hx].
  destruct (Ev h2 hs2 x) as [f0 E0].
  - eapply tampered_skext. exact TA.
  - eapply tampered_evals; [|exact TA|exact HF2].
    intros i n Hi En. clear -FL Hi En. induction FL as [|j p lj lp [m [E1 [_ [E2 _]]]] FL IH]; [destruct Hi|].
    destruct Hi as [->|Hi]; [congruence|auto].
  - exact Hx.
  - exists f0, (bytes_eqb (t_mroot t) x). split; [|split].
    + intros f L. unfold MerkleModel.VerifyTree. rewrite Er.
      rewrite (VerifyNode_mono calc sha3 _ _ _ _ E0 f L). cbn [bind].
      destruct (bytes_eqb (t_mroot t) x); reflexivity.
    + intros ->. pose proof (tf_mroot _ _ _ _ _ _ _ T) as M.
      apply merkle_root_padded in M; [|eapply hs_ne; exact T].
      rewrite (merkle_root_det sha3 _ _ _ M Hx). apply bytes_eqb_refl.
    + intros Hb. destruct (bytes_eqb_spec (t_mroot t) x) as [Heq|]; [|discriminate].
      apply (root_binding sha3 hs2 (padded hs) x); auto.
      * apply all32_padded. exact H32.
      * apply merkle_root_padded; [eapply hs_ne; exact T|]. rewrite <- Heq. apply (tf_mroot _ _ _ _ _ _ _ T).
Qed.

(** ** C07, C08 *)
Lemma tree_mroot fuel h pl h' t hs : NewTree fuel h pl = Some (h', Ok t) -> hashes pl hs ->
  merkle_root sha3 hs (t_mroot t) /\ hs <> [].
Proof.
  intros E HF. apply newtree_inv in E. destruct E as [hs' T].
  assert (hs' = hs).
  { pose proof (tf_calc _ _ _ _ _ _ _ T) as HF'. clear -HF HF'.
    revert hs HF. induction HF' as [|a b la lb Hab HF' IH]; intros hs HF; inversion HF; subst; [reflexivity|].
    f_equal; [congruence|auto]. }
  subst. split; [apply (tf_mroot _ _ _ _ _ _ _ T)|eapply hs_ne; exact T].
Qed.

Lemma newtree_binding f1 h1 pl1 h1' t1 hs1 f2 h2 pl2 h2' t2 hs2 :
  NewTree f1 h1 pl1 = Some (h1', Ok t1) -> hashes pl1 hs1 ->
  NewTree f2 h2 pl2 = Some (h2', Ok t2) -> hashes pl2 hs2 ->
  (forall x, length (sha3 x) = 32) ->
  Forall (fun x => length x = 32) hs1 -> Forall (fun x => length x = 32) hs2 ->
  length pl1 = length pl2 -> t_mroot t1 = t_mroot t2 ->
  hs1 = hs2 \/ exists x y, find_collision sha3 hs1 hs2 = Some (x, y) /\ x <> y /\ sha3 x = sha3 y.
Proof.
  intros E1 F1 E2 F2 HH A1 A2 L EQ.
  destruct (tree_mroot _ _ _ _ _ _ E1 F1) as [M1 _]. destruct (tree_mroot _ _ _ _ _ _ E2 F2) as [M2 _].
  apply (root_binding sha3 hs1 hs2 (t_mroot t1)); auto.
  - rewrite <- (Forall2_length F1), <- (Forall2_length F2). exact L.
  - rewrite EQ. exact M2.
Qed.

Lemma newtree_dup_last f1 h1 pl p h1' t1 f2 h2 h2' t2 :
  Nat.even (length pl) = true ->
  NewTree f1 h1 (pl ++ [p]) = Some (h1', Ok t1) ->
  NewTree f2 h2 (pl ++ [p; p]) = Some (h2', Ok t2) ->
  t_mroot t1 = t_mroot t2.
Proof.
  intros Ev E1 E2.
  destruct (newtree_inv _ _ _ _ _ E1) as [hs1 T1]. pose proof (tf_calc _ _ _ _ _ _ _ T1) as F1.
  apply Forall2_app_inv_l in F1. destruct F1 as [ha [hb [Fa [Fb ->]]]].
  inversion Fb as [|? x ? ? Hx Fn]; subst. inversion Fn; subst.
  destruct (tree_mroot _ _ _ _ _ (ha ++ [x; x]) E2) as [M2 _].
  { apply Forall2_app; [exact Fa|]. repeat constructor; exact Hx. }
  pose proof (tf_mroot _ _ _ _ _ _ _ T1) as M1.
  apply merkle_root_odd_dup in M1.
  - eapply merkle_root_det; eassumption.
  - rewrite <- (Forall2_length Fa). apply Nat.even_spec in Ev. destruct Ev as [k ->].
    rewrite Nat.mul_comm. apply Nat.mod_mul. lia.
Qed.

Lemma newtree_level_up f1 h1 pl1 h1' t1 hs1 f2 h2 pl2 h2' t2 :
  NewTree f1 h1 pl1 = Some (h1', Ok t1) -> hashes pl1 hs1 -> 2 < length pl1 ->
  NewTree f2 h2 pl2 = Some (h2', Ok t2) -> hashes pl2 (pair_up sha3 hs1) ->
  t_mroot t1 = t_mroot t2 /\ 2 * length pl2 = length pl1 + length pl1 mod 2.
Proof.
  intros E1 F1 L E2 F2.
  destruct (tree_mroot _ _ _ _ _ _ E1 F1) as [M1 _]. destruct (tree_mroot _ _ _ _ _ _ E2 F2) as [M2 _].
  split.
  - eapply merkle_root_det; [|exact M2]. refine (proj1 (merkle_root_up sha3 hs1 _ _) M1).
    rewrite <- (Forall2_length F1). exact L.
  - rewrite (Forall2_length F2), (Forall2_length F1). apply pair_up_length.
Qed.

(** ** C09 *)
Lemma skext_app (h s h2 : heap) : skext (h ++ s) h2 -> skext h h2.
Proof.
  intros S i n En. apply S. rewrite nth_error_app1; [exact En|]. apply nth_error_Some. congruence.
Qed.

Lemma par_app (h s : heap) i : i < length h -> par (h ++ s) i = par h i.
Proof. intros L. unfold par. rewrite nth_error_app1 by assumption. reflexivity. Qed.

Lemma chain_lt (h : heap) d : forall i root, root < length h -> chain h i d root -> i < length h.
Proof.
  destruct d as [|d]; intros i root L C; cbn in C.
  - destruct C as [-> _]. exact L.
  - destruct C as [j [n [_ [Hij [En _]]]]].
    assert (j < length h) by (apply nth_error_Some; congruence). lia.
Qed.

Lemma chain_app (h s : heap) d : forall i root, root < length h -> chain h i d root -> chain (h ++ s) i d root.
Proof.
  induction d as [|d IH]; intros i root L C; pose proof (chain_lt _ _ _ _ L C) as Li; cbn in *.
  - destruct C as [-> C]. rewrite par_app by assumption. auto.
  - destruct C as [j [n [C1 [C2 [C3 [C4 [C5 C6]]]]]]]. exists j, n.
    rewrite par_app by assumption. rewrite nth_error_app1 by (apply nth_error_Some; congruence).
    repeat split; auto.
Qed.

Lemma tree_for_app s0 h s t pl hs : s0 <= length h -> wf calc sha3 s0 (h ++ s) ->
  tree_for s0 h t pl hs -> tree_for s0 (h ++ s) t pl hs.
Proof.
  intros L0 W [A B [root [C1 [C2 [C3 [[d [C4 C5]] C6]]]]] D E [s1 [F1 F2]] G I].
  assert (NE : forall i n, nth_error h i = Some n -> nth_error (h ++ s) i = Some n).
  { intros i n En. rewrite nth_error_app1; [exact En|]. apply nth_error_Some. congruence. }
  constructor; auto.
  - exists root. split; [exact C1|]. split.
    + unfold hash_at in *. rewrite nth_error_app1 by assumption. exact C2.
    + split; [rewrite app_length; lia|]. split.
      * exists d. split; [exact C4|]. intros i Hi. apply chain_app; auto.
      * intros h2 vs x Hs. apply C6. eapply skext_app. exact Hs.
  - clear -E NE. induction E as [|i p li lp [n [E1 E2]] EF IH]; constructor; [|exact IH]. exists n. split; auto.
  - exists s1. split; [exact F1|]. intros k i n Hk Hn. apply (F2 k i n Hk).
    assert (i < length h) by (eapply chain_lt; [exact C3|]; apply C5; eapply nth_error_In; exact Hk).
    rewrite nth_error_app1 in Hn by assumption. exact Hn.
Qed.

Lemma padded_ne {A} (l : list A) : l <> [] -> padded l <> [].
Proof.
  intros H C. apply (f_equal (@length _)) in C. rewrite padded_length in C.
  destruct l; [congruence|cbn in C; lia].
Qed.

Lemma tree_for_len s0 h t pl hs : tree_for s0 h t pl hs -> s0 <= length h.
Proof.
  intros T. destruct (tf_root _ _ _ _ _ _ _ T) as [root [_ [_ [HR [[d [_ Ch]] _]]]]].
  pose proof (tf_leaves _ _ _ _ _ _ _ T) as FL. pose proof (tf_s0 _ _ _ _ _ _ _ T) as S0.
  pose proof (padded_ne _ (tf_ne _ _ _ _ _ _ _ T)) as X.
  destruct (t_leaves t) as [|i li]; [inversion FL; congruence|].
  pose proof (chain_lt _ _ _ _ HR (Ch i (or_introl eq_refl))).
  specialize (S0 i (or_introl eq_refl)). lia.
Qed.

Lemma make_leaves_ext (pl : list P) : forall h leaves,
  exists s, fst (make_leaves calc h leaves pl) = h ++ s /\
    forall n, In n s -> leaf_wf calc n /\ n_parent n = None.
Proof.
  induction pl as [|p pl IH]; intros h leaves; cbn [make_leaves].
  - exists []. rewrite app_nil_r. split; [reflexivity|intros n []].
  - destruct (calc p) as [x|e|] eqn:E.
    + unfold alloc. destruct (IH (h ++ [mkNode None None None x (Some p) true false]) (leaves ++ [length h]))
        as [s [Es Hs]]. rewrite Es. exists (mkNode None None None x (Some p) true false :: s).
      split; [rewrite <- app_assoc; reflexivity|].
      intros n [<-|Hn]; [|auto]. split; [|reflexivity]. split; [reflexivity|]. exists p. auto.
    + exists []. rewrite app_nil_r. split; [reflexivity|intros n []].
    + exists []. rewrite app_nil_r. split; [reflexivity|intros n []].
Qed.

Lemma wf_app_leaves s0 h s : wf calc sha3 s0 h ->
  (forall n, In n s -> leaf_wf calc n /\ n_parent n = None) -> wf calc sha3 s0 (h ++ s).
Proof.
  intros W HS. eapply wf_ext; [exact W|apply map_app|].
  intros n Hn. apply in_map_iff in Hn. destruct Hn as [m [<- Hm]]. destruct (HS m Hm) as [A B].
  left. rewrite strip_leaf by exact B. exact A.
Qed.

Lemma usable_hashes pl : usable pl = true -> pl <> [] /\ exists hs, hashes pl hs.
Proof.
  intros U. destruct pl as [|p pl]; [discriminate|]. split; [congruence|]. cbn [usable] in U.
  revert U. generalize (p :: pl). induction l as [|q l IH]; intros U.
  - exists []. constructor.
  - cbn in U. apply andb_prop in U. destruct U as [U1 U2].
    destruct (calc q) as [x| |] eqn:E; try discriminate. destruct (IH U2) as [hs HF].
    exists (x :: hs). constructor; assumption.
Qed.

Lemma hashes_usable pl hs : pl <> [] -> hashes pl hs -> usable pl = true.
Proof.
  intros Hne HF. destruct pl as [|p pl]; [congruence|]. unfold usable. clear Hne.
  induction HF as [|q x l hs' E HF IH]; [reflexivity|]. cbn. rewrite E. exact IH.
Qed.

Lemma rebuild_using_ok s0 f h t pl0 hs0 pl : s0 <= length h -> tree_for s0 h t pl0 hs0 ->
  S (length pl) <= f -> (forall p, In p pl -> calc p <> Panic) ->
  if usable pl
  then exists h' t' hs, RebuildTreeUsing calc sha3 f h t pl = Some (h', t', Ok tt) /\
         NewTree f h pl = Some (h', Ok t') /\ hashes pl hs /\
         tree_for (length h) h' t' pl hs /\ length h <= length h'
  else exists h' e, RebuildTreeUsing calc sha3 f h t pl = Some (h', t, Err e) /\
         s0 <= length h' /\ tree_for s0 h' t pl0 hs0.
Proof.
  intros L0 T LF NP. destruct (usable pl) eqn:U.
  - destruct (usable_hashes pl U) as [Hne [hs HF]].
    destruct (create_ok calc sha3 (length h) f h pl hs eq_refl Hne HF LF) as [h2 [root2 [n [E2 [En T2]]]]].
    exists h2. eexists. exists hs. unfold RebuildTreeUsing, MerkleModel.NewTree. rewrite E2. unfold idx. rewrite En.
    split; [reflexivity|]. split; [reflexivity|]. split; [exact HF|]. split; [exact T2|].
    eapply tree_for_len. exact T2.
  - destruct pl as [|p pl].
    + exists h. eexists. split; [reflexivity|]. auto.
    + destruct (make_leaves_err calc (p :: pl) h []) as [[hs HF]|[h0 [pre [bad [post [Epl [_ R]]]]]]].
      * rewrite (hashes_usable (p :: pl) hs) in U by (congruence || exact HF). discriminate.
      * destruct R as [[e' [R R']]|[R _]].
        -- exists h0, e'. unfold RebuildTreeUsing, create. rewrite R'. split; [reflexivity|].
           destruct (make_leaves_ext (p :: pl) h []) as [s [Es Hs]]. rewrite R' in Es. cbn [fst] in Es. subst h0.
           split; [rewrite app_length; lia|]. apply tree_for_app; [exact L0| |exact T].
           apply wf_app_leaves; [apply (tf_wf _ _ _ _ _ _ _ T)|exact Hs].
        -- exfalso. apply (NP bad); [|exact R]. rewrite Epl. apply in_or_app. right. left. reflexivity.
Qed.

Lemma leaf_data_ok s0 h t pl hs : tree_for s0 h t pl hs -> leaf_data h (t_leaves t) = Ok (padded pl).
Proof.
  intros T. pose proof (tf_leaves _ _ _ _ _ _ _ T) as FL. revert FL.
  generalize (t_leaves t) (padded pl). induction 1 as [|i p li lp [n [En [Dn _]]] FL IH]; [reflexivity|].
  cbn [leaf_data]. unfold idx. rewrite En. cbn [bind]. rewrite Dn, IH. reflexivity.
Qed.

Lemma padded_usable s0 h t pl hs : tree_for s0 h t pl hs -> usable (padded pl) = true.
Proof.
  intros T. apply (hashes_usable _ (padded hs)); [apply padded_ne; apply (tf_ne _ _ _ _ _ _ _ T)|].
  apply padded_Forall2. apply (tf_calc _ _ _ _ _ _ _ T).
Qed.

Lemma padded_no_panic s0 h t pl hs : tree_for s0 h t pl hs -> forall p, In p (padded pl) -> calc p <> Panic.
Proof.
  intros T p Hp. apply (In_padded p pl) in Hp. pose proof (tf_calc _ _ _ _ _ _ _ T) as HF.
  clear T. induction HF as [|q x l m E HF IH]; [destruct Hp|]. destruct Hp as [->|Hp]; [congruence|auto].
Qed.

Lemma rebuild_ok s0 f h t pl hs : s0 <= length h -> tree_for s0 h t pl hs -> S (S (length pl)) <= f ->
  exists h' t', RebuildTree calc sha3 f h t = Some (h', t', Ok tt) /\ t_mroot t' = t_mroot t /\
    tree_for (length h) h' t' (padded pl) (padded hs) /\ length h <= length h'.
Proof.
  intros L0 T LF. unfold RebuildTree. rewrite (leaf_data_ok _ _ _ _ _ T).
  pose proof (rebuild_using_ok s0 f h t pl hs (padded pl) L0 T) as X.
  rewrite (padded_usable _ _ _ _ _ T) in X.
  destruct X as [h' [t' [hs' [E1 [_ [HF [T' LL]]]]]]].
  - rewrite padded_length. pose proof (Nat.mod_upper_bound (length pl) 2). lia.
  - apply (padded_no_panic _ _ _ _ _ T).
  - assert (hs' = padded hs).
    { pose proof (padded_Forall2 _ _ _ (tf_calc _ _ _ _ _ _ _ T)) as HF'. clear -HF HF'.
      revert hs' HF. induction HF' as [|a b la lb Hab HF' IH]; intros hs' HF; inversion HF; subst; [reflexivity|].
      f_equal; [congruence|auto]. }
    subst hs'. exists h', t'. split; [exact E1|]. split; [|auto].
    pose proof (tf_mroot _ _ _ _ _ _ _ T') as M'. pose proof (tf_mroot _ _ _ _ _ _ _ T) as M.
    apply (proj1 (merkle_root_padded sha3 hs _ (hs_ne _ _ _ _ _ T))) in M'.
    eapply merkle_root_det; eassumption.
Qed.

Lemma run_rebuilds_ok fuel ops : forall s0 h t pl0 pl hs,
  s0 <= length h -> tree_for s0 h t pl0 hs ->
  (forall r, merkle_root sha3 hs r -> forall hs', hashes pl hs' -> merkle_root sha3 hs' r) ->
  usable pl = true ->
  S (S (length pl0)) <= fuel -> (forall q, In (Some q) ops -> S (S (length q)) <= fuel) ->
  Nat.even (length pl0) = true \/ S (S (S (length pl0))) <= fuel ->
  (forall q, In (Some q) ops -> S (S (S (length q))) <= fuel) ->
  (forall q p, In (Some q) ops -> In p q -> calc p <> Panic) ->
  exists h' t', run_rebuilds fuel h t ops = Some (h', t') /\
    (exists hs', hashes (current pl ops) hs' /\ merkle_root sha3 hs' (t_mroot t')) /\
    exists f0, forall f, f0 <= f -> VerifyTree f h' t' = Ok true.
Proof.
  induction ops as [|op ops IH]; intros s0 h t pl0 pl hs L0 T HM U LF LO LE LO2 NP.
  - exists h, t. split; [reflexivity|]. split; [|eapply tree_for_verifies; exact T].
    destruct (usable_hashes pl U) as [_ [hs' HF]]. exists hs'. split; [exact HF|].
    apply (HM (t_mroot t)); [apply (tf_mroot _ _ _ _ _ _ _ T)|exact HF].
  - assert (LO' : forall q, In (Some q) ops -> S (S (length q)) <= fuel) by (intros; apply LO; right; assumption).
    assert (LO2' : forall q, In (Some q) ops -> S (S (S (length q))) <= fuel) by (intros; apply LO2; right; assumption).
    assert (NP' : forall q p, In (Some q) ops -> In p q -> calc p <> Panic) by (intros q p ?; apply (NP q); right; assumption).
    destruct op as [q|]; cbn [run_rebuilds current].
    + pose proof (rebuild_using_ok s0 fuel h t pl0 hs q L0 T) as X.
      specialize (LO q (or_introl eq_refl)) as LOq. specialize (LO2 q (or_introl eq_refl)) as LO2q.
      specialize (X ltac:(lia) ltac:(intros p; apply (NP q); left; reflexivity)).
      destruct (usable q) eqn:Uq.
      * destruct X as [h' [t' [hs' [E1 [_ [HF [T' LL]]]]]]]. rewrite E1.
        apply (IH (length h) h' t' q q hs'); auto.
        intros r Hr hs2 HF2. assert (hs2 = hs'); [|congruence].
        clear -HF HF2. revert hs2 HF2. induction HF as [|a b la lb Hab HF' IH]; intros hs2 HF2; inversion HF2; subst; [reflexivity|].
        f_equal; [congruence|auto].
      * destruct X as [h' [e [E1 [LL T']]]]. rewrite E1. apply (IH s0 h' t pl0 pl hs); auto.
    + destruct (rebuild_ok s0 fuel h t pl0 hs L0 T LF) as [h' [t' [E1 [_ [T' LL]]]]]. rewrite E1.
      assert (LP : length (padded pl0) = length pl0 + length pl0 mod 2) by apply padded_length.
      assert (Ev : Nat.even (length (padded pl0)) = true).
      { apply Nat.even_spec. rewrite LP. exists ((length pl0 + length pl0 mod 2) / 2).
        pose proof (Nat.div_mod (length pl0) 2 ltac:(lia)) as D.
        pose proof (Nat.mod_upper_bound (length pl0) 2 ltac:(lia)) as UB.
        destruct (length pl0 mod 2) as [|[|?]]; try lia.
        - rewrite Nat.add_0_r in *. exact D.
        - rewrite D. replace (2 * (length pl0 / 2) + 1 + 1) with ((length pl0 / 2 + 1) * 2) by lia.
          rewrite Nat.div_mul by lia. lia. }
      apply (IH (length h) h' t' (padded pl0) pl (padded hs)); auto.
      * intros r Hr. apply HM. exact (proj1 (merkle_root_padded sha3 hs _ (hs_ne _ _ _ _ _ T)) Hr).
      * rewrite LP. destruct LE as [LE|LE].
        -- apply Nat.even_spec in LE. destruct LE as [k LE]. rewrite LE at 2. rewrite (Nat.mul_comm 2), Nat.mod_mul; lia.
        -- pose proof (Nat.mod_upper_bound (length pl0) 2 ltac:(lia)). lia.
Qed.

Lemma newtree_rebuilds fuel0 h0 pl h t fuel ops :
  NewTree fuel0 h0 pl = Some (h, Ok t) ->
  S (S (S (length pl))) <= fuel -> (forall q, In (Some q) ops -> S (S (S (length q))) <= fuel) ->
  (forall q p, In (Some q) ops -> In p q -> calc p <> Panic) ->
  exists h' t', run_rebuilds fuel h t ops = Some (h', t') /\
    (exists hs', hashes (current pl ops) hs' /\ merkle_root sha3 hs' (t_mroot t')) /\
    exists f0, forall f, f0 <= f -> VerifyTree f h' t' = Ok true.
Proof.
  intros E LF LO NP. pose proof E as E'. apply newtree_inv in E'. destruct E' as [hs T].
  assert (L0 : length h0 <= length h).
  { eapply tree_for_len. exact T. }
  apply (run_rebuilds_ok fuel ops (length h0) h t pl pl hs); auto; try lia.
  - intros r Hr hs' HF. pose proof (tf_calc _ _ _ _ _ _ _ T) as HF2.
    assert (hs' = hs); [|congruence]. clear -HF HF2. revert hs' HF.
    induction HF2 as [|a b la lb Hab HF' IH]; intros hs' HF; inversion HF; subst; [reflexivity|].
    f_equal; [congruence|auto].
  - apply (hashes_usable pl hs); [apply (tf_ne _ _ _ _ _ _ _ T)|apply (tf_calc _ _ _ _ _ _ _ T)].
  - intros q Hq. specialize (LO q Hq). lia.
Qed.

Lemma newtree_rebuild fuel0 h0 pl h t fuel :
  NewTree fuel0 h0 pl = Some (h, Ok t) -> S (S (length pl)) <= fuel ->
  exists h' t', RebuildTree calc sha3 fuel h t = Some (h', t', Ok tt) /\ t_mroot t' = t_mroot t /\
    exists f0, forall f, f0 <= f -> VerifyTree f h' t' = Ok true.
Proof.
  intros E LF. apply newtree_inv in E. destruct E as [hs T].
  assert (L0 : length h0 <= length h).
  { eapply tree_for_len. exact T. }
  destruct (rebuild_ok _ fuel h t pl hs L0 T LF) as [h' [t' [E1 [M [T' _]]]]].
  exists h', t'. split; [exact E1|]. split; [exact M|]. eapply tree_for_verifies. exact T'.
Qed.

Lemma rebuild_using_newtree fuel h t pl :
  match NewTree fuel h pl with
  | Some (h', Ok t') => RebuildTreeUsing calc sha3 fuel h t pl = Some (h', t', Ok tt)
  | Some (h', Err e) => RebuildTreeUsing calc sha3 fuel h t pl = Some (h', t, Err e)
  | Some (h', Panic) => RebuildTreeUsing calc sha3 fuel h t pl = Some (h', t, Panic)
  | None => RebuildTreeUsing calc sha3 fuel h t pl = None
  end.
Proof.
  unfold MerkleModel.NewTree, RebuildTreeUsing.
  destruct (create calc sha3 fuel h pl) as [[h' [[root leaves]|e|]]|]; try reflexivity.
  destruct (idx h' root); reflexivity.
Qed.

(** ** C10 *)
Lemma newtree_structure fuel h pl h' t : NewTree fuel h pl = Some (h', Ok t) ->
  (exists root d, t_root t = Some root /\ 1 <= d /\ forall i, In i (t_leaves t) -> chain h' i d root) /\
  length (t_leaves t) = length pl + length pl mod 2 /\
  (forall k i, nth_error (t_leaves t) k = Some i ->
     exists n p, nth_error h' i = Some n /\ n_isleaf n = true /\ n_data n = Some p /\
       nth_error (padded pl) k = Some p /\ calc p = Ok (n_hash n) /\ n_isdup n = Nat.leb (length pl) k).
Proof.
  intros E. apply newtree_inv in E. destruct E as [hs T].
  destruct (tf_root _ _ _ _ _ _ _ T) as [root [Er [_ [_ [[d [Hd Ch]] _]]]]].
  pose proof (tf_leaves _ _ _ _ _ _ _ T) as FL.
  destruct (tf_dups _ _ _ _ _ _ _ T) as [s [_ DU]].
  split; [exists root, d; auto|]. split.
  - rewrite (Forall2_length FL). apply padded_length.
  - intros k i Hk. assert (X : exists p, nth_error (padded pl) k = Some p).
    { destruct (nth_error (padded pl) k) as [p|] eqn:Ep; [eauto|]. apply nth_error_None in Ep.
      rewrite <- (Forall2_length FL) in Ep. assert (k < length (t_leaves t)) by (apply nth_error_Some; congruence). lia. }
    destruct X as [p Hp].
    assert (Y : exists n, nth_error h' i = Some n /\ n_data n = Some p /\ n_isleaf n = true /\ calc p = Ok (n_hash n)).
    { clear -FL Hk Hp. revert k Hk Hp. induction FL as [|a b la lb Hab FL IH]; intros [|k] Hk Hp; cbn in *; try discriminate.
      - injection Hk as <-. injection Hp as <-. exact Hab.
      - eauto. }
    destruct Y as [n [E1 [E2 [E3 E4]]]]. exists n, p. repeat split; auto. eapply DU; eassumption.
Qed.
End Props.
