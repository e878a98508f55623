(** Facts behind the properties of P_Ring.v *)
From Coq Require Import String ZArith List Lia Bool Arith Field Permutation.
From Coq Require Import Init.Byte.
From Verif Require Import GoModel GoFacts Fld Rist RistFacts SpecVector VectorFacts PedersenModel PedersenFacts SpecMlsag MlsagModel MlsagFacts MlsagProve MlsagProps
  MlsagSessions SpecRewind SpecFork ForkFacts ForkAttack BlsagModel SpecBlsag BlsagFacts SpecBlFork BlForkFacts SpecRing.
Import ListNotations.
Local Open Scope nat_scope.

(** ** Rotation *)
Section Rotate.
Context {R : rist}.
Lemma Verify_true_shape (s : sig R) J : sig_Verify R s J = Ok true ->
  sg_pub R s <> [] /\ sg_r R s <> [] /\ J <> [] /\ shape_ok s J /\ ring_chain R (sg_msg R s) J (verify_rows s) (sg_c R s) = sg_c R s.
Proof.
  intros E.
  assert (N : ~ (sg_pub R s = [] \/ sg_r R s = [] \/ J = [])).
  { intros X. destruct (proj1 (Verify_outcomes s J) X) as [e C]. rewrite E in C. discriminate. }
  assert (N1 : sg_pub R s <> []) by tauto. assert (N2 : sg_r R s <> []) by tauto. assert (N3 : J <> []) by tauto.
  split; [exact N1|]. split; [exact N2|]. split; [exact N3|].
  assert (SH : shape_ok s J).
  { destruct (le_dec (length (sg_r R s)) (length (sg_pub R s))) as [L|L].
    - destruct (Forall_dec (row_ok R J)) with (l := sig_rows s) as [D|D].
      + intros r. unfold row_ok. destruct (le_dec (length J) (length (fst r))); [|right; lia]. destruct (le_dec (length (fst r)) (length (snd r))); [left|right]; lia.
      + split; assumption.
      + exfalso. rewrite Verify_bad in E; [discriminate|assumption..|]. intros [_ C]. exact (D C).
    - exfalso. rewrite Verify_bad in E; [discriminate|assumption..|]. intros [C _]. lia. }
  split; [exact SH|]. rewrite Verify_shape in E by assumption. destruct (feqb _ _) eqn:Q in E; [|discriminate]. apply feqb_eq. exact Q.
Qed.
Lemma rotate_length {A} (l : list A) : length (rotate l) = length l.
Proof. destruct l as [|x l]; [reflexivity|]. cbn. rewrite app_length. cbn. lia. Qed.
Lemma rotate_combine {A B} (a : list A) (b : list B) : length a = length b -> combine (rotate a) (rotate b) = rotate (combine a b).
Proof.
  destruct a as [|x a], b as [|y b]; intros L; try discriminate; [reflexivity|]. cbn in L. cbn [rotate combine].
  assert (L' : length a = length b) by lia. clear L. revert b L'. induction a as [|u a IH]; intros [|v b] L; try discriminate; [reflexivity|].
  cbn in *. rewrite IH by lia. reflexivity.
Qed.
Lemma rotate_verify m c r pub J K k r0 : sig_Verify R (mkSig R c r pub m) J = Ok true -> length pub = length r ->
  nth_error pub 0 = Some k -> nth_error r 0 = Some r0 -> K = pk_keys R k ->
  sig_Verify R (mkSig R (ring_chal R m J K r0 c) (rotate r) (rotate pub) m) J = Ok true.
Proof.
  intros E L Ek Er ->. apply Verify_true_shape in E. cbn [sg_pub sg_r sg_msg sg_c] in E. destruct E as (N1 & N2 & N3 & [_ FA] & CH).
  destruct pub as [|k' pub]; [discriminate|]. destruct r as [|r' r]; [discriminate|]. cbn in Ek, Er. injection Ek as ->. injection Er as ->.
  set (s := mkSig R c _ _ m) in *. set (s' := mkSig R _ _ _ m).
  assert (SR : sig_rows s = (pk_keys R k, r0) :: combine (map (pk_keys R) pub) r) by reflexivity.
  assert (SR' : sig_rows s' = combine (map (pk_keys R) pub) r ++ [(pk_keys R k, r0)]).
  { unfold sig_rows. cbn [s' sg_pub sg_r]. unfold rotate. rewrite map_app. cbn [map].
    pose proof (rotate_combine (map (pk_keys R) (k :: pub)) (r0 :: r)) as X. cbn in X. rewrite map_length in X. apply X. cbn in L. lia. }
  rewrite Verify_shape.
  - cbn [s' sg_msg sg_c]. replace (ring_chain R m J (verify_rows s') _) with (ring_chal R m J (pk_keys R k) r0 c); [rewrite feqb_refl; reflexivity|].
    symmetry. unfold verify_rows in *. rewrite SR'. rewrite SR in CH. cbn [s s' sg_r] in *. rewrite rotate_length. 
    destruct (Nat.eqb_spec (length (r0 :: r)) 1) as [D|D].
    + destruct r; [|cbn in D; lia]. destruct pub; [|cbn in L; lia]. cbn in CH |- *. unfold ring_chain in CH. cbn in CH. rewrite CH. reflexivity.
    + unfold ring_chain in *. rewrite fold_left_app. cbn [fold_left fst snd] in *. rewrite CH. reflexivity.
  - cbn. destruct pub; discriminate.
  - cbn. destruct r; discriminate.
  - exact N3.
  - split.
    + cbn [s' sg_pub sg_r]. rewrite !rotate_length. rewrite L. apply le_n.
    + rewrite SR'. rewrite SR in FA. inversion FA; subst. apply Forall_app. split; [assumption|]. constructor; [assumption|constructor].
Qed.
End Rotate.
Section RotateBl.
Context {R : rist} {V : raw R}.
Lemma rotate_bl m (sg : rsig R V) P s : Verify R V m sg = Ok true -> length (rs_pub R V sg) = length (rs_S R V sg) ->
  nth_error (rs_pub R V sg) 0 = Some P -> nth_error (rs_S R V sg) 0 = Some s ->
  Verify R V m (mkRS R V (rs_I R V sg) (bl_chal R V m (rs_I R V sg) (P, s) (rs_C R V sg)) (rotate (rs_S R V sg)) (rotate (rs_pub R V sg))) = Ok true.
Proof.
  intros E L EP ES. destruct sg as [I c ss pub]. cbn [rs_I rs_C rs_S rs_pub] in *.
  destruct pub as [|P' pub]; [discriminate|]. destruct ss as [|s' ss]; [discriminate|]. cbn in EP, ES. injection EP as ->. injection ES as ->.
  rewrite Verify_ok in E |- *; cbn [rs_I rs_C rs_S rs_pub]; rewrite ?rotate_length; try (cbn; cbn in L; lia).
  injection E as E. apply feqb_eq in E. f_equal. apply feqb_eq. cbn [rs_I rs_C rs_S rs_pub] in E.
  rewrite rotate_combine by exact L. cbn [combine rotate]. unfold bl_chain in *. cbn [combine fold_left] in E. rewrite fold_left_app. cbn [fold_left].
  exact (f_equal (bl_chal R V m I (P, s)) E).
Qed.
End RotateBl.

(** ** Content of signatures *)
Section Bind.
Context {R : rist} (OK : rist_ok R).
Local Notation row := (list (pt R) * list F)%type.
Lemma closing_last h msg J rows c : rows <> [] -> closing R h msg J rows c = h (last (inputs R h msg J rows c) []).
Proof.
  revert c. induction rows as [|r rows IH]; intros c N; [congruence|]. cbn [closing inputs]. destruct rows as [|r' rows]; [reflexivity|].
  rewrite IH by discriminate. reflexivity.
Qed.
Lemma last_nth {A} (l : list A) d : l <> [] -> nth_error l (length l - 1) = Some (last l d).
Proof.
  induction l as [|x l IH]; intros N; [congruence|]. destruct l as [|y l]; [reflexivity|]. specialize (IH ltac:(discriminate)).
  replace (length (x :: y :: l) - 1) with (S (length (y :: l) - 1)) by (cbn; lia). exact IH.
Qed.
Lemma hashed_length ring h f : length (hashed R ring h f) = length (passed R ring f).
Proof. apply inputs_length. Qed.
Lemma accepted_len ring m h f : accepted R ring m h f -> length (passed R ring f) = Nat.max 2 (length ring).
Proof.
  intros A. pose proof (accepted_facts ring m h f A) as (_ & L2 & _ & _ & _). destruct A as (_ & LR & _). unfold passed in *.
  assert (LC : length (combine ring (fg_r R f)) = length ring) by (rewrite combine_length, LR; apply Nat.min_id).
  rewrite <- LC. destruct (combine ring (fg_r R f)) as [|a [|b l]]; cbn [length] in *; lia.
Qed.
Lemma message_bound ring m h f f' : accepted R ring m h f -> accepted R ring m h f' -> fg_c R f = fg_c R f' -> fg_msg R f <> fg_msg R f' ->
  let q := last (hashed R ring h f) [] in let q' := last (hashed R ring h f') [] in q <> q' /\ h q = fg_c R f /\ h q' = fg_c R f.
Proof.
  intros A1 A2 EC NM q q'. pose proof (accepted_len _ _ _ _ A1) as N1. pose proof (accepted_len _ _ _ _ A2) as N2.
  pose proof (accepted_facts _ _ _ _ A1) as (_ & _ & L1 & W1 & C1). pose proof (accepted_facts _ _ _ _ A2) as (_ & _ & L2 & W2 & C2).
  assert (NE : forall g, length (passed R ring g) = Nat.max 2 (length ring) -> passed R ring g <> []) by (intros g L C; rewrite C in L; cbn [length] in L; lia).
  rewrite closing_last in C1, C2 by (apply NE; assumption). fold (hashed R ring h f) in C1. fold (hashed R ring h f') in C2. fold q in C1. fold q' in C2.
  split; [|rewrite C1, C2, EC; auto]. intros EQ.
  assert (Q1 : nth_error (hashed R ring h f) (Nat.max 2 (length ring) - 1) = Some q) by (rewrite <- N1, <- (hashed_length ring h f); apply last_nth; intros C; apply (f_equal (@length _)) in C; rewrite hashed_length in C; cbn [length] in C; lia).
  assert (Q2 : nth_error (hashed R ring h f') (Nat.max 2 (length ring) - 1) = Some q') by (rewrite <- N2, <- (hashed_length ring h f'); apply last_nth; intros C; apply (f_equal (@length _)) in C; rewrite hashed_length in C; cbn [length] in C; lia).
  set (i := Nat.max 2 (length ring) - 1) in *.
  destruct (nth_error (passed R ring f) i) as [r|] eqn:P1; [|apply nth_error_None in P1; lia].
  destruct (nth_error (passed R ring f') i) as [r'|] eqn:P2; [|apply nth_error_None in P2; lia].
  destruct (W1 i r P1) as [K1 G1]. destruct (W2 i r' P2) as [K2 G2]. rewrite G1 in G2. injection G2 as EK.
  destruct (inputs_at h (fg_msg R f) (fg_images R f) _ (fg_c R f) i r P1) as (c & _ & X1).
  destruct (inputs_at h (fg_msg R f') (fg_images R f') _ (fg_c R f') i r' P2) as (c' & _ & X2).
  unfold hashed in Q1, Q2. rewrite Q1 in X1. rewrite Q2 in X2. injection X1 as X1. injection X2 as X2.
  unfold row_ok in K1, K2. destruct r as [K a], r' as [K' b]; cbn [fst snd] in *. subst K'.
  apply NM. apply (same_points OK (fg_msg R f) (fg_msg R f') (fg_images R f) (fg_images R f') K a b c c'); try lia. congruence.
Qed.
(** chains with the same end that differ somewhere *)
Lemma chains_meet h msg msg' J J' : forall rows rows' c c', length rows = length rows' ->
  closing R h msg J rows c = closing R h msg' J' rows' c' -> c <> c' \/ inputs R h msg J rows c <> inputs R h msg' J' rows' c' ->
  exists i q q' d d', nth_error (inputs R h msg J rows c) i = Some q /\ nth_error (inputs R h msg' J' rows' c') i = Some q' /\
    nth_error (chals R h msg J rows c) i = Some d /\ nth_error (chals R h msg' J' rows' c') i = Some d' /\
    h q = h q' /\ (q <> q' \/ q = q' /\ d <> d').
Proof.
  induction rows as [|r rows IH]; intros [|r' rows'] c c' L E D; try discriminate.
  - cbn in *. destruct D as [D|D]; congruence.
  - cbn in L, E, D. set (q := input R msg J r c) in *. set (q' := input R msg' J' r' c') in *.
    destruct (list_eq_dec Byte.byte_eq_dec q q') as [EQ|NQ].
    + destruct (feqb_spec c c') as [EC|NC].
      * destruct (IH rows' (h q) (h q')) as (i & a & a' & d & d' & H); [lia|exact E| |].
        -- right. intros C. destruct D as [D|D]; [exact (D EC)|]. apply D. rewrite C, EQ. reflexivity.
        -- exists (S i), a, a', d, d'. exact H.
      * exists 0, q, q', c, c'. cbn. repeat (split; [reflexivity|]). split; [rewrite EQ; reflexivity|]. right. auto.
    + destruct (feqb_spec (h q) (h q')) as [EH|NH].
      * exists 0, q, q', c, c'. cbn. repeat (split; [reflexivity|]). split; [exact EH|]. left. exact NQ.
      * destruct (IH rows' (h q) (h q')) as (i & a & a' & d & d' & H); [lia|exact E|left; exact NH|]. exists (S i), a, a', d, d'. exact H.
Qed.
Lemma content_bound ring m h f f' : accepted R ring m h f -> accepted R ring m h f' -> fg_c R f = fg_c R f' -> hashed R ring h f <> hashed R ring h f' ->
  exists i q q' r r' c c', nth_error (hashed R ring h f) i = Some q /\ nth_error (hashed R ring h f') i = Some q' /\
    nth_error (passed R ring f) i = Some r /\ nth_error (passed R ring f') i = Some r' /\
    nth_error (entering R ring h f) i = Some c /\ nth_error (entering R ring h f') i = Some c' /\
    (q <> q' /\ h q = h q' \/ q = q' /\ keys_found R r r' c c').
Proof.
  intros A1 A2 EC NH. pose proof (accepted_len _ _ _ _ A1) as N1. pose proof (accepted_len _ _ _ _ A2) as N2.
  pose proof (accepted_facts _ _ _ _ A1) as (_ & _ & _ & _ & C1). pose proof (accepted_facts _ _ _ _ A2) as (_ & _ & _ & _ & C2).
  destruct (chains_meet h (fg_msg R f) (fg_msg R f') (fg_images R f) (fg_images R f') (passed R ring f) (passed R ring f') (fg_c R f) (fg_c R f'))
    as (i & q & q' & d & d' & Q1 & Q2 & D1 & D2 & EH & M); [lia|congruence|right; exact NH|].
  assert (LI : i < length (passed R ring f)) by (rewrite <- (hashed_length ring h f); apply nth_error_Some; unfold hashed; congruence).
  destruct (nth_error (passed R ring f) i) as [r|] eqn:P1; [|apply nth_error_None in P1; lia].
  destruct (nth_error (passed R ring f') i) as [r'|] eqn:P2; [|apply nth_error_None in P2; lia].
  exists i, q, q', r, r', d, d'. split; [exact Q1|]. split; [exact Q2|]. split; [exact P1|]. split; [exact P2|]. split; [exact D1|]. split; [exact D2|].
  destruct M as [M|[M ND]]; [left; auto|right]. split; [exact M|]. subst q'.
  destruct (meet OK ring m h h f f' i q r r' A1 A2 Q1 Q2 P1 P2) as (c & c' & E1 & E2 & EK & LJ & B1 & B2 & B3 & EP).
  unfold entering in E1, E2. rewrite D1 in E1. rewrite D2 in E2. injection E1 as <-. injection E2 as <-.
  pose proof (points_keys OK _ _ _ _ _ _ _ LJ B1 B2 B3 ND EP) as X. destruct r as [K a], r' as [K' b]; cbn [fst snd] in *. subst K'. exact X.
Qed.
Lemma same_responses J J' K r r' c : length J <= length K -> length J' <= length K -> length K <= length r -> length K <= length r' ->
  row_points R J K r c = row_points R J' K r' c -> firstn (length K) r = firstn (length K) r'.
Proof.
  intros H1 H2 H3 H4 E. apply points_split in E; [|lia..]. destruct E as [E1 _]. unfold row_points in E1. rewrite !combine_nil in E1.
  replace (zipw _ r []) with (@nil (pt R)) in E1 by (destruct r; reflexivity). replace (zipw _ r' []) with (@nil (pt R)) in E1 by (destruct r'; reflexivity).
  rewrite !app_nil_r in E1. clear H1 H2 J J'. revert r r' H3 H4 E1. induction K as [|k K IH]; intros r r' H3 H4 E; [reflexivity|].
  destruct r as [|a r], r' as [|b r']; cbn in H3, H4; try lia. cbn in E. injection E as A1 E. cbn [length firstn]. f_equal; [|apply IH; first [lia|exact E]].
  apply (padd_cancel_r OK) in A1. apply (smul_inj_l OK) in A1; [exact A1|apply (pbase_nz R OK)].
Qed.
Lemma chals_same h msg msg' J J' : forall rows rows' c, inputs R h msg J rows c = inputs R h msg' J' rows' c ->
  chals R h msg J rows c = chals R h msg' J' rows' c.
Proof.
  induction rows as [|r rows IH]; intros [|r' rows'] c E; try discriminate; [reflexivity|]. cbn in E |- *. injection E as E1 E2. f_equal.
  rewrite <- E1 in *. apply IH. exact E2.
Qed.
Lemma content_same ring m h f f' : accepted R ring m h f -> accepted R ring m h f' -> fg_c R f = fg_c R f' -> hashed R ring h f = hashed R ring h f' ->
  fg_msg R f = fg_msg R f' /\
  (forall i r r', nth_error (passed R ring f) i = Some r -> nth_error (passed R ring f') i = Some r' -> firstn (length (fst r)) (snd r) = firstn (length (fst r)) (snd r')) /\
  (fg_c R f <> f0 -> fg_images R f = fg_images R f').
Proof.
  intros A1 A2 EC EH. pose proof (accepted_len _ _ _ _ A1) as N1. pose proof (accepted_len _ _ _ _ A2) as N2.
  assert (CE : entering R ring h f = entering R ring h f').
  { unfold entering. unfold hashed in EH. rewrite EC in *. apply chals_same. exact EH. }
  split; [|split].
  - destruct (list_eq_dec Byte.byte_eq_dec (fg_msg R f) (fg_msg R f')) as [E|N]; [exact E|exfalso].
    destruct (message_bound ring m h f f' A1 A2 EC N) as [X _]. apply X. rewrite EH. reflexivity.
  - intros i r r' P1 P2.
    assert (LI : i < length (hashed R ring h f)) by (rewrite hashed_length; apply nth_error_Some; congruence).
    destruct (nth_error (hashed R ring h f) i) as [q|] eqn:Q1; [|apply nth_error_None in Q1; lia].
    assert (Q2 : nth_error (hashed R ring h f') i = Some q) by (rewrite <- EH; exact Q1).
    destruct (meet OK ring m h h f f' i q r r' A1 A2 Q1 Q2 P1 P2) as (c & c' & E1 & E2 & EK & LJ & B1 & B2 & B3 & EP).
    rewrite CE, E2 in E1. injection E1 as ->. apply (same_responses (fg_images R f) (fg_images R f') (fst r) (snd r) (snd r') c); first [lia|exact EP].
  - intros NZ.
    assert (LI : 0 < length (hashed R ring h f)) by (rewrite hashed_length; lia).
    destruct (nth_error (hashed R ring h f) 0) as [q|] eqn:Q1; [|apply nth_error_None in Q1; lia].
    assert (Q2 : nth_error (hashed R ring h f') 0 = Some q) by (rewrite <- EH; exact Q1).
    destruct (nth_error (passed R ring f) 0) as [r|] eqn:P1; [|apply nth_error_None in P1; rewrite hashed_length in LI; lia].
    destruct (nth_error (passed R ring f') 0) as [r'|] eqn:P2; [|apply nth_error_None in P2; lia].
    destruct (meet OK ring m h h f f' 0 q r r' A1 A2 Q1 Q2 P1 P2) as (c & c' & E1 & E2 & EK & LJ & B1 & B2 & B3 & EP).
    assert (EC0 : nth_error (entering R ring h f) 0 = Some (fg_c R f)).
    { unfold entering. destruct (passed R ring f); [discriminate|reflexivity]. }
    rewrite EC0 in E1. injection E1 as <-. rewrite <- CE, EC0 in E2. injection E2 as <-.
    apply (same_images OK _ _ (fst r) (snd r) (snd r') (fg_c R f)); first [lia|assumption].
Qed.
End Bind.

(** ** Reprogramming *)
Section Sim.
Context {R : rist} (OK : rist_ok R).
Lemma reprogram_at h q v : reprogram h q v q = v.
Proof. unfold reprogram. destruct (list_eq_dec _ q q); [reflexivity|congruence]. Qed.
Lemma reprogram_other h q v s : s <> q -> reprogram h q v s = h s.
Proof. intros N. unfold reprogram. destruct (list_eq_dec _ s q); [congruence|reflexivity]. Qed.
Lemma inputs_reprogram h q v msg J : forall rows c, ~ In q (removelast (inputs R h msg J rows c)) ->
  inputs R (reprogram h q v) msg J rows c = inputs R h msg J rows c.
Proof.
  induction rows as [|r rows IH]; intros c N; [reflexivity|]. cbn [inputs] in *. f_equal. destruct rows as [|r' rows]; [reflexivity|].
  set (q0 := input R msg J r c) in *.
  change (removelast (q0 :: inputs R h msg J (r' :: rows) (h q0))) with (q0 :: removelast (inputs R h msg J (r' :: rows) (h q0))) in N.
  rewrite reprogram_other by (intros C; apply N; left; exact C). apply IH. intros C. apply N. right. exact C.
Qed.
Lemma accepted_intro ring m h f : ring <> [] -> 0 < m -> length (fg_r R f) = length ring -> length (fg_images R f) = m ->
  Forall (row_ok R (fg_images R f)) (combine ring (fg_r R f)) ->
  closing R h (fg_msg R f) (fg_images R f) (passed R ring f) (fg_c R f) = fg_c R f -> accepted R ring m h f.
Proof.
  intros NR M LR LM FA C. split; [|split; assumption]. set (R' := with_hash R h). set (s := mkSig R' _ _ _ _).
  assert (SR : sig_rows s = combine ring (fg_r R f)). { unfold sig_rows. cbn [s sg_pub sg_r]. rewrite map_map. cbn [pk_keys]. rewrite map_id. reflexivity. }
  assert (LC : length (combine ring (fg_r R f)) = length ring) by (rewrite combine_length, LR; apply Nat.min_id).
  assert (VR : verify_rows s = passed R ring f).
  { unfold verify_rows. rewrite SR. cbn [s sg_r]. unfold passed. rewrite LR, <- LC. destruct (combine ring (fg_r R f)) as [|a [|b l]]; reflexivity. }
  rewrite Verify_shape.
  - rewrite VR. rewrite closing_chain in C. cbn [s sg_msg sg_c]. unfold ring_chain.
    assert (X : fold_left (fun c row => ring_chal R' (fg_msg R f) (fg_images R f) (fst row) (snd row) c) (passed R ring f) (fg_c R f) = fg_c R f) by exact C.
    rewrite X, feqb_refl. reflexivity.
  - cbn [s sg_pub]. destruct ring; [congruence|discriminate].
  - cbn [s sg_r]. destruct (fg_r R f); [destruct ring; [congruence|discriminate]|discriminate].
  - intros D. rewrite D in LM. cbn in LM. lia.
  - split; [cbn [s sg_pub sg_r]; rewrite map_length, LR; apply le_n|]. rewrite SR. exact FA.
Qed.
Lemma passed_some ring f : ring <> [] -> length (fg_r R f) = length ring -> passed R ring f <> [].
Proof.
  intros N L. unfold passed. destruct ring as [|K ring]; [congruence|]. destruct (fg_r R f) as [|r l]; [discriminate|]. cbn [combine].
  destruct (combine ring l); discriminate.
Qed.
Lemma simulate ring m h f : ring <> [] -> 0 < m -> length (fg_r R f) = length ring -> length (fg_images R f) = m ->
  Forall (row_ok R (fg_images R f)) (combine ring (fg_r R f)) ->
  let q := last (hashed R ring h f) [] in ~ In q (removelast (hashed R ring h f)) -> accepted R ring m (reprogram h q (fg_c R f)) f.
Proof.
  intros NR M LR LM FA q NI. apply accepted_intro; try assumption.
  rewrite closing_last by (apply passed_some; assumption).
  rewrite inputs_reprogram by exact NI. fold (hashed R ring h f). apply reprogram_at.
Qed.
Lemma simulated ring m h f : accepted R ring m h f -> forall s, reprogram h (last (hashed R ring h f) []) (fg_c R f) s = h s.
Proof.
  intros A s. pose proof (accepted_len _ _ _ _ A) as L. pose proof (accepted_facts _ _ _ _ A) as (_ & _ & _ & _ & C).
  rewrite closing_last in C by (intros D; rewrite D in L; cbn [length] in L; lia). fold (hashed R ring h f) in C.
  unfold reprogram. destruct (list_eq_dec _ s _) as [->|_]; [symmetry; exact C|reflexivity].
Qed.
(** the nonces of an accepted signature *)
Lemma nonces_length c : forall r xs, length r = length xs -> length (nonces_for c r xs) = length xs.
Proof. intros r xs L. unfold nonces_for. rewrite map_length, combine_length. lia. Qed.
Lemma respond_nonces c : forall r xs, length r = length xs -> respond c (nonces_for c r xs) xs = r.
Proof.
  unfold respond, nonces_for. induction r as [|a r IH]; intros [|x xs] L; try discriminate; [reflexivity|]. cbn in *. rewrite IH by lia. f_equal. ring.
Qed.
Lemma nonces_respond c : forall ns xs, length ns = length xs -> nonces_for c (respond c ns xs) xs = ns.
Proof.
  unfold respond, nonces_for. induction ns as [|a r IH]; intros [|x xs] L; try discriminate; [reflexivity|]. cbn in *. rewrite IH by lia. f_equal. ring.
Qed.
Lemma own_points c ns xs : length ns = length xs ->
  row_points R (map (key_image R) xs) (keys_of R xs) (respond c ns xs) c =
  keys_of R ns ++ zipw (fun a x => smul R a (pderive R (pbytes R (smul R x (pbase R))))) ns xs.
Proof.
  intros L. unfold row_points. rewrite (respond_points OK) by exact L. f_equal.
  unfold respond, keys_of. revert xs L. induction ns as [|a ns IH]; intros [|x xs] L; try discriminate; [reflexivity|].
  cbn in *. rewrite IH by lia. f_equal. unfold key_image. lin OK.
Qed.
Lemma signer_unique h msg c r xs decoys : length r = length xs -> decoys <> [] ->
  accepted R (keys_of R xs :: map fst decoys) (length xs) h (mkForgery R msg c (r :: map snd decoys) (map (key_image R) xs)) ->
  forall ns, length ns = length xs ->
    (answer h (signer R msg ns xs decoys) = mkForgery R msg c (r :: map snd decoys) (map (key_image R) xs) <-> ns = nonces_for c r xs).
Proof.
  intros L ND A ns LN. unfold signer. cbn [answer]. rewrite answer_pass. cbn [answer]. set (J := map (key_image R) xs) in *. split.
  - intros E. injection E as E1 E2. rewrite E1 in E2. rewrite <- E2. symmetry. apply nonces_respond. exact LN.
  - intros ->. pose proof (accepted_facts _ _ _ _ A) as (_ & _ & _ & _ & C). cbn [fg_msg fg_c fg_images] in C.
    assert (EC : combine (map fst decoys) (map snd decoys) = decoys).
    { clear. induction decoys as [|[K r] l IH]; [reflexivity|]. cbn. rewrite IH. reflexivity. }
    unfold passed in C. cbn [fg_r combine] in C. rewrite EC in C. destruct decoys as [|d l]; [congruence|].
    rewrite closing_chain in C. cbn [fold_left] in C.
    assert (EI : input R msg J (keys_of R xs, r) c = late_input R msg (nonces_for c r xs) xs []).
    { unfold input, late_input. cbn [fst snd]. f_equal. f_equal. f_equal. pose proof (own_points c (nonces_for c r xs) xs LN) as O. rewrite respond_nonces in O by exact L. exact O. }
    rewrite EI in C. set (c' := ring_chain _ _ _ _ _).
    assert (EQ : c' = c) by exact C. rewrite EQ, respond_nonces by exact L. reflexivity.
Qed.
End Sim.
Section SimBl.
Context {R : rist} (OK : rist_ok R) {V : raw R} (VOK : raw_ok R V).
Lemma simulate_bl ring h f : ring <> [] -> length ring <= length (bf_s R f) ->
  let qs := inputs R h (bf_msg R f) [bf_image R f] (map (fun x => ([fst x], [snd x])) (combine ring (bf_s R f))) (bf_c R f) in
  let q := last qs [] in ~ In q (removelast qs) -> bl_accepted R V ring (reprogram h q (bf_c R f)) f.
Proof.
  intros N L qs q NI. unfold bl_accepted. set (h' := reprogram h q (bf_c R f)).
  pose proof (verify_pub (R := with_hash R h') (V := raw_hash R V h') (raw_hash_ok VOK h') (bf_msg R f) (bf_image R f) (bf_c R f) (bf_s R f) ring N L) as E.
  etransitivity; [exact E|]. f_equal. apply feqb_eq.
  set (rows := map _ _) in qs.
  transitivity (closing R h' (bf_msg R f) [bf_image R f] rows (bf_c R f)); [rewrite closing_chain; reflexivity|].
  assert (NR : rows <> []). { unfold rows. destruct ring; [congruence|]. destruct (bf_s R f); [cbn in L; lia|discriminate]. }
  rewrite closing_last by exact NR. unfold h' at 2. rewrite inputs_reprogram by exact NI. apply reprogram_at.
Qed.
End SimBl.

(** ** Amounts *)
Section Amounts.
Context {R : rist} (OK : rist_ok R).
Local Notation "p [+] q" := (padd R p q) (at level 50, left associativity).
Local Notation "s [*] p" := (smul R s p) (at level 40, left associativity).
Lemma com_diff v b v' b' : psub R (com R v b) (com R v' b') = fsub v v' [*] value_point R [+] fsub b b' [*] pbase R.
Proof. unfold com. lin OK. Qed.
Lemma zero_comm v b v' b' : fsub b b' [*] pbase R = psub R (com R v b) (com R v' b') <-> v = v' \/ value_point R = pt0 R.
Proof.
  rewrite com_diff. split.
  - intros E. assert (Z : fsub v v' [*] value_point R = pt0 R).
    { apply (padd_cancel_r OK (fsub b b' [*] pbase R)). rewrite <- E. lin OK. }
    apply (smul_integral OK) in Z. destruct Z as [Z|Z]; [left|right; exact Z].
    replace v with (fadd (fsub v v') v') by ring. rewrite Z. ring.
  - intros [->|E]; [|rewrite E]; lin OK.
Qed.
Lemma other_comm v b v' b' z : z [*] pbase R = psub R (com R v b) (com R v' b') ->
  v = v' /\ z = fsub b b' \/ v <> v' /\ value_point R = fmul (fsub z (fsub b b')) (finv (fsub v v')) [*] pbase R.
Proof.
  rewrite com_diff. intros E. destruct (F_eq_dec v v') as [->|N]; [left|right]; split; try assumption; [reflexivity| |].
  - apply (smul_inj_l OK z (fsub b b') (pbase R) (pbase_nz R OK)). rewrite E. lin OK.
  - assert (NZ : fsub v v' <> f0). { intros C. apply N. replace v with (fadd (fsub v v') v') by ring. rewrite C. ring. }
    apply (smul_inj_r OK (fsub v v') _ _ NZ). rewrite <- (smul_mul R OK).
    replace (fmul (fsub v v') (fmul (fsub z (fsub b b')) (finv (fsub v v')))) with (fsub z (fsub b b')).
    + apply (padd_cancel_r OK (fsub b b' [*] pbase R)). rewrite <- E. lin OK.
    + transitivity (fmul (fsub z (fsub b b')) (fmul (finv (fsub v v')) (fsub v v'))); [rewrite finv_l by exact NZ|]; ring.
Qed.
Lemma amount_row o v' b' r r' c c' : fst r = spend_row R (com R v' b') (fst (fst o), com R (snd (fst o)) (snd o)) -> keys_found R r r' c c' ->
  exists x z, amount_found R o v' b' (snd r) (snd r') c c' x z.
Proof.
  intros E (_ & _ & L1 & L2 & K). rewrite E in L1, L2, K. cbn [spend_row fst snd length] in L1, L2, K.
  destruct (snd r) as [|a1 [|a2 l]]; cbn in L1; try lia. destruct (snd r') as [|b1 [|b2 l']]; cbn in L2; try lia.
  exists (secret a1 b1 c c'), (secret a2 b2 c c'), a1, a2, b1, b2. do 6 (split; [reflexivity|]).
  split; [exact (K 0 _ a1 b1 eq_refl eq_refl eq_refl)|].
  apply other_comm. symmetry. exact (K 1 _ a2 b2 eq_refl eq_refl eq_refl).
Qed.
Lemma amounts outs v' b' k A (hs : list (bytes -> F)) : let ring := map (spend_row R (com R v' b')) (outputs R outs) in
  (forall h, In h hs -> accepted R ring 1 h (answer h A) /\ list_max (places R ring h A) = k /\
     forall s, In s (hashed R ring h (answer h A)) -> h s <> f0) ->
  (forall h h' q, In h hs -> In h' hs -> In q (firstn k (queries R ring h A)) -> h q = h' q) ->
  NoDup (map (fun h => h (nth k (queries R ring h A) [])) hs) ->
  Nat.max 2 (length outs) * k * (k + 1) + 1 < length hs ->
  exists h h', In h hs /\ In h' hs /\
   let f := answer h A in let f' := answer h' A in
   ((exists i o r r' c c' x z, nth_error outs (i mod length outs) = Some o /\
      nth_error (passed R ring f) i = Some r /\ nth_error (passed R ring f') i = Some r' /\
      nth_error (entering R ring h f) i = Some c /\ nth_error (entering R ring h' f') i = Some c' /\ c <> c' /\
      amount_found R o v' b' (snd r) (snd r') c c' x z /\ fg_images R f = [key_image R x] /\ fg_images R f' = [key_image R x]) \/
    (exists q, Forall (eq q) (hashed R ring h f) /\ Forall (eq q) (hashed R ring h' f') /\ h q <> h' q /\
      forall i o r r', nth_error outs (i mod length outs) = Some o ->
        nth_error (passed R ring f) i = Some r -> nth_error (passed R ring f') i = Some r' ->
        exists x z, amount_found R o v' b' (snd r) (snd r') (h q) (h' q) x z)).
Proof.
  intros ring H1 H2 H3 H4.
  assert (LN : length ring = length outs) by (unfold ring, outputs; rewrite !map_length; reflexivity).
  rewrite <- LN in *. destruct (fork_many OK ring 1 k A hs H1 H2 H3 H4) as (h & h' & I & I' & X). exists h, h'. split; [exact I|]. split; [exact I'|].
  cbv zeta in *. destruct (H1 h I) as (AC & _). destruct (H1 h' I') as (AC' & _).
  assert (RO : forall i r, nth_error (passed R ring (answer h A)) i = Some r ->
    exists o, nth_error outs (i mod length ring) = Some o /\ fst r = spend_row R (com R v' b') (fst (fst o), com R (snd (fst o)) (snd o))).
  { intros i r E. pose proof (accepted_facts _ _ _ _ AC) as (_ & _ & _ & W & _). destruct (W i r E) as [_ N].
    unfold ring in N at 1. unfold outputs in N. rewrite map_map in N. apply nth_error_map_inv in N. destruct N as (o & N & EO).
    exists o. split; [exact N|]. symmetry. exact EO. }
  destruct X as [(i & r & r' & c & c' & E1 & E2 & E3 & E4 & KF & EI & IM)|(q & Q1 & Q2 & K)]; [left|right].
  - destruct (RO i r E1) as (o & EO & ER). destruct (amount_row o v' b' r r' c c' ER KF) as (x & z & AF).
    exists i, o, r, r', c, c', x, z. do 5 (split; [assumption|]). split; [exact (proj1 (proj2 KF))|]. split; [exact AF|].
    pose proof (accepted_facts _ _ _ _ AC) as (_ & _ & LJ & _ & _). rewrite <- EI.
    enough (fg_images R (answer h A) = [key_image R x]) by auto.
    destruct IM as [_ IM]. destruct AF as (a1 & a2 & b1 & b2 & A1 & _ & B1 & _ & -> & _).
    destruct (fg_images R (answer h A)) as [|im [|im' l]]; cbn in LJ; try lia. f_equal. exact (IM 0 im a1 b1 eq_refl A1 B1).
  - exists q. split; [exact Q1|]. split; [exact Q2|].
    pose proof (accepted_len _ _ _ _ AC) as L. pose proof (accepted_len _ _ _ _ AC') as L'.
    assert (NQ : h q <> h' q).
    { destruct (passed R ring (answer h A)) as [|r0 l0] eqn:P1; [cbn [length] in L; lia|].
      destruct (passed R ring (answer h' A)) as [|r1 l1] eqn:P2; [cbn [length] in L'; lia|].
      exact (proj1 (proj2 (K 0 r0 r1 eq_refl eq_refl))). }
    split; [exact NQ|]. intros i o r r' EO E1 E2. destruct (RO i r E1) as (o' & EO' & ER). rewrite EO in EO'. injection EO' as <-.
    apply (amount_row o v' b' r r' (h q) (h' q) ER). exact (K i r r' E1 E2).
Qed.

(** the session of a spender *)
Lemma run_all_app {O S} (f : O -> S -> res S) a b s : run_all f (a ++ b) s = bind (run_all f a s) (run_all f b).
Proof. revert s. induction a as [|o a IH]; intros s; [reflexivity|]. cbn. destruct (f o s); [|reflexivity..]. cbn. apply IH. Qed.
Lemma run_decoys (l : list (list (pt R))) : forall d : dualkey R,
  run_all run_dop (map (fun r => DDecoy (mkPK R false r)) l) d =
  Ok (mkDK R (mkMP R (mp_index R (dk_proof R d)) (mp_priv R (dk_proof R d)) (mp_signer R (dk_proof R d))
     (mp_matrix R (dk_proof R d) ++ map (mkPK R true) l) (mp_msg R (dk_proof R d))) (dk_keys R d)).
Proof.
  induction l as [|r l IH]; intros d.
  - cbn. rewrite app_nil_r. destruct d as [[i a b c e] k]. reflexivity.
  - cbn [map run_all run_dop bind]. rewrite IH. f_equal. unfold on_proof. cbn. rewrite <- app_assoc. reflexivity.
Qed.
Lemma spend decoys msg x v b b' js rs : decoys <> [] -> x <> f0 -> b <> b' -> let D := com R v b' in
  exists d sg d', run_all run_dop (spend_ops R decoys D msg x (fsub b b')) (NewDualKey R) = Ok d /\
    dk_Prove R d js rs = (Ok (sg, key_image R x), d') /\ sg_msg R sg = msg /\
    Permutation (map (spend_row R D) (decoys ++ [(x [*] pbase R, com R v b)])) (map (pk_keys R) (sg_pub R sg)) /\
    sig_Verify R sg [key_image R x] = Ok true.
Proof.
  intros ND NX NB D. set (z := fsub b b').
  assert (NZ : z <> f0). { intros C. apply NB. replace b with (fadd z b') by (unfold z; ring). rewrite C. ring. }
  set (rows := map (fun o : pt R * pt R => [fst o; snd o]) decoys).
  set (d0 := mkDK R (mkMP R 0 [] (mkPK R false []) (map (mkPK R true) rows) []) [f0; f0]).
  assert (F2 : Forall (fun row => 2 <= length (pk_keys R row)) (mp_matrix R (dk_proof R d0))).
  { cbn [d0 dk_proof mp_matrix]. unfold rows. rewrite map_map. apply Forall_map, Forall_forall. intros o _. cbn. lia. }
  destruct (proj1 (Sub_spec d0 D) F2) as (d1 & S1 & S2 & S3 & S4 & S5 & S6 & S7).
  set (d := mkDK R (SetMsg R (dk_proof R d1) msg) [x; z]).
  assert (ED : run_all run_dop (spend_ops R decoys D msg x z) (NewDualKey R) = Ok d).
  { unfold spend_ops. rewrite run_all_app. replace (map (fun o => DDecoy _) decoys) with (map (fun r => DDecoy (mkPK R false r)) rows) by (unfold rows; rewrite map_map; reflexivity).
    rewrite run_decoys. cbn [bind NewDualKey dk_proof dk_keys mp_index mp_priv mp_signer mp_matrix mp_msg app]. fold d0.
    cbn [run_all run_dop]. rewrite S1. cbn [bind]. unfold SetPrimaryKey, SetCommToZero, on_proof. cbn [dk_keys dk_proof]. rewrite S3. reflexivity. }
  assert (HS : Forall setup (spend_ops R decoys D msg x z)).
  { unfold spend_ops. apply Forall_app. split; [apply Forall_map, Forall_forall; intros o _; exact I|]. repeat (constructor; [exact I|]). constructor. }
  assert (EM : mp_matrix R (dk_proof R d) = map (fun o => mkPK R true (spend_row R D o)) decoys).
  { cbn [d dk_proof]. unfold SetMsg. cbn [mp_matrix]. rewrite S2. cbn [d0 dk_proof mp_matrix]. unfold rows. rewrite !map_map. reflexivity. }
  destruct (dk_ok OK d x z [] js rs (dk_fresh_run _ _ d dk_fresh_new dk_shape_new HS ED)) as (sg & d' & P1 & P2 & P3 & P4); [reflexivity|exact NX|exact NZ| | |].
  - rewrite EM. destruct decoys; [congruence|discriminate].
  - rewrite EM. apply Forall_map, Forall_forall. intros o _. reflexivity.
  - exists d, sg, d'. split; [exact ED|]. split; [exact P1|]. split; [exact P2|]. split; [|exact P4].
    apply (Permutation_map (pk_keys R)) in P3. rewrite EM, map_app, map_map in P3. cbn [pk_keys map] in P3.
    rewrite map_app. cbn [map]. unfold spend_row at 2. cbn [fst snd].
    replace (psub R (com R v b) D) with (z [*] pbase R); [exact P3|]. unfold D, z. apply zero_comm. left. reflexivity.
Qed.
End Amounts.
