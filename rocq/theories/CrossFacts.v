(** Facts about SpecCross.v *)
From Coq Require Import String ZArith List Lia Bool Arith Permutation.
From Verif Require Import GoModel GoFacts Fld Rist RistFacts SpecVector SpecMlsag MlsagModel MlsagSessions MlsagFacts MlsagProve MlsagProps
  BlsagModel SpecBlsag BlsagFacts MlsagRaw MlsagRawFacts SpecCross.
Import ListNotations.
Local Open Scope nat_scope.

Section Cross.
Context {R : rist} {V : raw R} (VOK : raw_ok R V).
Variables (sub : rp R V -> rp R V -> rp R V) (neg : rp R V -> rp R V) (eqb : rp R V -> rp R V -> bool).
Local Notation L := (raw_lib R V sub neg eqb).
Local Notation same := (fun P : rp R V => (P : pt L)).

Definition row1 (row : rp R V * F) : list (pt L) * list F := ([fst row : pt L], [snd row]).
Lemma one_chal m (I : rp R V) row c : ring_chal L m [I : pt L] (fst (row1 row)) (snd (row1 row)) c = bl_chal R V m I row c.
Proof.
  destruct row as [P s]. unfold ring_chal, row_points, bl_chal, row1. cbn [zipw combine map app concat fst snd raw_lib padd smul pbase pbytes pderive sderive].
  rewrite app_nil_r. rewrite (rsmul_emb R V VOK s (pbase R)). reflexivity.
Qed.
Lemma one_chain m (I : rp R V) rows : forall c, ring_chain L m [I : pt L] (map row1 rows) c = bl_chain R V m I rows c.
Proof.
  induction rows as [|row rows IH]; intros c; [reflexivity|].
  cbn [map]. unfold ring_chain, bl_chain in *. cbn [fold_left]. rewrite one_chal. apply IH.
Qed.
Lemma as_rows m sg : sig_rows (as_mlsag L same m sg) = map row1 (combine (rs_pub R V sg) (rs_S R V sg)).
Proof.
  unfold sig_rows, as_mlsag. cbn [sg_pub sg_r]. rewrite map_map. cbn [pk_keys].
  rewrite (combine_firstn_l (rs_pub R V sg) (rs_S R V sg)).
  generalize (firstn (length (rs_pub R V sg)) (rs_S R V sg)). generalize (rs_pub R V sg).
  induction l as [|P l IH]; intros [|s l']; cbn; try reflexivity. f_equal. apply IH.
Qed.
Lemma as_shape m sg I : length (rs_pub R V sg) <= length (rs_S R V sg) -> shape_ok (as_mlsag L same m sg) [I].
Proof.
  intros H. split.
  - unfold as_mlsag. cbn [sg_r sg_pub]. rewrite !map_length, firstn_length. lia.
  - rewrite as_rows. apply Forall_forall. intros row X. apply in_map_iff in X. destruct X as [x [<- _]]. split; cbn; lia.
Qed.
Lemma as_verify m sg : rs_pub R V sg <> [] -> length (rs_pub R V sg) <= length (rs_S R V sg) ->
  sig_Verify L (as_mlsag L same m sg) [rs_I R V sg : pt L] =
  let f := bl_chain R V m (rs_I R V sg) (combine (rs_pub R V sg) (rs_S R V sg)) in
  if feqb (if Nat.eqb (length (rs_pub R V sg)) 1 then f (f (rs_C R V sg)) else f (rs_C R V sg)) (rs_C R V sg)
  then Ok true else Err "c'0 does not equal c0"%string.
Proof.
  intros N H. assert (LR : length (sg_r L (as_mlsag L same m sg)) = length (rs_pub R V sg)).
  { unfold as_mlsag. cbn [sg_r]. rewrite map_length, firstn_length. lia. }
  rewrite Verify_shape.
  - unfold verify_rows. rewrite LR, as_rows.
    change (sg_c L (as_mlsag L same m sg)) with (rs_C R V sg). change (sg_msg L (as_mlsag L same m sg)) with m.
    cbv zeta. destruct (Nat.eqb _ 1).
    + rewrite <- map_app, one_chain. unfold bl_chain. rewrite fold_left_app. reflexivity.
    + rewrite one_chain. reflexivity.
  - unfold as_mlsag. cbn [sg_pub]. destruct (rs_pub R V sg); [contradiction|discriminate].
  - intros C. rewrite C in LR. destruct (rs_pub R V sg); [contradiction|discriminate].
  - discriminate.
  - apply as_shape. exact H.
Qed.
Lemma pos {A} (l : list A) : l <> [] -> 0 < length l.
Proof. destruct l; [contradiction|cbn; lia]. Qed.
Lemma cross_iff m sg : 2 <= length (rs_pub R V sg) -> length (rs_pub R V sg) <= length (rs_S R V sg) ->
  (sig_Verify L (as_mlsag L same m sg) [rs_I R V sg : pt L] = Ok true <-> Verify R V m sg = Ok true).
Proof.
  intros H1 H2. rewrite as_verify; [|intros C; rewrite C in H1; cbn in H1; lia|exact H2]. rewrite Verify_ok by lia.
  cbv zeta. destruct (Nat.eqb_spec (length (rs_pub R V sg)) 1); [lia|]. destruct (feqb _ _); split; congruence.
Qed.
Lemma cross_one m sg : Verify R V m sg = Ok true ->
  sig_Verify L (as_mlsag L same m sg) [rs_I R V sg : pt L] = Ok true.
Proof.
  intros E.
  destruct (le_dec (length (rs_pub R V sg)) (length (rs_S R V sg))) as [H|H].
  2:{ exfalso. rewrite Verify_short in E by lia. discriminate. }
  assert (N : rs_pub R V sg <> []) by (intros C; rewrite Verify_empty in E; [discriminate|rewrite C; reflexivity]).
  rewrite as_verify by assumption. rewrite Verify_ok in E; [|apply pos; exact N|exact H]. injection E as E.
  cbv zeta. apply feqb_eq in E. destruct (Nat.eqb _ 1); rewrite ?E, (proj2 (feqb_eq _ _) eq_refl); reflexivity.
Qed.

(** ** from multilayered to bLSAG *)
Lemma back_chain m I rows : Forall (fun row : list (pt R) * list F => length (fst row) = 1 /\ 1 <= length (snd row)) rows -> forall c,
  ring_chain R m [I] rows c = bl_chain R V m (emb R V I) (map (fun row => (emb R V (hd (pt0 R) (fst row)), hd f0 (snd row))) rows) c.
Proof.
  intros H. induction H as [|[K r] rows [H1 H2] _ IH]; intros c; [reflexivity|].
  cbn [map]. unfold ring_chain, bl_chain in *. cbn [fold_left]. rewrite IH. f_equal.
  cbn [fst snd] in *. destruct K as [|k [|? ?]]; try discriminate. destruct r as [|s r]; [cbn in H2; lia|]. cbn [hd].
  unfold ring_chal, row_points, bl_chal. cbn [zipw combine map app concat fst snd].
  rewrite (rsmul_emb R V VOK), (radd_emb R V VOK), !(rbytes_emb R V VOK), !(rsmul_emb R V VOK), (radd_emb R V VOK), (rbytes_emb R V VOK).
  replace (zipw _ r []) with (@nil (pt R)) by (destruct r; reflexivity). cbn [map concat app].
  replace (zipw _ r []) with (@nil (pt R)) by (destruct r; reflexivity). cbn [map concat]. rewrite app_nil_r. reflexivity.
Qed.
Lemma back_rows s I : combine (rs_pub R V (as_blsag V s I)) (rs_S R V (as_blsag V s I)) =
  map (fun row => (emb R V (hd (pt0 R) (fst row)), hd f0 (snd row))) (sig_rows s).
Proof.
  unfold as_blsag, sig_rows. cbn [rs_pub rs_S]. generalize (sg_r R s). generalize (sg_pub R s).
  induction l as [|k l IH]; intros [|r l']; cbn; try reflexivity. f_equal. apply IH.
Qed.
Lemma Forall_combine_l {A B} (P : A -> Prop) (l : list A) (l' : list B) : Forall P l -> Forall (fun x => P (fst x)) (combine l l').
Proof. intros H. revert l'. induction H; intros [|y l']; constructor; auto. Qed.
Lemma back s I : length (sg_pub R s) = length (sg_r R s) -> 2 <= length (sg_pub R s) -> Forall (fun k => length (pk_keys R k) = 1) (sg_pub R s) ->
  sig_Verify R s [I] = Ok true -> Verify R V (sg_msg R s) (as_blsag V s I) = Ok true.
Proof.
  intros HL H2 F E.
  assert (N1 : sg_pub R s <> []) by (intros C; rewrite C in H2; cbn in H2; lia).
  assert (N2 : sg_r R s <> []) by (intros C; rewrite C in HL; rewrite HL in H2; cbn in H2; lia).
  assert (S : shape_ok s [I]).
  { split; [lia|]. destruct (Forall_dec (row_ok R [I]) (fun x => dec_and_le _ _ _) (sig_rows s)) as [A|A]; [exact A|].
    exfalso. rewrite Verify_bad in E; [discriminate|exact N1|exact N2|discriminate|]. intros [_ X]. contradiction. }
  rewrite Verify_shape in E by (try assumption; discriminate). unfold verify_rows in E.
  destruct (Nat.eqb_spec (length (sg_r R s)) 1); [lia|].
  rewrite back_chain in E.
  2:{ destruct S as [_ S]. apply Forall_forall. intros row X. rewrite Forall_forall in S. pose proof (S row X) as Y. unfold row_ok in Y. cbn [length] in Y.
      assert (F1 : Forall (fun row => length (fst row) = 1) (sig_rows s)).
      { unfold sig_rows. apply (Forall_combine_l (fun K => length K = 1)). rewrite Forall_map. exact F. }
      rewrite Forall_forall in F1. pose proof (F1 row X). lia. }
  rewrite <- (back_rows s I) in E. rewrite Verify_ok.
  - change (rs_I R V (as_blsag V s I)) with (emb R V I). change (rs_C R V (as_blsag V s I)) with (sg_c R s). destruct (feqb _ _); [reflexivity|discriminate].
  - unfold as_blsag. cbn [rs_pub]. rewrite map_length. lia.
  - unfold as_blsag. cbn [rs_pub rs_S]. rewrite !map_length. lia.
Qed.
Context (OK : rist_ok R).
Lemma one_key_sessions bops ops p x js rs sg J p' : session bops ops = Ok p -> mp_priv R p = [x] ->
  prove R p false js rs = (Ok (sg, J), p') ->
  J = [key_image R x] /\ Verify R V (mp_msg R p) (as_blsag V sg (key_image R x)) = Ok true.
Proof.
  intros HS HP E. pose proof (session_inv bops ops p HS) as I0.
  pose proof (prove_images p false js rs sg J p' I0 E) as EJ. unfold images in EJ. rewrite HP in EJ. cbn [map] in EJ.
  assert (NJ : J <> []) by (rewrite EJ; discriminate).
  assert (NP : mp_priv R p <> []) by (rewrite HP; discriminate).
  split; [exact EJ|].
  assert (HM : mp_matrix R p <> []). { intros C. pose proof (prove_alone p false js rs I0 C NP) as X. rewrite E in X. discriminate. }
  destruct (prove_content OK p false js rs sg J p' I0 E NJ) as [EM [PM LR]].
  destruct (prove_iff OK p false js rs I0 NP HM) as [_ [X _]].
  assert (F : Forall (fun row => length (pk_keys R row) = length (mp_priv R p)) (mp_matrix R p)) by (apply X; exists sg, J; rewrite E; reflexivity).
  rewrite <- EM. apply back.
  - symmetry. exact LR.
  - rewrite <- (Permutation_length PM), app_length. cbn [length]. destruct (mp_matrix R p); [contradiction|cbn; lia].
  - apply (Permutation_Forall PM). apply Forall_app. rewrite HP in F. cbn [length] in F. split; [exact F|]. constructor; [|constructor]. cbn [pk_keys]. rewrite HP. reflexivity.
  - pose proof (prove_verifies OK p false js rs sg J p' I0 E NJ) as Y. rewrite EJ in Y. exact Y.
Qed.
Lemma sign_cross m mixin x j0 rs sg : Sign R V m mixin x j0 rs = Ok sg ->
  rs_I R V sg = emb R V (key_image R x) /\ sig_Verify L (as_mlsag L same m sg) [rs_I R V sg : pt L] = Ok true.
Proof.
  intros E. split; [exact (proj1 (Sign_parts m mixin x j0 rs sg E))|]. apply cross_one.
  destruct (Sign_verifies OK VOK m mixin x j0 rs) as [sg' [E' HV]]. rewrite E in E'. injection E' as <-. exact HV.
Qed.
End Cross.
