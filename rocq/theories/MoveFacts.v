(** Facts about signatures moved to other keys *)
From Coq Require Import String ZArith List Lia Bool Arith.
From Coq Require Import Init.Byte.
From Verif Require Import GoModel GoFacts Fld Rist RistFacts SpecVector SpecMlsag SpecFork SpecMove MlsagModel MlsagFacts MlsagProps PedersenFacts ForkFacts RingMore.
Import ListNotations.
Local Open Scope nat_scope.

Lemma add_each_length {A} (f : A -> F -> A) l : forall ds, length (add_each f l ds) = length l.
Proof. induction l as [|x l IH]; intros [|d ds]; cbn; try reflexivity. rewrite IH. reflexivity. Qed.
Lemma add_each_nil {A} (f : A -> F -> A) l : add_each f l [] = l. Proof. destruct l; reflexivity. Qed.

Section Move.
Context {R : rist} (OK : rist_ok R).
Lemma moved_keys_length n ds K : length (moved_keys R n ds K) = length K.
Proof. unfold moved_keys. rewrite app_length, add_each_length, <- app_length, firstn_skipn. reflexivity. Qed.
Lemma moved_responses_length n c ds r : length (moved_responses n c ds r) = length r.
Proof. unfold moved_responses. rewrite app_length, add_each_length, <- app_length, firstn_skipn. reflexivity. Qed.
Lemma zip_moved c : forall n (K : list (pt R)) r ds, length ds <= length K - n -> length K <= length r ->
  zipw (fun a k => padd R (smul R a (pbase R)) (smul R c k)) (moved_responses n c ds r) (moved_keys R n ds K) =
  zipw (fun a k => padd R (smul R a (pbase R)) (smul R c k)) r K.
Proof.
  unfold moved_keys, moved_responses. induction n as [|n IH]; intros K r ds L LR.
  - cbn [firstn skipn app]. revert r ds L LR. induction K as [|k K IH]; intros r ds L LR.
    + destruct ds; [|cbn in L; lia]. rewrite !add_each_nil. reflexivity.
    + destruct r as [|a r]; [cbn in LR; lia|]. destruct ds as [|d ds]; [reflexivity|]. cbn in L, LR. cbn [add_each zipw]. f_equal; [lin OK|]. apply IH; lia.
  - destruct K as [|k K]; [destruct ds; [|cbn in L; lia]; rewrite !add_each_nil, !firstn_skipn; reflexivity|].
    destruct r as [|a r]; [cbn in LR; lia|]. cbn [firstn skipn app zipw]. f_equal. apply IH; cbn in L, LR; lia.
Qed.
Lemma zip_first {C} (f : F -> pt R * pt R -> C) : forall J (K K' : list (pt R)) r r', firstn (length J) K = firstn (length J) K' -> firstn (length J) r = firstn (length J) r' ->
  zipw f r (combine K J) = zipw f r' (combine K' J).
Proof.
  induction J as [|i J IH]; intros K K' r r' EK ER.
  - rewrite !combine_nil. destruct r, r'; reflexivity.
  - destruct K as [|k K], K' as [|k' K']; try discriminate EK; [destruct r, r'; reflexivity|]. cbn in EK. injection EK as -> EK.
    destruct r as [|a r], r' as [|a' r']; try discriminate ER; [reflexivity|]. cbn in ER. injection ER as -> ER. cbn [combine zipw]. f_equal. apply IH; assumption.
Qed.
Lemma firstn_kept {A} n (l l' : list A) : n <= length l -> firstn n (firstn n l ++ l') = firstn n l.
Proof. intros L. rewrite firstn_app, firstn_firstn, Nat.min_id, firstn_length, Nat.min_l, Nat.sub_diag by exact L. apply app_nil_r. Qed.
Lemma moved_points J K r ds c : length J <= length K -> length K <= length r -> length ds <= length K - length J ->
  row_points R J (moved_keys R (length J) ds K) (moved_responses (length J) c ds r) c = row_points R J K r c.
Proof.
  intros LJ LK LD. unfold row_points. f_equal; [apply zip_moved; assumption|]. apply zip_first.
  - apply firstn_kept. exact LJ.
  - apply firstn_kept. lia.
Qed.
Definition fits (J : list (pt R)) (row : list (pt R) * list F) (ds : list F) : Prop := length ds <= length (fst row) - length J.
Lemma moved_chain msg J : forall rows dss c, Forall (row_ok R J) rows -> Forall2 (fits J) rows dss ->
  ring_chain R msg J (moved_rows R msg J rows dss c) c = ring_chain R msg J rows c.
Proof.
  induction rows as [|[K r] rows IH]; intros dss c F D; inversion D as [|? ds ? dss' D1 D2]; subst; [reflexivity|]. inversion F as [|? ? [O1 O2] F']; subst. cbn [fst snd] in *.
  unfold ring_chain in *. cbn [moved_rows fold_left fst snd].
  assert (E : ring_chal R msg J (moved_keys R (length J) ds K) (moved_responses (length J) c ds r) c = ring_chal R msg J K r c).
  { unfold ring_chal. rewrite moved_points by assumption. reflexivity. }
  rewrite E. apply IH; assumption.
Qed.
Lemma moved_shape msg J : forall rows dss c, Forall (row_ok R J) rows -> Forall (row_ok R J) (moved_rows R msg J rows dss c).
Proof.
  induction rows as [|[K r] rows IH]; intros [|ds dss] c F; cbn [moved_rows]; try exact F. inversion F as [|? ? O F']; subst. constructor; [|apply IH; exact F'].
  unfold row_ok in *. cbn [fst snd] in *. rewrite moved_keys_length, moved_responses_length. exact O.
Qed.
Lemma moved_rows_length msg J : forall rows dss c, length (moved_rows R msg J rows dss c) = length rows.
Proof. induction rows as [|row rows IH]; intros [|ds dss] c; cbn; try reflexivity. rewrite IH. reflexivity. Qed.
Lemma combine_split_id {A B} (l : list (A * B)) : combine (map fst l) (map snd l) = l.
Proof. induction l as [|[a b] l IH]; cbn; [reflexivity|]. rewrite IH. reflexivity. Qed.

Lemma moved_verify msg c r pub J dss rows' pub' : 
  sig_Verify R (mkSig R c r pub msg) J = Ok true -> 2 <= length r ->
  Forall2 (fits J) (combine (map (pk_keys R) pub) r) dss ->
  rows' = moved_rows R msg J (combine (map (pk_keys R) pub) r) dss c -> map (pk_keys R) pub' = map fst rows' ->
  sig_Verify R (mkSig R c (map snd rows') pub' msg) J = Ok true.
Proof.
  intros E L2 D ER EP. apply Verify_true_shape in E. cbn [sg_pub sg_r sg_msg sg_c] in E. destruct E as (N1 & N2 & N3 & [LS FA] & CH).
  unfold sig_rows in FA. cbn [sg_pub sg_r] in *. set (rows := combine (map (pk_keys R) pub) r) in *.
  assert (LR : length rows = length r) by (unfold rows; rewrite combine_length, map_length; lia).
  assert (LR' : length rows' = length r) by (rewrite ER, moved_rows_length; exact LR).
  assert (LP : length pub' = length r). { apply (f_equal (@length _)) in EP. rewrite !map_length in EP. congruence. }
  set (s' := mkSig R c (map snd rows') pub' msg).
  assert (SR : sig_rows s' = rows') by (unfold sig_rows; cbn [s' sg_pub sg_r]; rewrite EP; apply combine_split_id).
  assert (VR : verify_rows s' = rows').
  { unfold verify_rows. rewrite SR. cbn [s' sg_r]. rewrite map_length, LR'. destruct (Nat.eqb_spec (length r) 1); [lia|reflexivity]. }
  rewrite Verify_shape.
  - rewrite VR. cbn [s' sg_msg sg_c]. rewrite ER, moved_chain by assumption. unfold verify_rows in CH. cbn [sg_r] in CH. unfold sig_rows in CH. cbn [sg_pub sg_r] in CH.
    destruct (Nat.eqb_spec (length r) 1); [lia|]. fold rows in CH. rewrite CH, feqb_refl. reflexivity.
  - cbn. intros ->. cbn in LP. lia.
  - cbn. intros X. apply (f_equal (@length _)) in X. rewrite map_length in X. cbn in X. lia.
  - exact N3.
  - split; [cbn [s' sg_r sg_pub]; rewrite map_length; lia|]. rewrite SR, ER. apply moved_shape. exact FA.
Qed.

(** ** The converse *)
Lemma inputs_nth h msg J : forall rows c i row d, nth_error rows i = Some row -> nth_error (chals R h msg J rows c) i = Some d ->
  nth_error (inputs R h msg J rows c) i = Some (input R msg J row d).
Proof.
  induction rows as [|r rows IH]; intros c [|i] row d E1 E2; try discriminate; cbn in E1, E2 |- *; [congruence|]. exact (IH _ i row d E1 E2).
Qed.
Lemma zip_at {A B C} (f : A -> B -> C) : forall a b i x y, nth_error a i = Some x -> nth_error b i = Some y -> nth_error (zipw f a b) i = Some (f x y).
Proof. induction a as [|u a IH]; intros [|v b] [|i] x y E1 E2; try discriminate; cbn in *; [congruence|]. exact (IH b i x y E1 E2). Qed.
Lemma combine_at {A B} : forall (a : list A) (b : list B) i x y, nth_error a i = Some x -> nth_error b i = Some y -> nth_error (combine a b) i = Some (x, y).
Proof. induction a as [|u a IH]; intros [|v b] [|i] x y E1 E2; try discriminate; cbn in *; [congruence|]. exact (IH b i x y E1 E2). Qed.
Lemma points_eq (a b : list (pt R)) : concat (map (pbytes R) a) = concat (map (pbytes R) b) -> a = b.
Proof.
  intros E. apply (concat_fixed_inj 32) in E; [|discriminate|apply Forall_forall; intros x H; apply in_map_iff in H; destruct H as [p [<- _]]; apply (pbytes_len R OK)..].
  revert b E. induction a as [|p a IH]; intros [|q b] E; try discriminate; [reflexivity|]. cbn in E. injection E as E1 E2. apply (pbytes_inj OK) in E1. subst. f_equal. apply IH. exact E2.
Qed.
Lemma zip_length {A B C} (f : A -> B -> C) : forall a b, length b <= length a -> length (zipw f a b) = length b.
Proof. induction a as [|x a IH]; intros [|y b] L; cbn in *; try lia. rewrite IH; lia. Qed.
Lemma same_points_at J J' K K' r r' c : length J = length J' -> length J <= length K <= length r -> length J' <= length K' <= length r' ->
  row_points R J K r c = row_points R J' K' r' c ->
  length K = length K' /\
  (forall j k k' a a', nth_error K j = Some k -> nth_error K' j = Some k' -> nth_error r j = Some a -> nth_error r' j = Some a' ->
     padd R (smul R a (pbase R)) (smul R c k) = padd R (smul R a' (pbase R)) (smul R c k') /\
     forall im im', nth_error J j = Some im -> nth_error J' j = Some im' ->
       padd R (smul R a (pderive R (pbytes R k))) (smul R c im) = padd R (smul R a' (pderive R (pbytes R k'))) (smul R c im')).
Proof.
  intros LJ [O1 O2] [O1' O2'] E. unfold row_points in E. pose proof (f_equal (@length _) E) as LE. rewrite !app_length, !zip_length in LE by (rewrite ?combine_length; lia).
  rewrite !combine_length in LE. assert (LK : length K = length K') by lia. split; [exact LK|]. intros j k k' a a' EK EK' ER ER'.
  assert (Bj : j < length K) by (apply nth_error_Some; congruence). split.
  - apply (f_equal (fun l => nth_error l j)) in E. rewrite !nth_error_app1 in E by (rewrite zip_length; lia).
    rewrite (zip_at _ _ _ j a k ER EK), (zip_at _ _ _ j a' k' ER' EK') in E. congruence.
  - intros im im' EI EI'. apply (f_equal (fun l => nth_error l (length K + j))) in E. rewrite !nth_error_app2 in E by (rewrite zip_length; lia).
    rewrite !zip_length in E by lia. replace (length K + j - length K) with j in E by lia. replace (length K + j - length K') with j in E by lia.
    rewrite (zip_at _ _ _ j a (k, im) ER (combine_at _ _ _ _ _ EK EI)), (zip_at _ _ _ j a' (k', im') ER' (combine_at _ _ _ _ _ EK' EI')) in E. cbn [fst snd] in E. congruence.
Qed.
Lemma moved_back c (P P' Q Q' : pt R) : c <> f0 -> padd R P (smul R c Q) = padd R P' (smul R c Q') -> Q' = padd R Q (smul R (finv c) (psub R P P')).
Proof.
  intros N E. assert (X : smul R c Q' = padd R (psub R P P') (smul R c Q)).
  { transitivity (psub R (padd R P' (smul R c Q')) P'); [lin OK|]. rewrite <- E. lin OK. }
  transitivity (smul R (finv c) (smul R c Q')); [linf OK|]. rewrite X. linf OK.
Qed.
End Move.
