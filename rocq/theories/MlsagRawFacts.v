(** Facts about MlsagRaw.v *)
From Coq Require Import String ZArith List Lia Bool Arith Field.
From Coq Require Import Init.Byte.
From Verif Require Import GoModel GoFacts Fld Rist RistFacts SpecVector VectorFacts InnerProductFacts SpecMlsag MlsagModel MlsagFacts MlsagProps ForkFacts BlsagModel MlsagRaw.
Import ListNotations.
Local Open Scope nat_scope.

Section Raw.
Context {R : rist} {V : raw R}.
Variables (sub : rp R V -> rp R V -> rp R V) (neg : rp R V -> rp R V) (eqb : rp R V -> rp R V -> bool).
Local Notation L := (raw_lib R V sub neg eqb).
Local Notation z := (rzero R V).
Local Notation e := (emb R V).

Lemma zipw_combine_map {A B C D} (f : A -> C * C -> D) (h : B -> C) (a : list A) (K I : list B) :
  zipw f a (combine (map h K) (map h I)) = zipw (fun x p => f x (h (fst p), h (snd p))) a (combine K I).
Proof.
  revert a I. induction K as [|k K IH]; intros [|x a] [|i I]; cbn; try reflexivity; try (rewrite zipw_nil_r; reflexivity).
  f_equal. apply IH.
Qed.
Lemma map_zipw {A B C D} (g : C -> D) (f : A -> B -> C) a b : map g (zipw f a b) = zipw (fun x y => g (f x y)) a b.
Proof. revert b. induction a as [|x a IH]; intros [|y b]; cbn; try reflexivity. f_equal. apply IH. Qed.
Lemma zipw_map_r {A B C D} (f : A -> C -> D) (h : B -> C) a b : zipw f a (map h b) = zipw (fun x y => f x (h y)) a b.
Proof. revert b. induction a as [|x a IH]; intros [|y b]; cbn; try reflexivity. f_equal. apply IH. Qed.
Lemma zipw_ext_all {A B C} (f g : A -> B -> C) a b : (forall x y, f x y = g x y) -> zipw f a b = zipw g a b.
Proof. intros H. revert b. induction a as [|x a IH]; intros [|y b]; cbn; try reflexivity. rewrite H. f_equal. apply IH. Qed.
Lemma zipw_const {A B C} (f : A -> B -> C) w a b : (forall x y, In y b -> f x y = w) -> length b <= length a -> zipw f a b = repeat w (length b).
Proof.
  revert b. induction a as [|x a IH]; intros [|y b] H Hl; cbn in *; try reflexivity; try lia.
  rewrite H by auto. f_equal. apply IH; [intros; apply H; auto|lia].
Qed.

(** ** Group elements *)
Section Agree.
Hypothesis VOK : raw_ok R V.
Lemma raw_row J K r c : row_points L (map e J) (map e K) r c = map e (row_points R J K r c).
Proof.
  unfold row_points. rewrite map_app, !map_zipw, zipw_map_r, zipw_combine_map. f_equal; apply zipw_ext_all; intros x y.
  - cbn [raw_lib padd smul pbase]. rewrite !(rsmul_emb R V VOK), (radd_emb R V VOK). reflexivity.
  - cbn [raw_lib padd smul pbase fst snd pderive pbytes]. rewrite (rbytes_emb R V VOK), !(rsmul_emb R V VOK), (radd_emb R V VOK). reflexivity.
Qed.
Lemma raw_chal msg J K r c : ring_chal L msg (map e J) (map e K) r c = ring_chal R msg J K r c.
Proof.
  unfold ring_chal. rewrite raw_row, map_map. cbn [raw_lib sderive pbytes]. f_equal. f_equal. f_equal.
  apply map_ext. intros p. apply (rbytes_emb R V VOK).
Qed.
Lemma raw_challenge msg r J k c : generateChallenge L msg r (map e J) (emb_pk R L e k) c = generateChallenge R msg r J k c.
Proof.
  destruct (row_dec J k r) as [H|H].
  - rewrite (generateChallenge_ok msg r J k c H). etransitivity; [apply generateChallenge_ok|f_equal; apply raw_chal].
    cbn [emb_pk pk_keys]. rewrite !map_length. exact H.
  - rewrite (generateChallenge_panic msg r J k c H). apply generateChallenge_panic.
    cbn [emb_pk pk_keys]. rewrite !map_length. exact H.
Qed.
Lemma nil_dec {A} (l : list A) : {l = []} + {l <> []}.
Proof. destruct l; [left; reflexivity|right; discriminate]. Qed.
Lemma raw_agree s J : sig_Verify L (emb_sig R L e s) (map e J) = sig_Verify R s J.
Proof.
  destruct (nil_dec (sg_pub R s)) as [E|H1]; [unfold sig_Verify; cbn [emb_sig sg_pub]; rewrite E; reflexivity|].
  destruct (nil_dec (sg_r R s)) as [E|H2]; [unfold sig_Verify; cbn [emb_sig sg_pub sg_r]; rewrite E; rewrite !orb_true_r; reflexivity|].
  destruct (nil_dec J) as [E|H3]; [unfold sig_Verify; rewrite E; cbn [map length]; rewrite !orb_true_r; reflexivity|].
  rewrite (Verify_list s J H1 H2 H3). etransitivity; [apply Verify_list|].
  - cbn [emb_sig sg_pub]. destruct (sg_pub R s); [contradiction|discriminate].
  - exact H2.
  - destruct J; [contradiction|discriminate].
  - cbn [emb_sig sg_r sg_c]. f_equal. apply run_list_ext. generalize (vlist (length (sg_r R s))). induction l as [|i l IH]; constructor; [|exact IH].
    intros c. unfold vstep. cbn [emb_sig sg_r sg_pub sg_msg]. destruct (idx (sg_r R s) i) as [r| |]; cbn [bind]; try reflexivity.
    unfold idx. rewrite nth_error_map. destruct (nth_error (sg_pub R s) i) as [k|]; cbn [option_map bind]; [|reflexivity]. apply raw_challenge.
Qed.
End Agree.

(** ** Zero values *)
Definition mk (c : F) (rows : list (list (pt L) * list F)) (msg : bytes) : sig L :=
  mkSig L c (map snd rows) (map (fun row => mkPK L false (fst row)) rows) msg.
Lemma closes c rows msg I : rows <> [] -> I <> [] -> Forall (row_ok L I) rows -> ring_chain L msg I rows c = c ->
  sig_Verify L (mk c rows msg) I = Ok true.
Proof.
  intros H1 H2 F E.
  assert (SR : sig_rows (mk c rows msg) = rows).
  { unfold sig_rows, mk. cbn [sg_pub sg_r]. rewrite map_map. cbn [pk_keys]. clear. induction rows as [|[K r] rows IH]; [reflexivity|]. cbn [map combine fst snd]. f_equal. exact IH. }
  etransitivity; [apply Verify_shape|].
  - cbn [mk sg_pub]. destruct rows; [contradiction|discriminate].
  - cbn [mk sg_r]. destruct rows; [contradiction|discriminate].
  - exact H2.
  - split; [cbn [mk sg_pub sg_r]; rewrite !map_length; lia|rewrite SR; exact F].
  - assert (X : ring_chain L msg I (verify_rows (mk c rows msg)) c = c).
    { unfold verify_rows. rewrite SR. destruct (Nat.eqb _ 1); [|exact E]. unfold ring_chain in *. rewrite fold_left_app, E. exact E. }
    change (sg_c L (mk c rows msg)) with c. change (sg_msg L (mk c rows msg)) with msg. rewrite X. rewrite (proj2 (feqb_eq c c) eq_refl). reflexivity.
Qed.
Section Absorb.
Hypothesis AB : forall p, radd R V p z = z.
Hypothesis AM : forall s, s <> f0 -> rsmul R V s z = z.
Lemma zero_row n m r c : c <> f0 -> n <= m -> m <= length r ->
  row_points L (repeat z n) (repeat z m) r c = repeat z m ++ repeat z n.
Proof.
  intros Hc H1 H2. unfold row_points. f_equal.
  - transitivity (repeat z (length (repeat z m))); [|rewrite repeat_length; reflexivity].
    apply zipw_const; [|rewrite repeat_length; exact H2]. intros x y Hy. apply repeat_spec in Hy. subst y. cbn [raw_lib padd smul]. rewrite AM by exact Hc. apply AB.
  - transitivity (repeat z (length (combine (repeat z m) (repeat z n)))); [|rewrite combine_length, !repeat_length, Nat.min_r by exact H1; reflexivity].
    apply zipw_const; [|rewrite combine_length, !repeat_length; lia]. intros x [y1 y2] Hy. apply in_combine_r in Hy. apply repeat_spec in Hy. subst y2.
    cbn [raw_lib padd smul snd]. rewrite AM by exact Hc. apply AB.
Qed.
Lemma image_row n K r c : c <> f0 -> n <= length K -> length K <= length r ->
  row_points L (repeat z n) K r c = zipw (fun r k => radd R V (rsmul R V r (e (pbase R))) (rsmul R V c k)) r K ++ repeat z n.
Proof.
  intros Hc H1 H2. unfold row_points. f_equal.
  transitivity (repeat z (length (combine K (repeat z n)))); [|rewrite combine_length, !repeat_length, Nat.min_r by exact H1; reflexivity].
  apply zipw_const; [|rewrite combine_length, !repeat_length; lia]. intros x [y1 y2] Hy. apply in_combine_r in Hy. apply repeat_spec in Hy. subst y2.
  cbn [raw_lib padd smul snd]. rewrite AM by exact Hc. apply AB.
Qed.
Lemma chain_app msg I a b c : ring_chain L msg I (a ++ b) c = ring_chain L msg I b (ring_chain L msg I a c).
Proof. unfold ring_chain. apply fold_left_app. Qed.

(** a row whose challenge does not depend on the one that enters it, as long as that is not zero *)
Lemma ring_closes msg I rows1 row rows2 h :
  let c := ring_chain L msg I rows2 h in
  (ring_chal L msg I (fst row) (snd row) (ring_chain L msg I rows1 c) = h) ->
  ring_chain L msg I (rows1 ++ row :: rows2) c = c.
Proof.
  intros c E. rewrite chain_app. change (row :: rows2) with ([row] ++ rows2). rewrite chain_app. unfold ring_chain at 2. cbn [fold_left]. rewrite E. reflexivity.
Qed.
Lemma forge_zero msg n m r rows1 rows2 : 0 < n -> n <= m -> m <= length r ->
  let I := repeat z n in
  let h := sderive R (msg ++ concat (repeat (rbytes R V z) (m + n))) in
  Forall (row_ok L I) (rows1 ++ rows2) -> ring_chain L msg I (rows2 ++ rows1) h <> f0 ->
  sig_Verify L (mk (ring_chain L msg I rows2 h) (rows1 ++ (repeat z m, r) :: rows2) msg) I = Ok true.
Proof.
  intros Hn H1 H2 I h F N. apply closes.
  - intros E. apply (f_equal (@length _)) in E. rewrite app_length in E. cbn in E. lia.
  - unfold I. destruct n; [lia|discriminate].
  - apply Forall_app in F. destruct F as [F1 F2]. apply Forall_app. split; [exact F1|]. constructor; [|exact F2].
    unfold row_ok, I. cbn [fst snd]. change (pt L) with (rp R V). rewrite !repeat_length. lia.
  - apply ring_closes. cbn [fst snd]. rewrite chain_app in N. unfold ring_chal.
    pose proof (zero_row n m r _ N H1 H2) as Z. rewrite <- repeat_app in Z. fold I in Z. etransitivity; [apply (f_equal (fun l => sderive L (msg ++ concat (map (pbytes L) l)))), Z|].
    unfold h. cbn [raw_lib sderive pbytes]. f_equal. f_equal. f_equal.
    generalize (m + n). induction n0 as [|k IH]; [reflexivity|]. cbn. f_equal. exact IH.
Qed.
Section Sign.
Context (OK : rist_ok R) (VOK : raw_ok R V).
Lemma key_row xs nonces c : length xs = length nonces ->
  zipw (fun r k => radd R V (rsmul R V r (e (pbase R))) (rsmul R V c k)) (zipw (fun a x => fsub a (fmul c x)) nonces xs)
    (map (fun x => e (smul R x (pbase R))) xs) = map (fun a => e (smul R a (pbase R))) nonces.
Proof.
  revert nonces. induction xs as [|x xs IH]; intros [|a nonces] E; cbn in E; try discriminate; [reflexivity|]. cbn [zipw map]. f_equal; [|apply IH; lia].
  rewrite !(rsmul_emb R V VOK), (radd_emb R V VOK). f_equal. rewrite <- (smul_mul R OK), <- (smul_add_l R OK). f_equal. ring.
Qed.
Lemma sign_zero msg n xs nonces rows1 rows2 : 0 < n -> n <= length xs -> length nonces = length xs ->
  let I := repeat z n in
  let h := sderive R (msg ++ concat (map (fun a => pbytes R (smul R a (pbase R))) nonces) ++ concat (repeat (rbytes R V z) n)) in
  let c := ring_chain L msg I (rows2 ++ rows1) h in
  Forall (row_ok L I) (rows1 ++ rows2) -> c <> f0 ->
  sig_Verify L (mk (ring_chain L msg I rows2 h)
    (rows1 ++ (map (fun x => e (smul R x (pbase R))) xs, zipw (fun a x => fsub a (fmul c x)) nonces xs) :: rows2) msg) I = Ok true.
Proof.
  intros Hn H1 H2 I h c F N.
  assert (LR : length (zipw (fun a x => fsub a (fmul c x)) nonces xs) = length xs) by (rewrite zipw_len; lia).
  apply closes.
  - intros E. apply (f_equal (@length _)) in E. rewrite app_length in E. cbn in E. lia.
  - unfold I. destruct n; [lia|discriminate].
  - apply Forall_app in F. destruct F as [F1 F2]. apply Forall_app. split; [exact F1|]. constructor; [|exact F2].
    unfold row_ok, I. cbn [fst snd]. rewrite LR, map_length. change (pt L) with (rp R V). rewrite !repeat_length. lia.
  - apply ring_closes. cbn [fst snd]. unfold c in N. rewrite chain_app in N. unfold ring_chal.
    assert (Z : row_points L I (map (fun x => e (smul R x (pbase R))) xs) (zipw (fun a x => fsub a (fmul c x)) nonces xs) c =
      map (fun a => e (smul R a (pbase R))) nonces ++ repeat z n).
    { unfold I. rewrite image_row; [|unfold c; rewrite chain_app; exact N|rewrite map_length; exact H1|rewrite map_length, LR; lia]. rewrite key_row by lia. reflexivity. }
    replace (ring_chain L msg I rows1 (ring_chain L msg I rows2 h)) with c by (unfold c; rewrite chain_app; reflexivity).
    etransitivity; [apply (f_equal (fun l => sderive L (msg ++ concat (map (pbytes L) l)))), Z|]. unfold h. cbn [raw_lib sderive pbytes]. f_equal. f_equal.
    rewrite map_app, concat_app. f_equal.
    + f_equal. rewrite map_map. apply map_ext. intros a. apply (rbytes_emb R V VOK).
    + f_equal. clear. induction n as [|k IH]; [reflexivity|]. cbn. f_equal. exact IH.
Qed.
End Sign.
End Absorb.

(** ** The keys are needed all the same *)
Lemma raw_keys (OK : rist_ok R) (VOK : raw_ok R V) msg J K r r' c c' :
  length K <= length r -> length K <= length r' -> c <> c' ->
  msg ++ concat (map (pbytes L) (row_points L J (map e K) r c)) = msg ++ concat (map (pbytes L) (row_points L J (map e K) r' c')) ->
  forall j k a b, nth_error K j = Some k -> nth_error r j = Some a -> nth_error r' j = Some b ->
  k = smul R (fmul (fsub a b) (finv (fsub c' c))) (pbase R).
Proof.
  intros H1 H2 Hc E j k a b Ek Ea Eb. apply app_inv_head in E.
  set (kp := fun r c => zipw (fun r k => padd R (smul R r (pbase R)) (smul R c k)) r K).
  assert (LKP : forall r c, length K <= length r -> length (kp r c) = length K) by (intros; unfold kp; rewrite zipw_len; lia).
  assert (S : forall r c, exists t, concat (map (pbytes L) (row_points L J (map e K) r c)) = concat (map (pbytes R) (kp r c)) ++ t).
  { intros r0 c0. unfold row_points. rewrite map_app, concat_app. eexists. f_equal. f_equal. unfold kp. rewrite !map_zipw, zipw_map_r. apply zipw_ext_all.
    intros x y. cbn [raw_lib padd smul pbase pbytes]. rewrite !(rsmul_emb R V VOK), (radd_emb R V VOK). apply (rbytes_emb R V VOK). }
  destruct (S r c) as [t T]. destruct (S r' c') as [t' T']. rewrite T, T' in E.
  assert (LC : forall l, length (concat (map (pbytes R) l)) = 32 * length l).
  { induction l as [|p l IH]; [reflexivity|]. cbn [map concat length]. rewrite app_length, IH, (pbytes_len R OK). lia. }
  apply app_inv_len in E; [|rewrite !LC, !LKP by assumption; reflexivity]. destruct E as [E _].
  assert (P : kp r c = kp r' c').
  { assert (G : forall l m, length l = length m -> concat (map (pbytes R) l) = concat (map (pbytes R) m) -> l = m).
    { induction l as [|p l IH]; intros [|q m] D X; try discriminate; [reflexivity|]. cbn [map concat] in X. apply app_inv_len in X; [|rewrite !(pbytes_len R OK); reflexivity].
      destruct X as [X1 X2]. apply (pbytes_inj OK) in X1. cbn in D. rewrite X1, (IH m) by (lia || exact X2). reflexivity. }
    apply G; [|exact E]. rewrite !LKP by assumption. reflexivity. }
  refine (proj1 (extract OK K [] r r' c c' _ H1 H2 Hc _ j k a b Ek Ea Eb)); [cbn; lia|].
  unfold row_points. rewrite combine_nil, !zipw_nil_r, !app_nil_r. exact P.
Qed.
End Raw.
