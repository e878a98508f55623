(** Facts about forgers of bLSAG signatures *)
From Coq Require Import String ZArith List Lia Bool Arith.
From Coq Require Import Init.Byte.
From Verif Require Import GoModel GoFacts Fld Rist RistFacts SpecVector SpecMlsag SpecRewind SpecFork ForkFacts ForkAttack
  MlsagModel MlsagFacts MlsagProps BlsagModel SpecBlsag BlsagFacts SpecBlFork.
Import ListNotations.
Local Open Scope nat_scope.

Lemma answer_omap {A B} (g : A -> B) h : forall o, answer h (omap g o) = g (answer h o).
Proof. induction o as [a|q k IH]; [reflexivity|]. cbn. apply IH. Qed.
Lemma asked_omap {A B} (g : A -> B) h : forall o, asked h (omap g o) = asked h o.
Proof. induction o as [a|q k IH]; [reflexivity|]. cbn. f_equal. apply IH. Qed.

Section Facts.
Context {R : rist} (OK : rist_ok R) {V : raw R} (VOK : raw_ok R V).
Local Notation emb := (emb R V).

Lemma raw_hash_ok h : raw_ok (with_hash R h) (raw_hash R V h).
Proof. destruct VOK as [A B C D]. constructor; [exact A|exact B|exact C|exact D]. Qed.
Lemma ones_length {A} (l : list A) : length (ones l) = length l. Proof. apply map_length. Qed.
Lemma combine_ones {A B} : forall (l : list A) (r : list B), combine (ones l) (ones r) = map (fun x => ([fst x], [snd x])) (combine l r).
Proof. induction l as [|x l IH]; intros [|y r]; [reflexivity..|]. cbn. f_equal. apply IH. Qed.
Lemma combine_firstn' {A B} : forall (l : list A) (r : list B), combine l (firstn (length l) r) = combine l r.
Proof. induction l as [|x l IH]; intros [|y r]; [reflexivity..|]. cbn. f_equal. apply IH. Qed.
Lemma combine_emb {B} : forall (l : list (pt R)) (r : list B), combine (map emb l) r = map (fun x => (emb (fst x), snd x)) (combine l r).
Proof. induction l as [|x l IH]; intros [|y r]; [reflexivity..|]. cbn. f_equal. apply IH. Qed.

Lemma chal_ring m J P s c : bl_chal R V m (emb J) (emb P, s) c = ring_chal R m [J] [P] [s] c.
Proof.
  unfold bl_chal, ring_chal. cbn [row_points zipw combine map concat app fst snd].
  rewrite (rbytes_emb R V VOK), !(rsmul_emb R V VOK), !(radd_emb R V VOK), !(rbytes_emb R V VOK), app_nil_r. reflexivity.
Qed.
Lemma chain_ring m J l : forall c, bl_chain R V m (emb J) (map (fun x => (emb (fst x), snd x)) l) c =
  ring_chain R m [J] (map (fun x => ([fst x], [snd x])) l) c.
Proof. induction l as [|x l IH]; intros c; [reflexivity|]. cbn [map]. unfold bl_chain, ring_chain in *. cbn [fold_left fst snd]. rewrite chal_ring. apply IH. Qed.

(** the MLSAG signature with one column *)
Definition column (m : bytes) (c : F) (ss : list F) (ring : list (pt R)) (d : bool) : sig R :=
  mkSig R c (ones (firstn (length ring) ss)) (map (mkPK R d) (ones ring)) m.
Lemma column_rows m c ss ring d : length ring <= length ss ->
  combine (map (pk_keys R) (sg_pub R (column m c ss ring d))) (sg_r R (column m c ss ring d)) = map (fun x => ([fst x], [snd x])) (combine ring ss).
Proof.
  intros L. unfold column. cbn [sg_pub sg_r]. rewrite map_map. cbn [pk_keys]. rewrite map_id, combine_ones, combine_firstn'. reflexivity.
Qed.
Lemma verify_pub m J c ss ring : ring <> [] -> length ring <= length ss ->
  Verify R V m (mkRS R V (emb J) c ss (map emb ring)) = Ok (feqb (ring_chain R m [J] (map (fun x => ([fst x], [snd x])) (combine ring ss)) c) c).
Proof.
  intros N L. rewrite Verify_ok; cbn [rs_pub rs_S rs_C rs_I]; rewrite ?map_length; [|destruct ring; [contradiction|cbn; lia]|exact L].
  rewrite combine_emb, chain_ring. reflexivity.
Qed.
Lemma verify_true m J c ss ring : Verify R V m (mkRS R V (emb J) c ss (map emb ring)) = Ok true -> ring <> [] /\ length ring <= length ss.
Proof.
  intros E. destruct ring as [|P ring]; [rewrite Verify_empty in E by reflexivity; discriminate|]. split; [discriminate|].
  destruct (Nat.le_gt_cases (length (P :: ring)) (length ss)) as [L|L]; [exact L|].
  rewrite Verify_short in E by (cbn [rs_S rs_pub]; rewrite map_length; exact L). discriminate.
Qed.
Lemma verify_column m J c ss ring d : 2 <= length ring -> length ring <= length ss ->
  sig_Verify R (column m c ss ring d) [J] = Ok true <-> Verify R V m (mkRS R V (emb J) c ss (map emb ring)) = Ok true.
Proof.
  intros N L. assert (LR : length (firstn (length ring) ss) = length ring) by (rewrite firstn_length; lia).
  rewrite verify_pub by (first [exact L|destruct ring; [cbn in N; lia|discriminate]]).
  rewrite Verify_two.
  - unfold sig_rows. rewrite column_rows by exact L. cbn [column sg_msg sg_c]. destruct (feqb _ _); split; congruence.
  - unfold column. cbn [sg_pub]. destruct ring; [cbn in N; lia|discriminate].
  - unfold column. cbn [sg_r]. rewrite ones_length, LR. exact N.
  - discriminate.
  - unfold column. cbn [sg_pub sg_r]. rewrite map_length, !ones_length, LR. apply le_n.
  - unfold sig_rows. rewrite column_rows by exact L. apply Forall_forall. intros r I. apply in_map_iff in I. destruct I as (x & <- & _). split; apply le_n.
Qed.
Lemma verify_column_one m J c s ss P d : Verify R V m (mkRS R V (emb J) c (s :: ss) [emb P]) = Ok true ->
  sig_Verify R (column m c (s :: ss) [P] d) [J] = Ok true.
Proof.
  intros E. change [emb P] with (map emb [P]) in E. rewrite verify_pub in E by (first [discriminate|cbn; lia]).
  injection E as E. apply feqb_eq in E. cbn in E.
  pose proof (Verify_one (R := R) c [s] (mkPK R d [P]) m [J] ltac:(discriminate) ltac:(cbn; lia)) as X. cbv zeta in X.
  change (column m c (s :: ss) [P] d) with (mkSig R c [[s]] [mkPK R d [P]] m). etransitivity; [exact X|]. cbn [pk_keys].
  rewrite !E, feqb_refl. reflexivity.
Qed.
Lemma verify_column_any m J c ss ring d : Verify R V m (mkRS R V (emb J) c ss (map emb ring)) = Ok true -> sig_Verify R (column m c ss ring d) [J] = Ok true.
Proof.
  intros E. destruct (verify_true _ _ _ _ _ E) as [N L]. destruct ring as [|P [|P' ring]]; [contradiction| |].
  - destruct ss as [|s ss]; [cbn in L; lia|]. apply verify_column_one. exact E.
  - apply verify_column; [cbn; lia|exact L|exact E].
Qed.
End Facts.

Section Forks.
Context {R : rist} (OK : rist_ok R) {V : raw R} (VOK : raw_ok R V).
Lemma accepted_rows ring h f : bl_accepted R V ring h f -> accepted R (ones ring) 1 h (as_rows R (length ring) f).
Proof.
  intros A. pose proof (verify_true (R := with_hash R h) (V := raw_hash R V h) _ _ _ _ _ A) as [N L]. split; [|split].
  - exact (verify_column_any (R := with_hash R h) (V := raw_hash R V h) (raw_hash_ok VOK h) _ _ _ _ _ true A).
  - cbn [as_rows fg_r]. rewrite !ones_length, firstn_length. apply Nat.min_l. exact L.
  - reflexivity.
Qed.
Lemma queries_rows ring h A : queries R (ones ring) h (omap (as_rows R (length ring)) A) = bl_queries R ring h A.
Proof. unfold queries, bl_queries. rewrite asked_omap, answer_omap. reflexivity. Qed.
Lemma places_rows ring h A : places R (ones ring) h (omap (as_rows R (length ring)) A) = bl_places R ring h A.
Proof. unfold places, bl_places. rewrite queries_rows, answer_omap. reflexivity. Qed.

Lemma passed_at ring h f i r : bl_accepted R V ring h f -> nth_error (passed R (ones ring) (as_rows R (length ring) f)) i = Some r ->
  exists P s, r = ([P], [s]) /\ nth_error ring (i mod length ring) = Some P /\ nth_error (bf_s R f) (i mod length ring) = Some s.
Proof.
  intros A E. pose proof (verify_true (R := with_hash R h) (V := raw_hash R V h) _ _ _ _ _ A) as [N L].
  assert (D : forall j, j < length ring -> nth_error (combine (ones ring) (ones (firstn (length ring) (bf_s R f)))) j = Some r ->
    exists P s, r = ([P], [s]) /\ nth_error ring j = Some P /\ nth_error (bf_s R f) j = Some s).
  { intros j Hj X. rewrite combine_ones, combine_firstn' in X. apply nth_error_map_inv in X. destruct X as ([P s] & X & <-). exists P, s.
    split; [reflexivity|]. cbn [fst snd] in *. clear -X. revert j X. generalize (bf_s R f). induction ring as [|a l IH]; intros [|b t] [|j] X; try discriminate X.
    - injection X as <- <-. split; reflexivity.
    - apply (IH t j X). }
  unfold passed in E. cbn [as_rows fg_r] in E. destruct ring as [|P [|P' ring]]; [contradiction| |].
  - destruct (bf_s R f) as [|s ss]; [cbn in L; lia|]. cbn in E.
    assert (Z : i mod length [P] = 0) by (apply Nat.mod_1_r). rewrite Z.
    exists P, s. destruct i as [|[|i]]; [injection E as <-|injection E as <-|destruct i; discriminate E]; repeat split; reflexivity.
  - assert (Hi : i < length (P :: P' :: ring)).
    { assert (X : i < length (combine (ones (P :: P' :: ring)) (ones (firstn (length (P :: P' :: ring)) (bf_s R f))))).
      { destruct (bf_s R f) as [|s [|s' ss]]; [cbn in L; lia..|]. apply nth_error_Some. cbn in E |- *. rewrite E. discriminate. }
      rewrite combine_length, ones_length in X. lia. }
    rewrite Nat.mod_small by exact Hi. apply D; [exact Hi|].
    destruct (bf_s R f) as [|s [|s' ss]]; [cbn in L; lia..|]. exact E.
Qed.

Lemma bl_many ring k A (hs : list (bytes -> F)) :
  (forall h, In h hs -> bl_accepted R V ring h (answer h A) /\ list_max (bl_places R ring h A) = k /\
     forall s, In s (bl_hashed R ring h (answer h A)) -> h s <> f0) ->
  (forall h h' q, In h hs -> In h' hs -> In q (firstn k (bl_queries R ring h A)) -> h q = h' q) ->
  NoDup (map (fun h => h (nth k (bl_queries R ring h A) [])) hs) ->
  Nat.max 2 (length ring) * k * (k + 1) + 1 < length hs ->
  exists h h', In h hs /\ In h' hs /\
   let f := answer h A in let f' := answer h' A in
   ((exists i P s s' c c', nth_error ring (i mod length ring) = Some P /\
      nth_error (bf_s R f) (i mod length ring) = Some s /\ nth_error (bf_s R f') (i mod length ring) = Some s' /\
      nth_error (bl_entering R ring h f) i = Some c /\ nth_error (bl_entering R ring h' f') i = Some c' /\ c <> c' /\
      P = smul R (secret s s' c c') (pbase R) /\ bf_image R f = key_image R (secret s s' c c') /\ bf_image R f' = bf_image R f) \/
    (exists q, Forall (eq q) (bl_hashed R ring h f) /\ Forall (eq q) (bl_hashed R ring h' f') /\ h q <> h' q /\
      forall i P s s', nth_error ring i = Some P -> nth_error (bf_s R f) i = Some s -> nth_error (bf_s R f') i = Some s' ->
        P = smul R (secret s s' (h q) (h' q)) (pbase R))).
Proof.
  intros H1 H2 H3 H4. set (A' := omap (as_rows R (length ring)) A).
  destruct (fork_many OK (ones ring) 1 k A' hs) as (h & h' & I & I' & X).
  - intros h I. destruct (H1 h I) as (X & Y & Z). unfold A'. rewrite answer_omap, places_rows. split; [apply accepted_rows; exact X|]. split; [exact Y|exact Z].
  - intros h h' q I I' J. apply (H2 h h' q I I'). unfold A' in J. rewrite queries_rows in J. exact J.
  - unfold A'. erewrite map_ext; [exact H3|]. intros h. cbv beta. rewrite queries_rows. reflexivity.
  - rewrite ones_length. exact H4.
  - exists h, h'. split; [exact I|]. split; [exact I'|]. unfold A' in X. cbv zeta in X. rewrite !answer_omap in X. intros f f'.
    destruct (H1 h I) as (B & _ & _). destruct (H1 h' I') as (B' & _ & _). fold f in X, B. fold f' in X, B'.
    destruct X as [(i & r & r' & c & c' & X1 & X2 & X3 & X4 & (K1 & K2 & _ & _ & K5) & X6 & (_ & X7))|(q & X1 & X2 & X3)].
    + left. destruct (passed_at ring h f i r B X1) as (P & s & -> & P1 & P2). destruct (passed_at ring h' f' i r' B' X2) as (P' & s' & -> & P3 & P4).
      exists i, P, s, s', c, c'. cbn [as_rows fg_images] in X6. injection X6 as X6. repeat (split; [assumption|]).
      split; [exact (K5 0 P s s' eq_refl eq_refl eq_refl)|]. split; [exact (X7 0 (bf_image R f) s s' eq_refl eq_refl eq_refl)|]. symmetry. exact X6.
    + right. exists q. split; [exact X1|]. split; [exact X2|].
      assert (W : forall i P s s', nth_error ring i = Some P -> nth_error (bf_s R f) i = Some s -> nth_error (bf_s R f') i = Some s' ->
        h q <> h' q /\ P = smul R (secret s s' (h q) (h' q)) (pbase R)).
      { intros i P s s' E1 E2 E3.
        assert (Hi : i < length ring) by (apply nth_error_Some; congruence).
        assert (G : forall g (u : bl_forgery R), bl_accepted R V ring g u -> forall t, nth_error (bf_s R u) i = Some t ->
           nth_error (passed R (ones ring) (as_rows R (length ring) u)) i = Some ([P], [t])).
        { intros g u Bu t Et. pose proof (passed_length (ones ring) 1 g _ (accepted_rows ring g u Bu)) as PL. rewrite ones_length in PL.
          destruct (nth_error (passed R (ones ring) (as_rows R (length ring) u)) i) as [r|] eqn:ER; [|apply nth_error_None in ER; lia].
          destruct (passed_at ring g u i r Bu ER) as (P' & t' & -> & Q1 & Q2). rewrite Nat.mod_small in Q1, Q2 by exact Hi. congruence. }
        destruct (X3 i _ _ (G h f B s E2) (G h' f' B' s' E3)) as (_ & K2 & _ & _ & K5). split; [exact K2|].
        exact (K5 0 P s s' eq_refl eq_refl eq_refl). }
      split; [|intros i P s s' E1 E2 E3; exact (proj2 (W i P s s' E1 E2 E3))].
      pose proof (verify_true (R := with_hash R h) (V := raw_hash R V h) _ _ _ _ _ B) as [N L].
      pose proof (verify_true (R := with_hash R h') (V := raw_hash R V h') _ _ _ _ _ B') as [_ L'].
      destruct ring as [|P ring]; [contradiction|]. destruct (bf_s R f) as [|s ss] eqn:E1; [cbn in L; lia|]. destruct (bf_s R f') as [|s' ss'] eqn:E2; [cbn in L'; lia|].
      exact (proj1 (W 0 P s s' eq_refl eq_refl eq_refl)).
Qed.

Lemma bl_degenerate ring h f q i i' P P' s s' : bl_accepted R V ring h f -> Forall (eq q) (bl_hashed R ring h f) -> h q <> f0 ->
  nth_error ring i = Some P -> nth_error ring i' = Some P' -> nth_error (bf_s R f) i = Some s -> nth_error (bf_s R f) i' = Some s' -> P <> P' ->
  smul R s (pderive R (pbytes R P)) = smul R s' (pderive R (pbytes R P')) /\ ~ (s = f0 /\ s' = f0).
Proof.
  intros B D NZ E1 E2 E3 E4 NE.
  assert (G : forall i P t, nth_error ring i = Some P -> nth_error (bf_s R f) i = Some t ->
     nth_error (passed R (ones ring) (as_rows R (length ring) f)) i = Some ([P], [t])).
  { intros j Q t X Y. assert (Hj : j < length ring) by (apply nth_error_Some; congruence).
    pose proof (passed_length (ones ring) 1 h _ (accepted_rows ring h f B)) as PL. rewrite ones_length in PL.
    destruct (nth_error (passed R (ones ring) (as_rows R (length ring) f)) j) as [r|] eqn:ER; [|apply nth_error_None in ER; lia].
    destruct (passed_at ring h f j r B ER) as (P1 & t' & -> & Q1 & Q2). rewrite Nat.mod_small in Q1, Q2 by exact Hj. congruence. }
  exact (degenerate OK (ones ring) 1 h (as_rows R (length ring) f) q i i' _ _ 0 P P' s s' (bf_image R f) (accepted_rows ring h f B) D NZ (G i P s E1 E3) (G i' P' s' E2 E4)
    eq_refl eq_refl eq_refl eq_refl eq_refl NE).
Qed.

(** one key repeated: the image is computed last *)
Lemma bl_copies m a x T n : let c := sderive R (m ++ pbytes R (smul R a (pbase R)) ++ pbytes R T) in let s := fsub a (fmul c x) in let K := smul R x (pbase R) in
  c <> f0 -> 0 < n ->
  Verify R V m (mkRS R V (emb R V (smul R (finv c) (psub R T (smul R s (pderive R (pbytes R K)))))) c (repeat s n) (map (emb R V) (repeat K n))) = Ok true.
Proof.
  intros c s K NZ Hn. rewrite (verify_pub VOK); [|destruct n; [lia|discriminate]|rewrite !repeat_length; apply le_n]. f_equal. apply feqb_eq.
  assert (ST : ring_chal R m [smul R (finv c) (psub R T (smul R s (pderive R (pbytes R K))))] [K] [s] c = c).
  { unfold ring_chal. cbn [row_points zipw combine map concat app fst snd]. rewrite app_nil_r, (scale_back OK) by exact NZ.
    replace (padd R (smul R s (pbase R)) (smul R c K)) with (smul R a (pbase R)) by (unfold K, s; rewrite <- (smul_mul R OK), <- (smul_add_l R OK); f_equal; ring). reflexivity. }
  clear Hn. induction n as [|n IH]; [reflexivity|]. cbn [repeat combine map]. unfold ring_chain in *. cbn [fold_left fst snd]. rewrite ST. exact IH.
Qed.
Lemma copy_image c a x T : let s := fsub a (fmul c x) in let K := smul R x (pbase R) in c <> f0 ->
  smul R (finv c) (psub R T (smul R s (pderive R (pbytes R K)))) = key_image R x <-> T = smul R a (pderive R (pbytes R K)).
Proof.
  intros s K N. unfold key_image. fold K. set (H := pderive R (pbytes R K)).
  assert (X : smul R c (smul R (finv c) (psub R T (smul R s H))) = psub R T (smul R s H)).
  { rewrite <- (smul_mul R OK). replace (fmul c (finv c)) with f1 by (rewrite <- (finv_l c N); ring). apply (smul_1 R OK). }
  split; intros E.
  - rewrite E in X. replace (smul R a H) with (padd R (smul R c (smul R x H)) (smul R s H)); [rewrite X; lin OK|]. unfold s. lin OK.
  - apply (smul_inj_r OK c); [exact N|]. rewrite X, E. unfold s. lin OK.
Qed.
End Forks.
