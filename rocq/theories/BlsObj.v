(** BLS: codecs, failing operations, copies *)
From Coq Require Import String ZArith List Lia Bool Arith.
From Verif Require Import GoModel GoFacts HashModel Base64Model Base64Facts Bn BlsModel SpecBls BlsSessions BlsFacts BlsOps BlsProps BlsHeapFacts BlsSep BlsMore.
Import ListNotations.
Local Open Scope nat_scope.

Section Obj.
Context {B : bn} (OK : bn_ok B).
Local Notation mem := (mem B).
Local Notation G1 k := (mul1 B k (gen1 B)).
Implicit Types m : mem.

Lemma apk_pk_ok m a c : nth_error (mapk m) a = Some c -> apk_pk B (Some a) m = (Ok c, m).
Proof. intros E. apply look_ok. exact E. Qed.
Lemma apk_of_pk m a c P : nth_error (mapk m) a = Some (Some c) -> pk_is m (Some c) P -> apk_is m (Some a) P.
Proof. intros E H. exists a, (Some c). auto. Qed.
Lemma apk_MarshalText_ok m apk P : apk_is m apk P -> apk_MarshalText B apk m = (Ok (encodeToText (marshal2 B P)), m).
Proof. intros [a [c [-> [E H]]]]. unfold apk_MarshalText. rewrite (mbind_ok _ _ _ _ _ (apk_pk_ok _ _ _ E)). apply (pk_MarshalText_ok OK). exact H. Qed.
Lemma apk_round_trip m apk P a c tail : apk_is m apk P -> nth_error (mapk m) a = Some (Some c) -> c < length (mpk m) ->
  (exists m', (do b <- apk_Marshal B apk; apk_Unmarshal B (Some a) (b ++ tail)) m = (Ok tt, m') /\ frame none none (only c) none none m m' /\ apk_is m' (Some a) P) /\
  (exists m', (do t <- apk_MarshalText B apk; apk_UnmarshalText B (Some a) t) m = (Ok tt, m') /\ frame none none (only c) none none m m' /\ apk_is m' (Some a) P) /\
  (exists q m', (do b <- apk_Marshal B apk; UnmarshalApk B (b ++ tail)) m = (Ok q, m') /\ ext m m' /\ apk_is m' q P).
Proof.
  intros H E L. assert (K : forall m', frame none none (only c) none none m m' -> nth_error (mapk m') a = Some (Some c)) by (intros m' F; destruct F as [_ [_ [_ [Ka _]]]]; exact (keep_none _ _ _ _ Ka E)).
  rewrite !(mbind_ok _ _ _ _ _ (apk_Marshal_ok OK m apk P H)). rewrite (mbind_ok _ _ _ _ _ (apk_MarshalText_ok m apk P H)). split; [|split].
  - unfold apk_Unmarshal. rewrite (mbind_ok _ _ _ _ _ (apk_pk_ok _ _ _ E)). destruct (pk_Unmarshal_marshal OK m c P tail L) as [m' [E' [F I]]]. exists m'. split; [exact E'|]. split; [exact F|]. exact (apk_of_pk _ _ _ _ (K _ F) I).
  - unfold apk_UnmarshalText. rewrite (mbind_ok _ _ _ _ _ (apk_pk_ok _ _ _ E)). unfold pk_UnmarshalText. rewrite (mbind_ok _ _ m _ m (lift_ok _ _ m (dec_enc (marshal2 B P)))).
    destruct (pk_Unmarshal_marshal OK m c P [] L) as [m' [E' [F I]]]. rewrite app_nil_r in E'. exists m'. split; [exact E'|]. split; [exact F|]. exact (apk_of_pk _ _ _ _ (K _ F) I).
  - destruct (UnmarshalApk_ok m _ P tail (unm2_marshal B OK P tail)) as [q [m' [d [E' [X [_ I]]]]]]. exists q, m'. split; [exact E'|]. split; [exact X|]. eapply apk_cell_is. exact I.
Qed.
Lemma sig_round_trip m s S a tail : sig_is m s S -> a < length (msig m) ->
  (exists m', (do b <- sig_Marshal B s; sig_Unmarshal B (Some a) (b ++ tail)) m = (Ok tt, m') /\ frame none none none (only a) none m m' /\ sig_is m' (Some a) S) /\
  (exists q m', (do b <- sig_Marshal B s; UnmarshalSignature B (b ++ tail)) m = (Ok q, m') /\ ext m m' /\ sig_is m' q S) /\
  (S <> G1 0 ->
   (exists m', (do b <- sig_Compress B s; sig_Decompress B (Some a) b) m = (Ok tt, m') /\ frame none none none (only a) none m m' /\ sig_is m' (Some a) S) /\
   (exists m', (do b <- sig_Compress B s; sig_Unmarshal B (Some a) b) m = (Ok tt, m') /\ frame none none none (only a) none m m' /\ sig_is m' (Some a) S) /\
   (exists q m', (do b <- sig_Compress B s; UnmarshalSignature B b) m = (Ok q, m') /\ ext m m' /\ sig_is m' q S)).
Proof.
  intros H L. rewrite !(mbind_ok _ _ _ _ _ (sig_Marshal_ok m s S H)), !(mbind_ok _ _ _ _ _ (sig_Compress_ok m s S H)). split; [|split; [|intros N; split; [|split]]].
  - apply sig_Unmarshal_ok; [exact L|apply (sig_dec_marshal OK)].
  - apply UnmarshalSignature_ok, (sig_dec_marshal OK).
  - apply sig_Decompress_ok; [exact L|apply (decompress_compress B OK), N].
  - apply sig_Unmarshal_ok; [exact L|apply (sig_dec_compress OK), N].
  - apply UnmarshalSignature_ok, (sig_dec_compress OK), N.
Qed.
Lemma usig_round_trip m s S a tail : usig_is m s S -> a < length (musig m) ->
  (exists m', (do b <- usig_Marshal B s; usig_Unmarshal B (Some a) (b ++ tail)) m = (Ok tt, m') /\ frame none none none none (only a) m m' /\ usig_is m' (Some a) S) /\
  (S <> G1 0 -> exists m', (do b <- usig_Compress B s; usig_Decompress B (Some a) b) m = (Ok tt, m') /\ frame none none none none (only a) m m' /\ usig_is m' (Some a) S).
Proof.
  intros H L. rewrite !(mbind_ok _ _ _ _ _ (usig_Marshal_ok m s S H)), !(mbind_ok _ _ _ _ _ (usig_Compress_ok m s S H)). split.
  - apply (usig_Unmarshal_ok OK). exact L.
  - intros N. apply usig_Decompress_ok; [exact L|apply (decompress_compress B OK), N].
Qed.
Lemma encodings_inj m :
  (forall pk P pk' P', pk_is m pk P -> pk_is m pk' P' -> fst (pk_Marshal B pk m) = fst (pk_Marshal B pk' m) -> P = P') /\
  (forall s S s' S', sig_is m s S -> sig_is m s' S' -> fst (sig_Marshal B s m) = fst (sig_Marshal B s' m) -> S = S') /\
  (forall s S s' S', sig_is m s S -> sig_is m s' S' -> S <> G1 0 -> S' <> G1 0 -> fst (sig_Compress B s m) = fst (sig_Compress B s' m) -> S = S').
Proof.
  split; [|split].
  - intros pk P pk' P' H H' E. rewrite (pk_Marshal_ok OK _ _ _ H), (pk_Marshal_ok OK _ _ _ H') in E. injection E as E.
    pose proof (unm2_marshal B OK P []) as X. rewrite E, (unm2_marshal B OK) in X. congruence.
  - intros s S s' S' H H' E. rewrite (sig_Marshal_ok _ _ _ H), (sig_Marshal_ok _ _ _ H') in E. injection E as E.
    pose proof (unm1_marshal B OK S []) as X. rewrite E, (unm1_marshal B OK) in X. congruence.
  - intros s S s' S' H H' N N' E. rewrite (sig_Compress_ok _ _ _ H), (sig_Compress_ok _ _ _ H') in E. injection E as E.
    pose proof (decompress_compress B OK S N) as X. rewrite E, (decompress_compress B OK _ N') in X. congruence.
Qed.

(** ** Failing operations *)
Lemma sig_Unmarshal_cases m a b : a < length (msig m) ->
  (sig_Unmarshal B (Some a) b m = (Err err_unm, m) /\ (if length b =? 33 then decompress B b = None else unm1 B b = None)) \/
  (exists m', sig_Unmarshal B (Some a) b m = (Ok tt, m')) /\ (if length b =? 33 then decompress B b <> None else unm1 B b <> None).
Proof.
  intros L. destruct (sig_dec (B := B) b) as [P|] eqn:D.
  - right. destruct (sig_Unmarshal_ok m a b P L D) as [m' [E _]]. split; [eauto|]. unfold sig_dec in D. destruct (length b =? 33); [rewrite D; discriminate|]. destruct (unm1 B b); discriminate.
  - left. split; [apply sig_Unmarshal_err, D|]. unfold sig_dec in D. destruct (length b =? 33); [exact D|]. destruct (unm1 B b) as [[? ?]|]; [discriminate|reflexivity].
Qed.
Lemma pk_destroyed m a b : a < length (mpk m) -> unm2 B b = None ->
  (exists m', pk_Unmarshal B (Some a) b m = (Err err_unm, m') /\ frame none none (only a) none none m m' /\ pk_val m' a (junk2 B b)) /\
  (exists m', pk_UnmarshalText B (Some a) (encodeToText b) m = (Err err_unm, m') /\ frame none none (only a) none none m m' /\ pk_val m' a (junk2 B b)).
Proof.
  intros L U. destruct (pk_Unmarshal_err m a b L U) as [m' [E [F [N1 N2]]]].
  assert (K : exists m', pk_Unmarshal B (Some a) b m = (Err err_unm, m') /\ frame none none (only a) none none m m' /\ pk_val m' a (junk2 B b)).
  { exists m'. split; [exact E|]. split; [exact F|]. exists (length (m2 m)). auto. }
  split; [exact K|]. unfold pk_UnmarshalText. rewrite (mbind_ok _ _ m _ m (lift_ok _ _ m (dec_enc b))). exact K.
Qed.
Lemma apk_destroyed m a c b : nth_error (mapk m) a = Some (Some c) -> c < length (mpk m) -> unm2 B b = None ->
  (exists m', apk_Unmarshal B (Some a) b m = (Err err_unm, m') /\ frame none none (only c) none none m m' /\ apk_val m' (Some a) (junk2 B b)) /\
  (exists m', apk_UnmarshalText B (Some a) (encodeToText b) m = (Err err_unm, m') /\ frame none none (only c) none none m m' /\ apk_val m' (Some a) (junk2 B b)).
Proof.
  intros E L U. unfold apk_Unmarshal, apk_UnmarshalText. rewrite !(mbind_ok _ _ _ _ _ (apk_pk_ok _ _ _ E)).
  assert (K : forall m', frame none none (only c) none none m m' /\ pk_val m' c (junk2 B b) -> frame none none (only c) none none m m' /\ apk_val m' (Some a) (junk2 B b)).
  { intros m' [F [d [N1 N2]]]. split; [exact F|]. exists d. split; [|exact N2]. exists a, c. split; [reflexivity|]. split; [|exact N1]. destruct F as [_ [_ [_ [Ka _]]]]. exact (keep_none _ _ _ _ Ka E). }
  destruct (pk_destroyed m c b L U) as [[x [Ex X]] [y [Ey Y]]]. split; [exists x|exists y]; (split; [assumption|apply K; assumption]).
Qed.

(** ** Histories *)
Lemma keep_impl {A} (X Y : nat -> Prop) (l l' : list A) : (forall i, X i -> Y i) -> keep X l l' -> keep Y l l'.
Proof. intros I [L K]. split; [exact L|]. intros i Hi N. apply K; auto. Qed.
Lemma frame_impl (X1 X2 Xp Xs Xu Y1 Y2 Yp Ys Yu : nat -> Prop) m m' : (forall i, X1 i -> Y1 i) -> (forall i, X2 i -> Y2 i) -> (forall i, Xp i -> Yp i) -> (forall i, Xs i -> Ys i) -> (forall i, Xu i -> Yu i) ->
  frame X1 X2 Xp Xs Xu m m' -> frame Y1 Y2 Yp Ys Yu m m'.
Proof.
  intros I1 I2 I3 I4 I5 [K1 [K2 [K3 [K4 [K5 K6]]]]].
  exact (conj (keep_impl _ _ _ _ I1 K1) (conj (keep_impl _ _ _ _ I2 K2) (conj (keep_impl _ _ _ _ I3 K3) (conj K4 (conj (keep_impl _ _ _ _ I4 K5) (keep_impl _ _ _ _ I5 K6)))))).
Qed.
Lemma after_pure (o : op) m : apk_receiver o = None -> pk_receiver o = None -> sig_receiver o = None -> usig_receiver o = None -> ext m (after o m).
Proof.
  intros Ra Rp Rs Ru. eapply frame_impl; [..|exact (after_frame o m)]; intros i; destruct o; cbn in *; subst; intros X; try contradiction; unfold e_of_sig, gx_of_apk, pk_of_apk, obj in X; decompose [ex and] X; discriminate.
Qed.
Lemma pk_is_val m a P : pk_is m (Some a) P <-> pk_val m a (emb2 B P).
Proof.
  split.
  - intros [a' [b [Ea [H1 H2]]]]. injection Ea as <-. exists b. auto.
  - intros [b [H1 H2]]. exists a, b. auto.
Qed.
Lemma values_persist (l : list op) m : unshared m ->
  (forall apk P, apk_is m apk P -> (forall o, In o l -> apk_receiver o <> apk /\ forall c, pk_of_apk m apk c -> pk_receiver o <> Some c) -> apk_is (history l m) apk P) /\
  (forall a P, pk_is m (Some a) P -> (forall apk, ~ pk_of_apk m apk a) -> (forall o, In o l -> pk_receiver o <> Some a) -> pk_is (history l m) (Some a) P) /\
  (forall s S, sig_is m s S -> (forall o, In o l -> sig_receiver o <> s) -> sig_is (history l m) s S) /\
  (forall u S, usig_is m u S -> (forall o, In o l -> usig_receiver o <> u) -> usig_is (history l m) u S).
Proof.
  intros U. split; [|split; [|split]].
  - intros apk P H N. apply apk_is_val, history_apk; [exact U|exact N|apply apk_is_val, H].
  - intros a P H NE N. apply pk_is_val, history_pk; [exact U|exact NE|exact N|apply pk_is_val, H].
  - intros s S H N. apply history_sig; assumption.
  - intros u S H N. apply history_usig; assumption.
Qed.
Lemma after_void {A} (x : M B A) m a m' : x m = (Ok a, m') -> snd (void x m) = m'.
Proof. intros E. unfold void, mbind. rewrite E. reflexivity. Qed.
Lemma copy_independent m : unshared m ->
  (forall s S, sig_is m s S -> exists c m', sig_Copy B s m = (Ok c, m') /\ ext m m' /\ c <> s /\
     forall l, ((forall o, In o l -> sig_receiver o <> c) -> sig_is (history l m') c S) /\ ((forall o, In o l -> sig_receiver o <> s) -> sig_is (history l m') s S)) /\
  (forall apk P, apk_is m apk P -> exists c m', apk_Copy B apk m = (Ok c, m') /\ ext m m' /\ c <> apk /\
     forall l, (forall o, In o l -> pk_receiver o = None) ->
       ((forall o, In o l -> apk_receiver o <> c) -> apk_is (history l m') c P) /\ ((forall o, In o l -> apk_receiver o <> apk) -> apk_is (history l m') apk P)).
Proof.
  intros U. split.
  - intros s S H. destruct (sig_Copy_ok OK m s S H) as [c [m' [E [X [I Ec]]]]]. exists c, m'. split; [exact E|]. split; [exact X|].
    assert (U' : unshared m') by (rewrite <- (after_void _ _ _ _ E); exact (after_unshared (OSigCopy s) m U)).
    assert (H' : sig_is m' s S) by (destruct (sig_is_cell _ _ _ H) as [b Hb]; eapply sig_cell_is, sig_cell_ext; eassumption). split.
    + intros ->. destruct H as [a [b [Ea [H1 _]]]]. rewrite Ec in Ea. injection Ea as <-. assert (L : length (msig m) < length (msig m)) by (apply nth_error_Some; rewrite H1; discriminate). lia.
    + intros l. split; intros N; apply history_sig; assumption.
  - intros apk P H. destruct (apk_Copy_ok OK m apk P H) as [c [m' [E [X [I Ec]]]]]. exists c, m'. split; [exact E|]. split; [exact X|].
    assert (U' : unshared m') by (rewrite <- (after_void _ _ _ _ E); exact (after_unshared (OApkCopy apk) m U)).
    assert (H' : apk_is m' apk P) by (destruct (apk_is_cell _ _ _ H) as [b Hb]; eapply apk_cell_is, apk_cell_ext; eassumption). split.
    + intros ->. destruct H as [a [b [Ea [H1 _]]]]. rewrite Ec in Ea. injection Ea as <-. assert (L : length (mapk m) < length (mapk m)) by (apply nth_error_Some; rewrite H1; discriminate). lia.
    + intros l NP. split; intros N; (apply apk_is_val, history_apk; [exact U'| |apply apk_is_val; assumption]); intros o IO; (split; [apply N, IO|]); intros d _; rewrite (NP o IO); discriminate.
Qed.
Lemma aggregate_values m :
  (forall s S o T, sig_is m s S -> sig_is m o T -> exists m' b, sig_Aggregate B s o m = (Ok s, m') /\ e_of_sig m s b /\ frame (only b) none none none none m m' /\ sig_is m' s (add1 B S T)) /\
  (forall s S pk P u T, sig_is m s S -> pk_is m pk P -> usig_is m u T -> exists m' b, sig_Add B s pk u m = (Ok tt, m') /\ e_of_sig m s b /\ frame (only b) none none none none m m' /\ sig_is m' s (add1 B S (mul1 B (ht P) T))) /\
  (forall apk A pk P, apk_is m apk A -> pk_is m pk P -> exists m' b, apk_Aggregate B apk pk m = (Ok tt, m') /\ gx_of_apk m apk b /\ frame none (only b) none none none m m' /\ apk_is m' apk (add2 B A (mul2 B (ht P) P))).
Proof.
  assert (EC : forall s b S, sig_cell m s b S -> e_of_sig m s b) by (intros s b S [a [-> [H _]]]; exists a; auto).
  split; [|split].
  - intros s S o T H H'. destruct (sig_is_cell _ _ _ H) as [b Hb]. destruct (sig_Aggregate_ok m s b S o T Hb H') as [m' [E [F C]]]. exists m', b. split; [exact E|]. split; [eapply EC, Hb|]. split; [exact F|eapply sig_cell_is, C].
  - intros s S pk P u T H H' H''. destruct (sig_is_cell _ _ _ H) as [b Hb]. destruct (sig_Add_ok OK m s b S pk P u T Hb H' H'') as [m' [E [F C]]]. exists m', b. split; [exact E|]. split; [eapply EC, Hb|]. split; [exact F|eapply sig_cell_is, C].
  - intros apk A pk P H H'. destruct (apk_is_cell _ _ _ H) as [b Hb]. destruct (apk_Aggregate_ok OK m apk b A pk P Hb H') as [m' [E [F C]]]. exists m', b. split; [exact E|].
    split; [destruct Hb as [a [c [-> [H1 [H2 _]]]]]; exists a, c; auto|]. split; [exact F|eapply apk_cell_is, C].
Qed.
Lemma batch_loop_new l : forall m u S Ts n, usig_is m u S -> Forall2 (usig_is m) l Ts -> n <= length (musig m) -> (forall a, u = Some a -> n <= a) -> forall w m', batch_loop B u l m = (Ok w, m') -> forall a, w = Some a -> n <= a.
Proof.
  induction l as [|v l IH]; intros m u S Ts n Hu F L Hn w m' E; cbn [batch_loop] in E.
  - injection E as <- _. exact Hn.
  - inversion F as [|v' T l0 Ts' HT HF]; subst. destruct (UnsafeAggregate_ok m u v S T Hu HT) as [x [ma [Ea [Xa Ia]]]]. rewrite (mbind_ok _ _ _ _ _ Ea) in E.
    assert (Lm : length (musig m) <= length (musig ma)) by (destruct Xa as [_ [_ [_ [_ [_ [K _]]]]]]; exact K).
    assert (HF' : Forall2 (usig_is ma) l Ts') by (clear - HF Xa; induction HF; constructor; [eapply usig_is_ext; eassumption|assumption]).
    refine (IH ma x _ Ts' n Ia HF' (Nat.le_trans _ _ _ L Lm) _ w m' E). intros a ->.
    destruct (usig_cell _ _ _ Hu) as [p [q [_ [E1 [E2 _]]]]]. destruct (usig_cell _ _ _ HT) as [p' [q' [_ [E3 [E4 _]]]]]. unfold UnsafeAggregate in Ea.
    rewrite (mbind_ok _ _ _ _ _ E1), (mbind_ok _ _ _ _ _ E2), (mbind_ok _ _ _ _ _ E3), (mbind_ok _ _ _ _ _ E4) in Ea. injection Ea as <- _. exact L.
Qed.
Lemma unsafe_batch_objects m u T v V l Ts :
  UnsafeBatch B [u] m = (Ok u, m) /\ UnsafeBatch B [] m = (Ok None, m) /\
  (usig_is m u T -> usig_is m v V -> Forall2 (usig_is m) l Ts ->
   exists w m', UnsafeBatch B (u :: v :: l) m = (Ok w, m') /\ ext m m' /\ usig_is m' w (sum1 (T :: V :: Ts)) /\ forall a, w = Some a -> length (musig m) <= a).
Proof.
  split; [reflexivity|]. split; [reflexivity|]. intros Hu Hv F. assert (F' : Forall2 (usig_is m) (v :: l) (V :: Ts)) by (constructor; assumption).
  destruct (UnsafeBatch_ok OK m u (v :: l) T (V :: Ts) Hu F') as [w [m' [E [X I]]]]. exists w, m'. split; [exact E|]. split; [exact X|]. split; [exact I|].
  cbn [UnsafeBatch batch_loop] in E. destruct (UnsafeAggregate_ok m u v T V Hu Hv) as [x [ma [Ea [Xa Ia]]]]. rewrite (mbind_ok _ _ _ _ _ Ea) in E.
  assert (Lm : length (musig m) <= length (musig ma)) by (destruct Xa as [_ [_ [_ [_ [_ [K _]]]]]]; exact K).
  assert (HF' : Forall2 (usig_is ma) l Ts) by (clear - F Xa; induction F; constructor; [eapply usig_is_ext; eassumption|assumption]).
  refine (batch_loop_new l ma x _ Ts (length (musig m)) Ia HF' Lm _ w m' E). intros a ->.
  destruct (usig_cell _ _ _ Hu) as [p [q [_ [E1 [E2 _]]]]]. destruct (usig_cell _ _ _ Hv) as [p' [q' [_ [E3 [E4 _]]]]]. unfold UnsafeAggregate in Ea.
  rewrite (mbind_ok _ _ _ _ _ E1), (mbind_ok _ _ _ _ _ E2), (mbind_ok _ _ _ _ _ E3), (mbind_ok _ _ _ _ _ E4) in Ea. injection Ea as <- _. apply Nat.le_refl.
Qed.
End Obj.
