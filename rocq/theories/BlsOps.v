(** What the BLS operations do on well-formed objects *)
From Coq Require Import String ZArith List Lia Bool Arith Znumtheory Permutation.
From Verif Require Import GoModel GoFacts HashModel Base64Model Bn BlsModel SpecBls BlsFacts.
Import ListNotations.
Local Open Scope nat_scope.

Section Ops.
Context {B : bn} (OK : bn_ok B).
Local Notation mem := (mem B).
Implicit Types m : mem.

(** objects with the address of their point *)
Definition apk_cell m (p : ptr) (b : nat) (P : g2 B) : Prop :=
  exists a c, p = Some a /\ nth_error (mapk m) a = Some (Some c) /\ nth_error (mpk m) c = Some (Some b) /\ nth_error (m2 m) b = Some (emb2 B P).
Definition sig_cell m (p : ptr) (b : nat) (S : g1 B) : Prop :=
  exists a, p = Some a /\ nth_error (msig m) a = Some (Some b) /\ nth_error (m1 m) b = Some S.
Lemma apk_cell_is m p b P : apk_cell m p b P -> apk_is m p P.
Proof. intros [a [c [H1 [H2 [H3 H4]]]]]. exists a, (Some c). split; [exact H1|]. split; [exact H2|]. exists c, b. auto. Qed.
Lemma apk_is_cell m p P : apk_is m p P -> exists b, apk_cell m p b P.
Proof. intros [a [c [H1 [H2 [c' [b [-> [H3 H4]]]]]]]]. exists b, a, c'. auto. Qed.
Lemma sig_cell_is m p b S : sig_cell m p b S -> sig_is m p S.
Proof. intros [a [H1 [H2 H3]]]. exists a, b. auto. Qed.
Lemma sig_is_cell m p S : sig_is m p S -> exists b, sig_cell m p b S.
Proof. intros [a [b [H1 [H2 H3]]]]. exists b, a. auto. Qed.
Lemma apk_cell_ext m m' p b P : ext m m' -> apk_cell m p b P -> apk_cell m' p b P.
Proof.
  intros E [a [c [H1 [H2 [H3 H4]]]]]. exists a, c. split; [exact H1|]. split; [apply (extapk m); assumption|]. split; [apply (extpk m); assumption|apply (ext2 m); assumption].
Qed.
Lemma sig_cell_ext m m' p b P : ext m m' -> sig_cell m p b P -> sig_cell m' p b P.
Proof. intros E [a [H1 [H2 H3]]]. exists a. split; [exact H1|]. split; [apply (extsig m); assumption|apply (ext1 m); assumption]. Qed.

Lemma ext_fresh2 m0 m m' b : ext m0 m -> length (m2 m0) <= b -> frame none (only b) none none none m m' -> ext m0 m'.
Proof.
  intros [A [C [D [E [F G]]]]] L [A' [C' [D' [E' [F' G']]]]]. fsplit; try (eapply keep_trans; eassumption).
  destruct C as [L1 C], C' as [L2 C']. split; [lia|]. intros i Hi N. rewrite C' by (unfold only; lia). apply C; assumption.
Qed.
Lemma ext_fresh1 m0 m m' b : ext m0 m -> length (m1 m0) <= b -> frame (only b) none none none none m m' -> ext m0 m'.
Proof.
  intros [A [C [D [E [F G]]]]] L [A' [C' [D' [E' [F' G']]]]]. fsplit; try (eapply keep_trans; eassumption).
  destruct A as [L1 A], A' as [L2 A']. split; [lia|]. intros i Hi N. rewrite A' by (unfold only; lia). apply A; assumption.
Qed.

(** ** Keys *)
Lemma pk_gx_ok m a b : nth_error (mpk m) a = Some b -> pk_gx B (Some a) m = (Ok b, m).
Proof. apply look_ok. Qed.
Lemma get2_ok m a v : nth_error (m2 m) a = Some v -> get2 B (Some a) m = (Ok v, m).
Proof. apply look_ok. Qed.
Lemma get1_ok m a v : nth_error (m1 m) a = Some v -> get1 B (Some a) m = (Ok v, m).
Proof. apply look_ok. Qed.

Lemma pk_Marshal_ok m pk P : pk_is m pk P -> pk_Marshal B pk m = (Ok (marshal2 B P), m).
Proof.
  intros [a [b [-> [H2 H3]]]]. unfold pk_Marshal. rewrite (mbind_ok _ _ _ _ _ (pk_gx_ok _ _ _ H2)), (mbind_ok _ _ _ _ _ (get2_ok _ _ _ H3)).
  unfold lift. rewrite (vmarshal2_emb B OK). reflexivity.
Qed.
Lemma h1_ok m pk P : pk_is m pk P -> h1 B pk m = (Ok (ht P), m).
Proof. intros H. unfold h1. rewrite (mbind_ok _ _ _ _ _ (pk_Marshal_ok _ _ _ H)). reflexivity. Qed.
Lemma pkt_ok m pk P : pk_is m pk P -> exists m', pkt B pk m = (Ok (Some (length (m2 m))), m') /\ ext m m' /\
  nth_error (m2 m') (length (m2 m)) = Some (emb2 B (mul2 B (ht P) P)) /\ m1 m' = m1 m /\ mpk m' = mpk m /\ mapk m' = mapk m.
Proof.
  intros H. destruct (new2_ext (emb2 B (mul2 B (ht P) P)) m) as [m' [E [X [N [Q1 [Q2 [Q3 _]]]]]]]. exists m'. split; [|auto].
  unfold pkt. rewrite (mbind_ok _ _ _ _ _ (h1_ok _ _ _ H)). destruct H as [a [b [-> [H2 H3]]]].
  rewrite (mbind_ok _ _ _ _ _ (pk_gx_ok _ _ _ H2)), (mbind_ok _ _ _ _ _ (get2_ok _ _ _ H3)).
  rewrite (mbind_ok _ _ m _ m (lift_ok _ _ m (vmul2_emb B OK _ _))). exact E.
Qed.
Lemma GenKeyPair_ok rd m x : rand_k B rd = Ok x -> exists pk m', GenKeyPair B rd m = (Ok (pk, x), m') /\ ext m m' /\ pk_is m' pk (mul2 B x (gen2 B)).
Proof.
  intros E. unfold GenKeyPair. rewrite (mbind_ok _ _ m _ m (lift_ok _ _ m E)).
  destruct (new2_ext (emb2 B (mul2 B x (gen2 B))) m) as [ma [Ea [Xa [Na _]]]]. rewrite (mbind_ok _ _ _ _ _ Ea).
  destruct (newpk_ext (Some (length (m2 m))) ma) as [mb [Eb [Xb [Nb _]]]]. rewrite (mbind_ok _ _ _ _ _ Eb).
  eexists _, mb. split; [reflexivity|]. split; [eapply ext_trans; eassumption|]. eexists _, _. split; [reflexivity|]. split; [exact Nb|]. apply (ext2 ma); assumption.
Qed.
Lemma GenKeyPair_err rd m e : rand_k B rd = Err e -> GenKeyPair B rd m = (Err e, m).
Proof. intros E. unfold GenKeyPair. apply mbind_err. unfold lift. rewrite E. reflexivity. Qed.

Lemma NewApk_ok m pk P : pk_is m pk P -> exists apk m' b, NewApk B pk m = (Ok apk, m') /\ ext m m' /\ length (m2 m) <= b /\ apk_cell m' apk b (mul2 B (ht P) P).
Proof.
  intros H. destruct (pkt_ok _ _ _ H) as [ma [Ea [Xa [Na [_ [Qa _]]]]]].
  assert (D : NewApk B pk m = (do gx <- pkt B pk; do p <- newpk B gx; newapk B p) m) by (destruct H as [a [b [-> _]]]; reflexivity).
  rewrite D. rewrite (mbind_ok _ _ _ _ _ Ea).
  destruct (newpk_ext (Some (length (m2 m))) ma) as [mb [Eb [Xb [Nb _]]]]. rewrite (mbind_ok _ _ _ _ _ Eb).
  destruct (newapk_ext (Some (length (mpk ma))) mb) as [mc [Ec [Xc [Nc _]]]]. rewrite Ec.
  eexists _, mc, _. split; [reflexivity|]. split; [eapply ext_trans; [eassumption|]; eapply ext_trans; eassumption|]. split; [apply Nat.le_refl|].
  eexists _, _. split; [reflexivity|]. split; [exact Nc|]. split; [apply (extpk mb); assumption|].
  apply (ext2 mb); [exact Xc|]. apply (ext2 ma); [exact Xb|exact Na].
Qed.
Lemma apk_gx_ok m apk b P : apk_cell m apk b P -> apk_gx B apk m = (Ok (Some b), m).
Proof.
  intros [a [c [-> [H2 [H3 _]]]]]. unfold apk_gx. rewrite (mbind_ok _ _ _ _ _ (look_ok (fun m => mapk m) a _ m H2 : apk_pk B (Some a) m = _)).
  apply pk_gx_ok. exact H3.
Qed.
Lemma apk_Aggregate_ok m apk b A pk P : apk_cell m apk b A -> pk_is m pk P -> exists m', apk_Aggregate B apk pk m = (Ok tt, m') /\
  frame none (only b) none none none m m' /\ apk_cell m' apk b (add2 B A (mul2 B (ht P) P)).
Proof.
  intros HA HP. destruct (pkt_ok _ _ _ HP) as [ma [Ea [Xa [Na _]]]]. unfold apk_Aggregate. rewrite (mbind_ok _ _ _ _ _ Ea).
  pose proof (apk_cell_ext _ _ _ _ _ Xa HA) as HA'. rewrite (mbind_ok _ _ _ _ _ (apk_gx_ok _ _ _ _ HA')).
  destruct HA' as [a [c [-> [H2 [H3 H4]]]]]. rewrite (mbind_ok _ _ _ _ _ (get2_ok _ _ _ H4)), (mbind_ok _ _ _ _ _ (get2_ok _ _ _ Na)).
  rewrite (mbind_ok _ _ ma _ ma (lift_ok _ _ ma (vadd2_emb B OK _ _))). eexists. split; [reflexivity|]. split.
  - eapply frame_trans; [apply ext_frame; exact Xa|]. fsplit; try apply keep_refl. apply keep_upd.
  - exists a, c. split; [reflexivity|]. split; [exact H2|]. split; [exact H3|]. cbn [m2]. apply upd_same. apply nth_error_Some. rewrite H4. discriminate.
Qed.
Lemma pk_Unmarshal_ok m a data P r : a < length (mpk m) -> unm2 B data = Some (P, r) ->
  exists m', pk_Unmarshal B (Some a) data m = (Ok tt, m') /\ frame none none (only a) none none m m' /\ pk_is m' (Some a) P /\ nth_error (mpk m') a = Some (Some (length (m2 m))).
Proof.
  intros La U. unfold pk_Unmarshal. destruct (nth_error (mpk m) a) as [x|] eqn:Ex; [|apply nth_error_None in Ex; lia].
  rewrite (mbind_ok _ _ _ _ _ (pk_gx_ok _ _ _ Ex)). destruct (new2_ext (unmarshalled2 B data) m) as [ma [Ea [Xa [Na [_ [Qa _]]]]]]. rewrite (mbind_ok _ _ _ _ _ Ea).
  unfold mbind at 1. cbn [setpk]. rewrite U. eexists. split; [reflexivity|].
  assert (LL : a < length (mpk ma)) by (rewrite Qa; exact La). split.
  - eapply frame_trans; [apply ext_frame; exact Xa|]. fsplit; try apply keep_refl. apply keep_upd.
  - split; [|apply upd_same; exact LL]. exists a, (length (m2 m)). split; [reflexivity|]. cbn [mpk m2]. split; [apply upd_same; exact LL|]. rewrite Na. unfold unmarshalled2. rewrite U. reflexivity.
Qed.
Lemma pk_Unmarshal_err m a data : a < length (mpk m) -> unm2 B data = None ->
  exists m', pk_Unmarshal B (Some a) data m = (Err err_unm, m') /\ frame none none (only a) none none m m' /\
    nth_error (mpk m') a = Some (Some (length (m2 m))) /\ nth_error (m2 m') (length (m2 m)) = Some (junk2 B data).
Proof.
  intros La U. unfold pk_Unmarshal. destruct (nth_error (mpk m) a) as [x|] eqn:Ex; [|apply nth_error_None in Ex; lia].
  rewrite (mbind_ok _ _ _ _ _ (pk_gx_ok _ _ _ Ex)). destruct (new2_ext (unmarshalled2 B data) m) as [ma [Ea [Xa [Na [_ [Qa _]]]]]]. rewrite (mbind_ok _ _ _ _ _ Ea).
  unfold mbind at 1. cbn [setpk]. rewrite U. eexists. split; [reflexivity|].
  assert (LL : a < length (mpk ma)) by (rewrite Qa; exact La). split.
  - eapply frame_trans; [apply ext_frame; exact Xa|]. fsplit; try apply keep_refl. apply keep_upd.
  - cbn [mpk m2]. split; [apply upd_same; exact LL|]. rewrite Na. unfold unmarshalled2. rewrite U. reflexivity.
Qed.
Lemma ext_freshpk m0 m m' a : ext m0 m -> length (mpk m0) <= a -> frame none none (only a) none none m m' -> ext m0 m'.
Proof.
  intros [A [C [D [E [F G]]]]] L [A' [C' [D' [E' [F' G']]]]]. fsplit; try (eapply keep_trans; eassumption).
  destruct D as [L1 D], D' as [L2 D']. split; [lia|]. intros i Hi N. rewrite D' by (unfold only; lia). apply D; assumption.
Qed.
Lemma ext_freshsig m0 m m' a : ext m0 m -> length (msig m0) <= a -> frame none none none (only a) none m m' -> ext m0 m'.
Proof.
  intros [A [C [D [E [F G]]]]] L [A' [C' [D' [E' [F' G']]]]]. fsplit; try (eapply keep_trans; eassumption).
  destruct F as [L1 F], F' as [L2 F']. split; [lia|]. intros i Hi N. rewrite F' by (unfold only; lia). apply F; assumption.
Qed.
Lemma UnmarshalPk_ok m b P r : unm2 B b = Some (P, r) -> exists pk m', UnmarshalPk B b m = (Ok pk, m') /\ ext m m' /\ pk_is m' pk P.
Proof.
  intros U. unfold UnmarshalPk. destruct (newpk_ext None m) as [ma [Ea [Xa [Na _]]]]. rewrite (mbind_ok _ _ _ _ _ Ea).
  destruct (pk_Unmarshal_ok ma (length (mpk m)) b P r) as [mb [Eb [Fb [Pb _]]]]; [apply nth_error_Some; rewrite Na; discriminate|exact U|].
  rewrite (mbind_ok _ _ _ _ _ Eb). eexists _, mb. split; [reflexivity|]. split; [|exact Pb]. eapply ext_freshpk; [exact Xa| |exact Fb]. lia.
Qed.
Lemma UnmarshalPk_err m b : unm2 B b = None -> exists m', UnmarshalPk B b m = (Err err_unm, m') /\ ext m m'.
Proof.
  intros U. unfold UnmarshalPk. destruct (newpk_ext None m) as [ma [Ea [Xa [Na _]]]]. rewrite (mbind_ok _ _ _ _ _ Ea).
  destruct (pk_Unmarshal_err ma (length (mpk m)) b) as [mb [Eb [Fb _]]]; [apply nth_error_Some; rewrite Na; discriminate|exact U|].
  rewrite (mbind_err _ _ _ _ _ Eb). exists mb. split; [reflexivity|]. eapply ext_freshpk; [exact Xa| |exact Fb]. lia.
Qed.
Lemma UnmarshalApk_ok m b P r : unm2 B b = Some (P, r) -> exists apk m' c, UnmarshalApk B b m = (Ok apk, m') /\ ext m m' /\ length (m2 m) <= c /\ apk_cell m' apk c P.
Proof.
  intros U. unfold UnmarshalApk. destruct (newpk_ext None m) as [ma [Ea [Xa [Na [_ [Q2 _]]]]]]. rewrite (mbind_ok _ _ _ _ _ Ea).
  destruct (newapk_ext (Some (length (mpk m))) ma) as [mb [Eb [Xb [Nb [_ [Q2' _]]]]]]. rewrite (mbind_ok _ _ _ _ _ Eb).
  destruct (pk_Unmarshal_ok mb (length (mpk m)) b P r) as [mc [Ec [Fc [Pc Nc]]]]; [apply nth_error_Some; rewrite (extpk _ _ _ _ Xb Na); discriminate|exact U|].
  assert (E : apk_Unmarshal B (Some (length (mapk ma))) b mb = (Ok tt, mc)).
  { unfold apk_Unmarshal. rewrite (mbind_ok _ _ _ _ _ (look_ok (fun m => mapk m) _ _ mb Nb : apk_pk B _ mb = _)). exact Ec. }
  rewrite (mbind_ok _ _ _ _ _ E). eexists _, mc, (length (m2 mb)). split; [reflexivity|].
  split; [eapply ext_freshpk; [eapply ext_trans; eassumption| |exact Fc]; lia|]. split; [rewrite Q2', Q2; lia|].
  destruct Pc as [a [c [Ha [Hb Hc]]]]. injection Ha as <-. rewrite Nc in Hb. injection Hb as <-.
  exists (length (mapk ma)), (length (mpk m)). split; [reflexivity|]. split; [|split; [exact Nc|exact Hc]]. destruct Fc as [_ [_ [_ [K _]]]]. apply (keep_none _ _ _ _ K Nb).
Qed.
Lemma apk_AggregateBytes_ok m apk b A data P r : apk_cell m apk b A -> unm2 B data = Some (P, r) -> exists m', apk_AggregateBytes B apk data m = (Ok tt, m') /\
  frame none (only b) none none none m m' /\ apk_cell m' apk b (add2 B A (mul2 B (ht P) P)).
Proof.
  intros HA U. unfold apk_AggregateBytes. destruct (newpk_ext None m) as [ma [Ea [Xa [Na _]]]]. rewrite (mbind_ok _ _ _ _ _ Ea).
  destruct (pk_Unmarshal_ok ma (length (mpk m)) data P r) as [mb [Eb [Fb [Pb _]]]]; [apply nth_error_Some; rewrite Na; discriminate|exact U|].
  rewrite (mbind_ok _ _ _ _ _ Eb). assert (Xb : ext m mb) by (eapply ext_freshpk; [exact Xa| |exact Fb]; lia).
  destruct (apk_Aggregate_ok mb apk b A (Some (length (mpk m))) P) as [mc [Ec [Fc Cc]]]; [apply (apk_cell_ext m); assumption|exact Pb|].
  exists mc. split; [exact Ec|]. split; [|exact Cc]. eapply frame_trans; [apply ext_frame; exact Xb|exact Fc].
Qed.

(** ** Signatures *)
Lemma UnsafeSign_ok m x msg : exists u m', UnsafeSign B x msg m = (Ok u, m') /\ ext m m' /\ usig_is m' u (usig_of x msg).
Proof.
  unfold UnsafeSign. rewrite (mbind_ok _ _ m _ m (lift_ok (h0 B msg) _ m eq_refl)).
  destruct (new1_ext (usig_of x msg) m) as [ma [Ea [Xa [Na _]]]]. unfold usig_of in Ea at 1. rewrite (mbind_ok _ _ _ _ _ Ea).
  destruct (newusig_ext (Some (length (m1 m))) ma) as [mb [Eb [Xb [Nb _]]]]. rewrite Eb.
  eexists _, mb. split; [reflexivity|]. split; [eapply ext_trans; eassumption|]. eexists _, _. split; [reflexivity|]. split; [exact Nb|]. apply (ext1 ma); assumption.
Qed.
Lemma apkSigWrap_ok m pk P u S : pk_is m pk P -> usig_is m u S -> exists s m' b, apkSigWrap B pk u m = (Ok s, m') /\ ext m m' /\ length (m1 m) <= b /\ sig_cell m' s b (mul1 B (ht P) S).
Proof.
  intros HP [a [b [-> [H2 H3]]]]. unfold apkSigWrap. rewrite (mbind_ok _ _ _ _ _ (h1_ok _ _ _ HP)).
  rewrite (mbind_ok _ _ _ _ _ (look_ok (fun m => musig m) a _ m H2 : usig_e B (Some a) m = _)), (mbind_ok _ _ _ _ _ (get1_ok _ _ _ H3)).
  destruct (new1_ext (mul1 B (ht P) S) m) as [ma [Ea [Xa [Na _]]]]. rewrite (mbind_ok _ _ _ _ _ Ea).
  destruct (newsig_ext (Some (length (m1 m))) ma) as [mb [Eb [Xb [Nb _]]]]. rewrite Eb.
  eexists _, mb, _. split; [reflexivity|]. split; [eapply ext_trans; eassumption|]. split; [apply Nat.le_refl|]. eexists. split; [reflexivity|]. split; [exact Nb|]. apply (ext1 ma); assumption.
Qed.
Lemma ext_len1 m m' : ext m m' -> length (m1 m) <= length (m1 m').
Proof. intros [[L _] _]. exact L. Qed.
Lemma ext_len2 m m' : ext m m' -> length (m2 m) <= length (m2 m').
Proof. intros [_ [[L _] _]]. exact L. Qed.
Lemma Sign_ok m x pk P msg : pk_is m pk P -> exists s m' b, Sign B x pk msg m = (Ok s, m') /\ ext m m' /\ length (m1 m) <= b /\ sig_cell m' s b (sig_of x P msg).
Proof.
  intros HP. destruct (UnsafeSign_ok m x msg) as [u [ma [Ea [Xa Ua]]]]. unfold Sign. rewrite (mbind_ok _ _ _ _ _ Ea).
  destruct (apkSigWrap_ok ma pk P u _ (pk_is_ext _ _ _ _ Xa HP) Ua) as [s [mb [b [Eb [Xb [Lb Cb]]]]]]. exists s, mb, b. split; [exact Eb|].
  split; [eapply ext_trans; eassumption|]. split; [pose proof (ext_len1 _ _ Xa); lia|exact Cb].
Qed.
Lemma sig_e_ok m s b S : sig_cell m s b S -> sig_e B s m = (Ok (Some b), m).
Proof. intros [a [-> [H2 H3]]]. apply look_ok. exact H2. Qed.
Lemma sig_get m s b S : sig_cell m s b S -> get1 B (Some b) m = (Ok S, m).
Proof. intros [a [-> [H2 H3]]]. apply get1_ok. exact H3. Qed.
Lemma sig_Aggregate_ok m s b S o T : sig_cell m s b S -> sig_is m o T -> exists m', sig_Aggregate B s o m = (Ok s, m') /\
  frame (only b) none none none none m m' /\ sig_cell m' s b (add1 B S T).
Proof.
  intros HS HT. apply sig_is_cell in HT. destruct HT as [c HT]. unfold sig_Aggregate.
  rewrite (mbind_ok _ _ _ _ _ (sig_e_ok _ _ _ _ HS)), (mbind_ok _ _ _ _ _ (sig_get _ _ _ _ HS)), (mbind_ok _ _ _ _ _ (sig_e_ok _ _ _ _ HT)), (mbind_ok _ _ _ _ _ (sig_get _ _ _ _ HT)).
  unfold mbind at 1. cbn [set1]. eexists. split; [reflexivity|]. split; [fsplit; try apply keep_refl; apply keep_upd|].
  destruct HS as [a [-> [H2 H3]]]. exists a. split; [reflexivity|]. split; [exact H2|]. cbn [m1]. apply upd_same. apply nth_error_Some. rewrite H3. discriminate.
Qed.
Lemma sig_Add_ok m s b S pk P u T : sig_cell m s b S -> pk_is m pk P -> usig_is m u T -> exists m', sig_Add B s pk u m = (Ok tt, m') /\
  frame (only b) none none none none m m' /\ sig_cell m' s b (add1 B S (mul1 B (ht P) T)).
Proof.
  intros HS HP HT. destruct (apkSigWrap_ok m pk P u T HP HT) as [o [ma [c [Ea [Xa [_ Ca]]]]]]. unfold sig_Add. rewrite (mbind_ok _ _ _ _ _ Ea).
  destruct (sig_Aggregate_ok ma s b S o _ (sig_cell_ext _ _ _ _ _ Xa HS) (sig_cell_is _ _ _ _ Ca)) as [mb [Eb [Fb Cb]]]. rewrite (mbind_ok _ _ _ _ _ Eb).
  exists mb. split; [reflexivity|]. split; [|exact Cb]. eapply frame_trans; [apply ext_frame; exact Xa|exact Fb].
Qed.
(** what Unmarshal makes of a byte string *)
Definition sig_dec (data : bytes) : option (g1 B) :=
  if Nat.eqb (length data) 33 then decompress B data else match unm1 B data with Some (P, _) => Some P | None => None end.
Lemma sig_Unmarshal_ok m a data P : a < length (msig m) -> sig_dec data = Some P -> exists m', sig_Unmarshal B (Some a) data m = (Ok tt, m') /\
  frame none none none (only a) none m m' /\ sig_is m' (Some a) P.
Proof.
  intros La D. destruct (nth_error (msig m) a) as [x|] eqn:Ex; [|apply nth_error_None in Ex; lia].
  destruct (new1_ext P m) as [ma [Ea [Xa [Na [_ [_ [_ [Qa _]]]]]]]].
  assert (G : exists m', (do _ <- sig_e B (Some a); do e <- new1 B P; setsig B (Some a) e) m = (Ok tt, m') /\ frame none none none (only a) none m m' /\ sig_is m' (Some a) P).
  { rewrite (mbind_ok _ _ _ _ _ (look_ok (fun m => msig m) a _ m Ex : sig_e B (Some a) m = _)), (mbind_ok _ _ _ _ _ Ea). eexists. split; [reflexivity|]. split.
    - eapply frame_trans; [apply ext_frame; exact Xa|]. fsplit; try apply keep_refl. apply keep_upd.
    - exists a, (length (m1 m)). split; [reflexivity|]. cbn [msig m1]. split; [apply upd_same; rewrite Qa; exact La|exact Na]. }
  unfold sig_Unmarshal, sig_dec in *. destruct (Nat.eqb (length data) 33).
  - rewrite D. exact G.
  - destruct (unm1 B data) as [[P' r]|]; [|discriminate]. injection D as ->. exact G.
Qed.
Lemma sig_Unmarshal_err m s data : sig_dec data = None -> sig_Unmarshal B s data m = (Err err_unm, m).
Proof.
  intros D. unfold sig_Unmarshal, sig_dec in *. destruct (Nat.eqb (length data) 33).
  - rewrite D. reflexivity.
  - destruct (unm1 B data) as [[P' r]|]; [discriminate|reflexivity].
Qed.
Lemma sig_dec_marshal P r : sig_dec (marshal1 B P ++ r) = Some P.
Proof.
  unfold sig_dec. destruct (Nat.eqb_spec (length (marshal1 B P ++ r)) 33) as [E|E]; [rewrite app_length, (marshal1_len B OK) in E; lia|].
  rewrite (unm1_marshal B OK). reflexivity.
Qed.
Lemma sig_dec_compress P : P <> mul1 B 0 (gen1 B) -> sig_dec (compress B P) = Some P.
Proof. intros N. unfold sig_dec. rewrite (compress_len B OK). cbn. apply (decompress_compress B OK). exact N. Qed.
Lemma sig_AggregateBytes_ok m s b S data T : sig_cell m s b S -> sig_dec data = Some T -> exists m', sig_AggregateBytes B s data m = (Ok tt, m') /\
  frame (only b) none none none none m m' /\ sig_cell m' s b (add1 B S T).
Proof.
  intros HS D. unfold sig_AggregateBytes. destruct (newsig_ext None m) as [ma [Ea [Xa [Na _]]]]. rewrite (mbind_ok _ _ _ _ _ Ea).
  destruct (sig_Unmarshal_ok ma (length (msig m)) data T) as [mb [Eb [Fb Sb]]]; [apply nth_error_Some; rewrite Na; discriminate|exact D|]. rewrite (mbind_ok _ _ _ _ _ Eb).
  assert (Xb : ext m mb) by (eapply ext_freshsig; [exact Xa| |exact Fb]; lia).
  destruct (sig_Aggregate_ok mb s b S _ T (sig_cell_ext _ _ _ _ _ Xb HS) Sb) as [mc [Ec [Fc Cc]]]. rewrite (mbind_ok _ _ _ _ _ Ec).
  exists mc. split; [reflexivity|]. split; [|exact Cc]. eapply frame_trans; [apply ext_frame; exact Xb|exact Fc].
Qed.
Lemma sig_AggregateBytes_err m s data : sig_dec data = None -> exists m', sig_AggregateBytes B s data m = (Err err_unm, m') /\ ext m m'.
Proof.
  intros D. unfold sig_AggregateBytes. destruct (newsig_ext None m) as [ma [Ea [Xa [Na _]]]]. rewrite (mbind_ok _ _ _ _ _ Ea).
  rewrite (mbind_err _ _ _ _ _ (sig_Unmarshal_err ma _ data D)). exists ma. split; [reflexivity|exact Xa].
Qed.
Lemma sig_Marshal_ok m s S : sig_is m s S -> sig_Marshal B s m = (Ok (marshal1 B S), m).
Proof.
  intros H. apply sig_is_cell in H. destruct H as [b H]. unfold sig_Marshal. rewrite (mbind_ok _ _ _ _ _ (sig_e_ok _ _ _ _ H)), (mbind_ok _ _ _ _ _ (sig_get _ _ _ _ H)). reflexivity.
Qed.
Lemma sig_Compress_ok m s S : sig_is m s S -> sig_Compress B s m = (Ok (compress B S), m).
Proof.
  intros H. apply sig_is_cell in H. destruct H as [b H]. unfold sig_Compress. rewrite (mbind_ok _ _ _ _ _ (sig_e_ok _ _ _ _ H)), (mbind_ok _ _ _ _ _ (sig_get _ _ _ _ H)). reflexivity.
Qed.

(** ** Verification *)
Lemma bytes_eqb_iff a c : bytes_eqb a c = true <-> a = c.
Proof. destruct (bytes_eqb_spec a c) as [E|E]; split; intros X; try assumption; try reflexivity; try discriminate. contradiction. Qed.
Lemma verify_spec m b P msg e S : nth_error (m2 m) b = Some (emb2 B P) -> nth_error (m1 m) e = Some S ->
  exists r, verify B (Some b) msg (Some e) m = (r, m) /\ (r = Ok tt /\ valid P msg S \/ r = Err "bls apk: Invalid Signature."%string /\ ~ valid P msg S).
Proof.
  intros H2 H1. unfold verify. rewrite (mbind_ok _ _ m _ m (lift_ok (h0 B msg) _ m eq_refl)).
  rewrite (mbind_ok _ _ _ _ _ (get2_ok _ _ _ H2)). rewrite (mbind_ok _ _ m _ m (lift_ok _ _ m (vpair_emb B OK _ _))).
  rewrite (mbind_ok _ _ _ _ _ (get1_ok _ _ _ H1)). rewrite (mbind_ok _ _ m _ m (lift_ok _ _ m (g2Base_gen OK))). cbv zeta.
  rewrite !(marshalt_len B OK). cbn [Nat.ltb Nat.leb orb]. fold (hm (B := B) msg).
  destruct (bytes_eqb _ _) eqn:E.
  - exists (Ok tt). split; [reflexivity|]. left. split; [reflexivity|]. apply bytes_eqb_iff in E. apply (marshalt_inj B OK) in E. exact E.
  - eexists. split; [reflexivity|]. right. split; [reflexivity|]. intros V. unfold valid in V; cbn [h_sum hashFn] in E; fold (hm (B := B) msg) in E; rewrite V in E.
    rewrite (proj2 (bytes_eqb_iff _ _) eq_refl) in E. discriminate.
Qed.
Lemma Verify_spec m apk P msg s S : apk_is m apk P -> sig_is m s S ->
  exists r, Verify B apk msg s m = (r, m) /\ (r = Ok tt /\ valid P msg S \/ r = Err "bls apk: Invalid Signature."%string /\ ~ valid P msg S).
Proof.
  intros HA HS. apply apk_is_cell in HA. destruct HA as [b HA]. apply sig_is_cell in HS. destruct HS as [e HS].
  unfold Verify. rewrite (mbind_ok _ _ _ _ _ (apk_gx_ok _ _ _ _ HA)), (mbind_ok _ _ _ _ _ (sig_e_ok _ _ _ _ HS)).
  destruct HA as [? [? [_ [_ [_ H2]]]]]. destruct HS as [? [_ [_ H1]]]. apply verify_spec; assumption.
Qed.
Lemma VerifyUnsafe_spec m pk P msg u S : pk_is m pk P -> usig_is m u S ->
  exists r, VerifyUnsafe B pk msg u m = (r, m) /\ (r = Ok tt /\ valid P msg S \/ r = Err "bls apk: Invalid Signature."%string /\ ~ valid P msg S).
Proof.
  intros [a [b [-> [H2 H3]]]] [c [e [-> [H4 H5]]]]. unfold VerifyUnsafe. rewrite (mbind_ok _ _ _ _ _ (pk_gx_ok _ _ _ H2)).
  rewrite (mbind_ok _ _ _ _ _ (look_ok (fun m => musig m) c _ m H4 : usig_e B (Some c) m = _)). apply verify_spec; assumption.
Qed.
Lemma Verify_ok_iff m apk P msg s S : apk_is m apk P -> sig_is m s S -> (Verify B apk msg s m = (Ok tt, m) <-> valid P msg S).
Proof.
  intros HA HS. destruct (Verify_spec m apk P msg s S HA HS) as [r [E [[-> V]|[-> V]]]]; rewrite E; split; intros X; try discriminate; auto. contradiction.
Qed.
Lemma VerifyUnsafe_ok_iff m pk P msg u S : pk_is m pk P -> usig_is m u S -> (VerifyUnsafe B pk msg u m = (Ok tt, m) <-> valid P msg S).
Proof.
  intros HA HS. destruct (VerifyUnsafe_spec m pk P msg u S HA HS) as [r [E [[-> V]|[-> V]]]]; rewrite E; split; intros X; try discriminate; auto. contradiction.
Qed.

(** ** Batches *)
Lemma distinct_loop_iff msgs : forall seen, distinct_loop B seen msgs = true <-> NoDup (map (sha3 B) msgs) /\ (forall x, In x msgs -> ~ In (sha3 B x) seen).
Proof.
  induction msgs as [|x msgs IH]; intros seen; cbn [distinct_loop map].
  - split; [intros _; split; [constructor|intros x []]|reflexivity].
  - destruct (existsb (bytes_eqb (sha3 B x)) seen) eqn:E.
    + split; [discriminate|]. intros [_ H]. exfalso. apply (H x (or_introl eq_refl)). apply existsb_exists in E. destruct E as [y [I E]]. apply bytes_eqb_iff in E. rewrite E. exact I.
    + assert (NI : ~ In (sha3 B x) seen).
      { intros I. assert (existsb (bytes_eqb (sha3 B x)) seen = true); [|congruence]. apply existsb_exists. exists (sha3 B x). split; [exact I|]. apply bytes_eqb_iff. reflexivity. }
      rewrite IH. split.
      * intros [N H]. split.
        -- constructor; [|exact N]. intros I. apply in_map_iff in I. destruct I as [y [Ey Iy]]. apply (H y Iy). left. symmetry. exact Ey.
        -- intros y [<-|Iy]; [exact NI|]. intros I. apply (H y Iy). right. exact I.
      * intros [N H]. apply NoDup_cons_iff in N. destruct N as [N1 N2]. split; [exact N2|]. intros y Iy [Ey|I].
        -- apply N1. rewrite Ey. apply in_map. exact Iy.
        -- apply (H y (or_intror Iy)). exact I.
Qed.
Lemma distinct_iff msgs : distinct B msgs = true <-> NoDup (map (sha3 B) msgs).
Proof. unfold distinct. rewrite distinct_loop_iff. split; [intros [H _]; exact H|]. intros H. split; [exact H|]. intros x _ []. Qed.

Lemma batch_valid_unique msgs : forall Ps S S', batch_valid (B := B) Ps msgs S -> batch_valid Ps msgs S' -> S = S'.
Proof.
  induction msgs as [|x msgs IH]; intros [|P Ps] S S'; cbn; try (intros -> ->; reflexivity); try (intros []; fail).
  intros [T [U [V [W ->]]]] [T' [U' [V' [W' ->]]]]. rewrite (valid_unique OK P x T T' V V'), (IH Ps U U' W W'). reflexivity.
Qed.
Lemma batch_valid_more msgs : forall Ps extra S, length msgs <= length Ps -> batch_valid (B := B) (Ps ++ extra) msgs S <-> batch_valid Ps msgs S.
Proof.
  induction msgs as [|x msgs IH]; intros [|P Ps] extra S L; cbn in *; try lia; try reflexivity.
  - destruct extra; reflexivity.
  - split; intros [T [U [V [W ->]]]]; exists T, U; (split; [exact V|]); (split; [|reflexivity]); apply (IH Ps extra U); (lia || assumption).
Qed.
Local Notation G1 k := (mul1 B k (gen1 B)).
Lemma batch_step m msgs pkeys lo msg b P acc : nth_error msgs lo = Some msg -> nth_error pkeys lo = Some (Some b) -> nth_error (m2 m) b = Some (emb2 B P) ->
  exists s, valid P msg (G1 s) /\ batch_body B pkeys msgs lo acc m = (Ok (Some match acc with None => expt B s | Some a => addt B a (expt B s) end), m).
Proof.
  intros H1 H2 H3. destruct (cyc2 B OK P) as [p ->]. exists (hm (B := B) msg * p)%Z. split.
  - apply (valid_exp OK). rewrite Z.sub_diag. apply Z.divide_0_r.
  - unfold batch_body. rewrite (mbind_ok _ _ m _ m (lift_ok (idx msgs lo) msg m ltac:(unfold idx; rewrite H1; reflexivity))).
    rewrite (mbind_ok _ _ m _ m (lift_ok (h0 B msg) _ m eq_refl)).
    rewrite (mbind_ok _ _ m _ m (lift_ok (idx pkeys lo) (Some b) m ltac:(unfold idx; rewrite H2; reflexivity))).
    rewrite (mbind_ok _ _ _ _ _ (get2_ok _ _ _ H3)). rewrite (mbind_ok _ _ m _ m (lift_ok _ _ m (vpair_emb B OK _ _))).
    rewrite (pair_gen B OK). destruct acc; reflexivity.
Qed.
Lemma skipn_step {A} (l : list A) : forall lo y t, skipn lo l = y :: t -> nth_error l lo = Some y /\ skipn (S lo) l = t.
Proof.
  induction l as [|a l IH]; intros [|lo] y t E; try discriminate; [|exact (IH lo y t E)]. injection E as <- <-. split; reflexivity.
Qed.
Lemma batch_loop_some m msgs : forall ms lo pkeys ks Ps e, skipn lo msgs = ms -> skipn lo pkeys = ks -> Forall2 (g2_is m) ks Ps -> length ms <= length ks ->
  exists s, batch_valid Ps ms (G1 s) /\ mfor lo (length ms) (batch_body B pkeys msgs) (Some (expt B e)) m = (Ok (Some (expt B (e + s)%Z)), m).
Proof.
  induction ms as [|x ms IH]; intros lo pkeys ks Ps e Em Ek F L.
  - exists 0%Z. split; [destruct Ps; reflexivity|]. rewrite Z.add_0_r. reflexivity.
  - destruct F as [|k P ks Ps [b [-> Hb]] F]; [cbn in L; lia|]. cbn in L.
    destruct (skipn_step _ _ _ _ Em) as [N1 Em'], (skipn_step _ _ _ _ Ek) as [N2 Ek'].
    destruct (batch_step m msgs pkeys lo x b P (Some (expt B e)) N1 N2 Hb) as [s [V E]]. cbn [length mfor]. rewrite (mbind_ok _ _ _ _ _ E). rewrite (addt_exp B OK).
    destruct (IH (S lo) pkeys ks Ps (e + s)%Z Em' Ek' F ltac:(lia)) as [s' [V' E']].
    exists (s + s')%Z. split; [|rewrite E', Z.add_assoc; reflexivity]. exists (G1 s), (G1 s'). split; [exact V|]. split; [exact V'|]. symmetry. apply (add1_gen B OK).
Qed.
Lemma batch_loop_none m msgs pkeys Ps : Forall2 (g2_is m) pkeys Ps -> msgs <> [] -> length msgs <= length pkeys ->
  exists s, batch_valid Ps msgs (G1 s) /\ mfor 0 (length msgs) (batch_body B pkeys msgs) None m = (Ok (Some (expt B s)), m).
Proof.
  intros F N L. destruct msgs as [|x ms]; [contradiction|]. destruct F as [|k P ks Ps [b [-> Hb]] F]; [cbn in L; lia|]. cbn in L.
  destruct (batch_step m (x :: ms) (Some b :: ks) 0 x b P None eq_refl eq_refl Hb) as [s [V E]]. cbn [length mfor]. rewrite (mbind_ok _ _ _ _ _ E).
  destruct (batch_loop_some m (x :: ms) ms 1 (Some b :: ks) ks Ps s eq_refl eq_refl F ltac:(lia)) as [s' [V' E']].
  exists (s + s')%Z. split; [|exact E']. exists (G1 s), (G1 s'). split; [exact V|]. split; [exact V'|]. symmetry. apply (add1_gen B OK).
Qed.
Lemma pair_gen2 S s : pair B S (gen2 B) = expt B s <-> S = G1 s.
Proof.
  destruct (cyc1 B OK S) as [a ->]. rewrite <- (mul2_1 B OK) at 1. rewrite (pair_gen B OK), (expt_eq B OK), Z.mul_1_r, (mul1_eq B OK). reflexivity.
Qed.
Lemma verifyBatch_spec m pkeys Ps msgs e S allow : Forall2 (g2_is m) pkeys Ps -> nth_error (m1 m) e = Some S -> msgs <> [] -> length msgs <= length pkeys ->
  (allow = true \/ NoDup (map (sha3 B) msgs)) ->
  exists r, verifyBatch B pkeys msgs (Some e) allow m = (r, m) /\ (r = Ok tt /\ batch_valid Ps msgs S \/ r = Err "bls: Invalid Signature"%string /\ ~ batch_valid Ps msgs S).
Proof.
  intros F HS N L D. unfold verifyBatch.
  assert (C : negb allow && negb (distinct B msgs) = false) by (destruct D as [->|D]; [reflexivity|]; apply distinct_iff in D; rewrite D; apply andb_false_r).
  rewrite C. destruct (batch_loop_none m msgs pkeys Ps F N L) as [s [V E]]. rewrite (mbind_ok _ _ _ _ _ E).
  rewrite (mbind_ok _ _ _ _ _ (get1_ok _ _ _ HS)). rewrite (mbind_ok _ _ m _ m (lift_ok _ _ m (g2Base_gen OK))).
  destruct (bytes_eqb _ _) eqn:Q.
  - eexists. split; [reflexivity|]. left. split; [reflexivity|]. apply bytes_eqb_iff, (marshalt_inj B OK), pair_gen2 in Q. rewrite Q. exact V.
  - eexists. split; [reflexivity|]. right. split; [reflexivity|]. intros V'. rewrite (batch_valid_unique _ _ _ _ V' V) in Q.
    rewrite (proj2 (pair_gen2 _ _) eq_refl), (proj2 (bytes_eqb_iff _ _) eq_refl) in Q. discriminate.
Qed.
Lemma verifyBatch_dup m pkeys msgs e : ~ NoDup (map (sha3 B) msgs) -> verifyBatch B pkeys msgs e false m = (Err "bls: Messages are not distinct"%string, m).
Proof.
  intros N. unfold verifyBatch. destruct (distinct B msgs) eqn:E; [apply distinct_iff in E; contradiction|]. reflexivity.
Qed.
Lemma verifyBatch_empty m pkeys e S allow : nth_error (m1 m) e = Some S -> verifyBatch B pkeys [] (Some e) allow m = (Panic, m).
Proof.
  intros HS. unfold verifyBatch. cbn [distinct distinct_loop negb length]. rewrite andb_false_r. cbn [mfor].
  rewrite (mbind_ok (ret None) _ m None m eq_refl). rewrite (mbind_ok _ _ _ _ _ (get1_ok _ _ _ HS)). rewrite (mbind_ok _ _ m _ m (lift_ok _ _ m (g2Base_gen OK))). reflexivity.
Qed.
Lemma mfor_app {S} (body : nat -> S -> M B S) a : forall lo c st m, mfor lo (a + c) body st m = (do st <- mfor lo a body st; mfor (lo + a) c body st) m.
Proof.
  induction a as [|a IH]; intros lo c st m; [rewrite Nat.add_0_r; reflexivity|]. cbn [mfor Nat.add]. unfold mbind at 1 2 3. destruct (body lo st m) as [[x|e|] m']; try reflexivity.
  rewrite IH. rewrite Nat.add_succ_r. reflexivity.
Qed.
Lemma verifyBatch_few m pkeys Ps msgs e allow : Forall2 (g2_is m) pkeys Ps -> length pkeys < length msgs -> (allow = true \/ NoDup (map (sha3 B) msgs)) ->
  verifyBatch B pkeys msgs e allow m = (Panic, m).
Proof.
  intros F L D. unfold verifyBatch.
  assert (C : negb allow && negb (distinct B msgs) = false) by (destruct D as [->|D]; [reflexivity|]; apply distinct_iff in D; rewrite D; apply andb_false_r).
  rewrite C. apply mbind_panic. replace (length msgs) with (length pkeys + (1 + (length msgs - length pkeys - 1))) by lia. rewrite mfor_app.
  assert (G : exists o, mfor 0 (length pkeys) (batch_body B pkeys msgs) None m = (Ok o, m)).
  { destruct (Nat.eq_dec (length pkeys) 0) as [E|E]; [rewrite E; eexists; reflexivity|].
    assert (EX : forall cnt lo acc, lo + cnt <= length pkeys -> exists o, mfor lo cnt (batch_body B pkeys msgs) acc m = (Ok o, m)).
    { induction cnt as [|cnt IH]; intros lo acc Hc; [eexists; reflexivity|]. cbn [mfor].
      destruct (nth_error msgs lo) as [x|] eqn:E1; [|apply nth_error_None in E1; lia].
      destruct (nth_error pkeys lo) as [k|] eqn:E2; [|apply nth_error_None in E2; lia].
      assert (GK : exists b P, k = Some b /\ nth_error (m2 m) b = Some (emb2 B P)).
      { clear - F E2. revert lo E2. induction F as [|k0 P0 ks Ps [b [-> Hb]] F IH]; intros [|lo] E2; try discriminate; [injection E2 as <-; exists b, P0; auto|exact (IH lo E2)]. }
      destruct GK as [b [P [-> Hb]]]. destruct (batch_step m msgs pkeys lo x b P acc E1 E2 Hb) as [s [_ ES]]. rewrite (mbind_ok _ _ _ _ _ ES). apply IH. lia. }
    apply EX. lia. }
  destruct G as [o G]. rewrite (mbind_ok _ _ _ _ _ G). cbn [Nat.add mfor]. apply mbind_panic. unfold batch_body.
  destruct (nth_error msgs (length pkeys)) as [x|] eqn:E1; [|apply nth_error_None in E1; lia].
  rewrite (mbind_ok _ _ m _ m (lift_ok (idx msgs _) x m ltac:(unfold idx; rewrite E1; reflexivity))).
  rewrite (mbind_ok _ _ m _ m (lift_ok (h0 B x) _ m eq_refl)). apply mbind_panic. unfold lift. rewrite (proj2 (idx_Panic pkeys _)) by lia. reflexivity.
Qed.
Lemma mmap_pk m pks Ps : Forall2 (pk_is m) pks Ps -> exists ks, mmap (pk_gx B) pks m = (Ok ks, m) /\ Forall2 (g2_is m) ks Ps /\ length ks = length pks.
Proof.
  induction 1 as [|p P pks Ps [a [b [-> [H2 H3]]]] F IH]; [exists []; split; [reflexivity|]; split; [constructor|reflexivity]|].
  destruct IH as [ks [E [F' L]]]. exists (Some b :: ks). cbn [mmap]. rewrite (mbind_ok _ _ _ _ _ (pk_gx_ok _ _ _ H2)), (mbind_ok _ _ _ _ _ E).
  split; [reflexivity|]. split; [|cbn; lia]. constructor; [|exact F']. exists b. auto.
Qed.
Lemma mmap_apk m apks Ps : Forall2 (apk_is m) apks Ps -> exists ks, mmap (apk_gx B) apks m = (Ok ks, m) /\ Forall2 (g2_is m) ks Ps /\ length ks = length apks.
Proof.
  induction 1 as [|p P pks Ps H F IH]; [exists []; split; [reflexivity|]; split; [constructor|reflexivity]|].
  apply apk_is_cell in H. destruct H as [b H]. destruct IH as [ks [E [F' L]]]. exists (Some b :: ks). cbn [mmap]. rewrite (mbind_ok _ _ _ _ _ (apk_gx_ok _ _ _ _ H)), (mbind_ok _ _ _ _ _ E).
  split; [reflexivity|]. split; [|cbn; lia]. constructor; [|exact F']. exists b. split; [reflexivity|]. destruct H as [? [? [_ [_ [_ H]]]]]. exact H.
Qed.
End Ops.
