(** BLS: aggregation, batches, forgeries, codecs *)
From Coq Require Import String ZArith List Lia Bool Arith Znumtheory Permutation.
From Verif Require Import GoModel GoFacts HashModel Base64Model Bn BlsModel SpecBls BlsFacts BlsOps.
Import ListNotations.
Local Open Scope nat_scope.

Section Props.
Context {B : bn} (OK : bn_ok B).
Local Notation mem := (mem B).
Local Notation G1 k := (mul1 B k (gen1 B)).
Local Notation G2 k := (mul2 B k (gen2 B)).
Local Notation valid := (valid (B := B)).
Local Notation hm := (hm (B := B)).
Implicit Types m : mem.

Lemma Forall2_pk_ext m m' pks Ps : ext m m' -> Forall2 (pk_is m) pks Ps -> Forall2 (pk_is m') pks Ps.
Proof. intros X F. induction F; constructor; [eapply pk_is_ext; eassumption|assumption]. Qed.

(** ** Aggregated keys *)
Lemma add_keys_ok m apk b : length (m2 m) <= b -> forall l Ps m' A, ext m m' -> apk_cell m' apk b A -> Forall2 (pk_is m) (map fst l) Ps ->
  exists m'', add_keys apk l m' = (Ok tt, m'') /\ ext m m'' /\ apk_cell m'' apk b (add2 B A (apk_of Ps)).
Proof.
  intros L. induction l as [|[pk v] l IH]; intros Ps m' A X C F; cbn [map fst] in F; inversion F; subst.
  - exists m'. split; [reflexivity|]. split; [exact X|]. cbn. rewrite (add2_0 OK). exact C.
  - cbn [add_keys]. pose proof (pk_is_ext _ _ _ _ X H1) as HP.
    assert (E : exists ma, (if v then do b <- pk_Marshal B pk; apk_AggregateBytes B apk b else apk_Aggregate B apk pk) m' = (Ok tt, ma) /\ frame none (only b) none none none m' ma /\ apk_cell ma apk b (add2 B A (mul2 B (ht y) y))).
    { destruct v; [|apply (apk_Aggregate_ok OK); assumption]. rewrite (mbind_ok _ _ _ _ _ (pk_Marshal_ok OK _ _ _ HP)).
      apply (apk_AggregateBytes_ok OK) with (r := []); [exact C|]. rewrite <- (app_nil_r (marshal2 B y)). apply (unm2_marshal B OK). }
    destruct E as [ma [Ea [Fa Ca]]]. rewrite (mbind_ok _ _ _ _ _ Ea).
    destruct (IH l' ma _ (ext_fresh2 _ _ _ _ X L Fa) Ca H3) as [mb [Eb [Xb Cb]]]. exists mb. split; [exact Eb|]. split; [exact Xb|].
    unfold apk_of. cbn [map]. cbn [sum2 fold_right]. rewrite (add2_assoc OK). exact Cb.
Qed.
Lemma multikey_ok m pk P l Ps : pk_is m pk P -> Forall2 (pk_is m) (map fst l) Ps ->
  exists apk m', multikey pk l m = (Ok apk, m') /\ ext m m' /\ apk_is m' apk (apk_of (P :: Ps)).
Proof.
  intros HP F. destruct (NewApk_ok OK m pk P HP) as [apk [ma [b [Ea [Xa [Lb Ca]]]]]]. unfold multikey. rewrite (mbind_ok _ _ _ _ _ Ea).
  destruct (add_keys_ok m apk b Lb l Ps ma _ Xa Ca F) as [mb [Eb [Xb Cb]]]. rewrite (mbind_ok _ _ _ _ _ Eb). exists apk, mb. split; [reflexivity|]. split; [exact Xb|].
  eapply apk_cell_is. exact Cb.
Qed.
Lemma agg_loop_ok m apk b : length (m2 m) <= b -> forall l Ps m' A, ext m m' -> apk_cell m' apk b A -> Forall2 (pk_is m) l Ps ->
  exists m'', agg_loop B apk l m' = (Ok apk, m'') /\ ext m m'' /\ apk_cell m'' apk b (add2 B A (apk_of Ps)).
Proof.
  intros L. induction l as [|pk l IH]; intros Ps m' A X C F; inversion F; subst.
  - exists m'. split; [reflexivity|]. split; [exact X|]. cbn. rewrite (add2_0 OK). exact C.
  - cbn [agg_loop]. destruct (apk_Aggregate_ok OK m' apk b A pk y C (pk_is_ext _ _ _ _ X H1)) as [ma [Ea [Fa Ca]]]. rewrite (mbind_ok _ _ _ _ _ Ea).
    destruct (IH l' ma _ (ext_fresh2 _ _ _ _ X L Fa) Ca H3) as [mb [Eb [Xb Cb]]]. exists mb. split; [exact Eb|]. split; [exact Xb|].
    unfold apk_of. cbn [map]. cbn [sum2 fold_right]. rewrite (add2_assoc OK). exact Cb.
Qed.
Lemma AggregateApk_ok m pk pks P Ps : pk_is m pk P -> Forall2 (pk_is m) pks Ps ->
  exists apk m', AggregateApk B (pk :: pks) m = (Ok apk, m') /\ ext m m' /\ apk_is m' apk (apk_of (P :: Ps)).
Proof.
  intros HP F. destruct (NewApk_ok OK m pk P HP) as [apk [ma [b [Ea [Xa [Lb Ca]]]]]]. unfold AggregateApk. rewrite (mbind_ok _ _ _ _ _ Ea).
  destruct (agg_loop_ok m apk b Lb pks Ps ma _ Xa Ca F) as [mb [Eb [Xb Cb]]]. exists apk, mb. split; [exact Eb|]. split; [exact Xb|]. eapply apk_cell_is. exact Cb.
Qed.
Lemma apk_of_perm l l' : Permutation l l' -> apk_of (B := B) l = apk_of l'.
Proof. intros P. unfold apk_of. apply (sum2_perm OK). apply Permutation_map. exact P. Qed.

(** ** Multi-signatures *)
(** the signers' parts *)
Definition parts (l : list (Z * g2 B)) (msg : bytes) : list (g1 B) := map (fun xP => sig_of (fst xP) (snd xP) msg) l.
Lemma add_signer_ok m s b S x pk P msg h : sig_cell m s b S -> pk_is m pk P -> (h = HCompressed -> sig_of x P msg <> G1 0) ->
  exists m', add_signer s x pk msg h m = (Ok tt, m') /\ frame (only b) none none none none m m' /\ sig_cell m' s b (add1 B S (sig_of x P msg)).
Proof.
  intros C HP N. destruct (Sign_ok OK m x pk P msg HP) as [t [ma [c [Ea [Xa [_ Ca]]]]]]. pose proof (sig_cell_ext _ _ _ _ _ Xa C) as C'.
  pose proof (sig_cell_is _ _ _ _ Ca) as It.
  assert (W : forall m', frame (only b) none none none none ma m' -> frame (only b) none none none none m m') by (intros m'; apply frame_trans, ext_frame; exact Xa).
  destruct h; cbn [add_signer].
  - rewrite (mbind_ok _ _ _ _ _ Ea). destruct (sig_Aggregate_ok ma s b S t _ C' It) as [mb [Eb [Fb Cb]]]. rewrite (mbind_ok _ _ _ _ _ Eb). exists mb. auto.
  - destruct (UnsafeSign_ok m x msg) as [u [mb [Eb [Xb Ib]]]]. rewrite (mbind_ok _ _ _ _ _ Eb).
    destruct (sig_Add_ok OK mb s b S pk P u _ (sig_cell_ext _ _ _ _ _ Xb C) (pk_is_ext _ _ _ _ Xb HP) Ib) as [mc [Ec [Fc Cc]]]. exists mc. split; [exact Ec|]. split; [|exact Cc].
    eapply frame_trans; [apply ext_frame; exact Xb|exact Fc].
  - rewrite (mbind_ok _ _ _ _ _ Ea), (mbind_ok _ _ _ _ _ (sig_Marshal_ok _ _ _ It)).
    destruct (sig_AggregateBytes_ok ma s b S (marshal1 B (sig_of x P msg)) (sig_of x P msg) C') as [mb [Eb [Fb Cb]]]; [|exists mb; auto].
    rewrite <- (app_nil_r (marshal1 B _)). apply (sig_dec_marshal OK).
  - rewrite (mbind_ok _ _ _ _ _ Ea), (mbind_ok _ _ _ _ _ (sig_Compress_ok _ _ _ It)).
    destruct (sig_AggregateBytes_ok ma s b S (compress B (sig_of x P msg)) (sig_of x P msg) C') as [mb [Eb [Fb Cb]]]; [|exists mb; auto].
    apply (sig_dec_compress OK). apply N. reflexivity.
Qed.
(** the signer in l with its key in Ps *)
Definition signer_ok m (msg : bytes) (s : Z * ptr * how) (xP : Z * g2 B) : Prop :=
  fst (fst s) = fst xP /\ pk_is m (snd (fst s)) (snd xP) /\ (snd s = HCompressed -> sig_of (fst xP) (snd xP) msg <> G1 0).
Lemma add_signers_ok m s b msg : length (m1 m) <= b -> forall l xs m' S, ext m m' -> sig_cell m' s b S -> Forall2 (signer_ok m msg) l xs ->
  exists m'', add_signers s l msg m' = (Ok tt, m'') /\ ext m m'' /\ sig_cell m'' s b (add1 B S (sum1 (parts xs msg))).
Proof.
  intros L. induction l as [|[[x pk] h] l IH]; intros xs m' S X C F; inversion F as [|u xP l0 xs' H1 H2]; subst.
  - exists m'. split; [reflexivity|]. split; [exact X|]. cbn. rewrite (add1_0 OK). exact C.
  - destruct H1 as [E1 [HP HN]]. destruct xP as [x' P]. cbn [fst snd] in *. subst x'. cbn [add_signers].
    destruct (add_signer_ok m' s b S x pk P msg h C (pk_is_ext _ _ _ _ X HP) HN) as [ma [Ea [Fa Ca]]]. rewrite (mbind_ok _ _ _ _ _ Ea).
    destruct (IH xs' ma _ (ext_fresh1 _ _ _ _ X L Fa) Ca H2) as [mb [Eb [Xb Cb]]]. exists mb. split; [exact Eb|]. split; [exact Xb|].
    cbn [parts map sum1 fold_right fst snd]. rewrite (add1_assoc OK). exact Cb.
Qed.
Lemma multisign_ok m x pk P l xs msg : pk_is m pk P -> Forall2 (signer_ok m msg) l xs ->
  exists s m', multisign x pk l msg m = (Ok s, m') /\ ext m m' /\ sig_is m' s (sum1 (parts ((x, P) :: xs) msg)).
Proof.
  intros HP F. destruct (Sign_ok OK m x pk P msg HP) as [s [ma [b [Ea [Xa [Lb Ca]]]]]]. unfold multisign. rewrite (mbind_ok _ _ _ _ _ Ea).
  destruct (add_signers_ok m s b msg Lb l xs ma _ Xa Ca F) as [mb [Eb [Xb Cb]]]. rewrite (mbind_ok _ _ _ _ _ Eb). exists s, mb. split; [reflexivity|]. split; [exact Xb|].
  eapply sig_cell_is. exact Cb.
Qed.
Lemma parts_perm l l' msg : Permutation l l' -> sum1 (parts l msg) = sum1 (parts l' msg).
Proof. intros P. apply (sum1_perm OK). apply Permutation_map. exact P. Qed.
Lemma multi_valid msg l : (forall xP, In xP l -> snd xP = G2 (fst xP)) -> valid (apk_of (map snd l)) msg (sum1 (parts l msg)).
Proof.
  induction l as [|[x P] l IH]; intros H.
  - apply (valid_0 OK).
  - cbn [map parts fst snd]. change (sum1 (sig_of x P msg :: parts l msg)) with (add1 B (sig_of x P msg) (sum1 (parts l msg))).
    change (apk_of (P :: map snd l)) with (add2 B (mul2 B (ht P) P) (apk_of (map snd l))).
    apply (valid_add OK); [|apply IH; intros y Hy; apply H; right; exact Hy].
    pose proof (H (x, P) (or_introl eq_refl)) as E. cbn [fst snd] in E. rewrite E. apply (sig_valid OK).
Qed.

(** ** Batches *)
Lemma batch_valid_sum Ps msgs : forall Ts, length Ts = length msgs -> length msgs = length Ps ->
  (forall i P msg T, nth_error Ps i = Some P -> nth_error msgs i = Some msg -> nth_error Ts i = Some T -> valid P msg T) -> batch_valid (B := B) Ps msgs (sum1 Ts).
Proof.
  revert Ps. induction msgs as [|msg msgs IH]; intros [|P Ps] [|T Ts] L1 L2 H; try discriminate; cbn [batch_valid]; [reflexivity|].
  exists T, (sum1 Ts). split; [exact (H 0 P msg T eq_refl eq_refl eq_refl)|]. split; [|reflexivity]. apply IH; [injection L1; auto|injection L2; auto|].
  intros i P' msg' T' E1 E2 E3. exact (H (S i) P' msg' T' E1 E2 E3).
Qed.
Lemma usig_cell m u S : usig_is m u S -> exists a b, u = Some a /\ usig_e B u m = (Ok (Some b), m) /\ get1 B (Some b) m = (Ok S, m) /\ nth_error (m1 m) b = Some S.
Proof. intros [a [b [-> [H1 H2]]]]. exists a, b. split; [reflexivity|]. split; [apply look_ok; exact H1|]. split; [apply get1_ok; exact H2|exact H2]. Qed.
Lemma UnsafeAggregate_ok m u v S T : usig_is m u S -> usig_is m v T -> exists w m', UnsafeAggregate B u v m = (Ok w, m') /\ ext m m' /\ usig_is m' w (add1 B S T).
Proof.
  intros Hu Hv. destruct (usig_cell _ _ _ Hu) as [a [b [_ [E1 [E2 _]]]]]. destruct (usig_cell _ _ _ Hv) as [a' [b' [_ [E3 [E4 _]]]]]. unfold UnsafeAggregate.
  rewrite (mbind_ok _ _ _ _ _ E1), (mbind_ok _ _ _ _ _ E2), (mbind_ok _ _ _ _ _ E3), (mbind_ok _ _ _ _ _ E4).
  destruct (new1_ext (add1 B S T) m) as [ma [Ea [Xa [Na _]]]]. rewrite (mbind_ok _ _ _ _ _ Ea). destruct (newusig_ext (Some (length (m1 m))) ma) as [mb [Eb [Xb [Nb _]]]]. rewrite Eb.
  eexists _, mb. split; [reflexivity|]. split; [eapply ext_trans; eassumption|]. eexists _, _. split; [reflexivity|]. split; [exact Nb|]. apply (ext1 ma); assumption.
Qed.
Lemma batch_loop_ok l : forall m u S Ts, usig_is m u S -> Forall2 (usig_is m) l Ts -> exists w m', batch_loop B u l m = (Ok w, m') /\ ext m m' /\ usig_is m' w (add1 B S (sum1 Ts)).
Proof.
  induction l as [|v l IH]; intros m u S Ts Hu F; inversion F as [|v' T l0 Ts' HT HF]; subst; cbn [batch_loop].
  - exists u, m. split; [reflexivity|]. split; [apply ext_refl|]. cbn. rewrite (add1_0 OK). exact Hu.
  - destruct (UnsafeAggregate_ok m u v S T Hu HT) as [w [ma [Ea [Xa Ia]]]]. rewrite (mbind_ok _ _ _ _ _ Ea).
    destruct (IH ma w (add1 B S T) Ts' Ia) as [w' [mb [Eb [Xb Ib]]]]; [clear - HF Xa; induction HF; constructor; [eapply usig_is_ext; eassumption|assumption]|].
    exists w', mb. split; [exact Eb|]. split; [eapply ext_trans; eassumption|]. cbn [sum1 fold_right]. rewrite (add1_assoc OK). exact Ib.
Qed.
Lemma UnsafeBatch_ok m u l T Ts : usig_is m u T -> Forall2 (usig_is m) l Ts -> exists w m', UnsafeBatch B (u :: l) m = (Ok w, m') /\ ext m m' /\ usig_is m' w (sum1 (T :: Ts)).
Proof. intros Hu F. apply batch_loop_ok; assumption. Qed.
Lemma VerifyBatch_spec m apks Ps msgs s S : Forall2 (apk_is m) apks Ps -> sig_is m s S -> length msgs = length apks -> msgs <> [] -> NoDup (map (sha3 B) msgs) ->
  exists r, VerifyBatch B apks msgs s m = (r, m) /\ (r = Ok tt /\ batch_valid Ps msgs S \/ r = Err "bls: Invalid Signature"%string /\ ~ batch_valid Ps msgs S).
Proof.
  intros F HS L N D. unfold VerifyBatch. rewrite L, Nat.eqb_refl. cbn [negb]. destruct (mmap_apk m apks Ps F) as [ks [Ek [Fk Lk]]]. rewrite (mbind_ok _ _ _ _ _ Ek).
  apply sig_is_cell in HS. destruct HS as [e HS]. rewrite (mbind_ok _ _ _ _ _ (sig_e_ok _ _ _ _ HS)). destruct HS as [a [_ [_ He]]].
  apply (verifyBatch_spec OK); auto. lia.
Qed.
Lemma VerifyUnsafeBatch_spec m pks Ps msgs u S : Forall2 (pk_is m) pks Ps -> usig_is m u S -> length msgs <= length pks -> msgs <> [] -> NoDup (map (sha3 B) msgs) ->
  exists r, VerifyUnsafeBatch B pks msgs u m = (r, m) /\ (r = Ok tt /\ batch_valid Ps msgs S \/ r = Err "bls: Invalid Signature"%string /\ ~ batch_valid Ps msgs S).
Proof.
  intros F HS L N D. unfold VerifyUnsafeBatch. destruct (mmap_pk m pks Ps F) as [ks [Ek [Fk Lk]]]. rewrite (mbind_ok _ _ _ _ _ Ek).
  destruct (usig_cell _ _ _ HS) as [a [e [_ [E1 [_ E2]]]]]. rewrite (mbind_ok _ _ _ _ _ E1). apply (verifyBatch_spec OK); auto. lia.
Qed.
Lemma VerifyBatch_len m apks msgs s : length msgs <> length apks ->
  VerifyBatch B apks msgs s m = (Err ("BLS Verify APK Batch: the nr of Public Keys (" ++ dec (length apks) ++ ") and the nr. of messages (" ++ dec (length msgs) ++ ") do not match")%string, m).
Proof. intros N. unfold VerifyBatch. rewrite (proj2 (Nat.eqb_neq _ _) N). reflexivity. Qed.
Lemma VerifyBatch_dup m apks Ps msgs s S : Forall2 (apk_is m) apks Ps -> sig_is m s S -> length msgs = length apks -> ~ NoDup (map (sha3 B) msgs) -> VerifyBatch B apks msgs s m = (Err "bls: Messages are not distinct"%string, m).
Proof.
  intros F HS L D. unfold VerifyBatch. rewrite L, Nat.eqb_refl. cbn [negb]. destruct (mmap_apk m apks Ps F) as [ks [Ek [Fk Lk]]]. rewrite (mbind_ok _ _ _ _ _ Ek).
  apply sig_is_cell in HS. destruct HS as [e HS]. rewrite (mbind_ok _ _ _ _ _ (sig_e_ok _ _ _ _ HS)). apply verifyBatch_dup. exact D.
Qed.
Lemma VerifyUnsafeBatch_dup m pks Ps msgs u S : Forall2 (pk_is m) pks Ps -> usig_is m u S -> ~ NoDup (map (sha3 B) msgs) -> VerifyUnsafeBatch B pks msgs u m = (Err "bls: Messages are not distinct"%string, m).
Proof.
  intros F HS D. unfold VerifyUnsafeBatch. destruct (mmap_pk m pks Ps F) as [ks [Ek [Fk Lk]]]. rewrite (mbind_ok _ _ _ _ _ Ek).
  destruct (usig_cell _ _ _ HS) as [a [e [_ [E1 [_ E2]]]]]. rewrite (mbind_ok _ _ _ _ _ E1). apply verifyBatch_dup. exact D.
Qed.
Lemma VerifyBatch_empty m s S : sig_is m s S -> VerifyBatch B [] [] s m = (Panic, m).
Proof.
  intros HS. unfold VerifyBatch. cbn [length Nat.eqb negb mmap]. unfold mbind at 1. cbn [ret]. apply sig_is_cell in HS. destruct HS as [e HS]. rewrite (mbind_ok _ _ _ _ _ (sig_e_ok _ _ _ _ HS)).
  destruct HS as [a [_ [_ He]]]. eapply (verifyBatch_empty OK). exact He.
Qed.
Lemma VerifyUnsafeBatch_few m pks Ps msgs u S : Forall2 (pk_is m) pks Ps -> usig_is m u S -> length pks < length msgs -> NoDup (map (sha3 B) msgs) ->
  VerifyUnsafeBatch B pks msgs u m = (Panic, m).
Proof.
  intros F HS L D. unfold VerifyUnsafeBatch. destruct (mmap_pk m pks Ps F) as [ks [Ek [Fk Lk]]]. rewrite (mbind_ok _ _ _ _ _ Ek).
  destruct (usig_cell _ _ _ HS) as [a [e [_ [E1 [_ E2]]]]]. rewrite (mbind_ok _ _ _ _ _ E1). apply (verifyBatch_few OK) with (Ps := Ps); auto. lia.
Qed.
Lemma g2_all_ext m m' l Ps : ext m m' -> Forall2 (g2_is m) l Ps -> Forall2 (g2_is m') l Ps.
Proof. intros X F. induction F; constructor; [eapply g2_is_ext; eassumption|assumption]. Qed.
Lemma VerifyCompressed_spec m g2s Ps msgs c S allow : Forall2 (g2_is m) g2s Ps -> decompress B c = Some S -> length msgs <= length g2s -> msgs <> [] ->
  (allow = true \/ NoDup (map (sha3 B) msgs)) ->
  exists r m', VerifyCompressed B g2s msgs c allow m = (r, m') /\ ext m m' /\ (r = Ok tt /\ batch_valid Ps msgs S \/ r = Err "bls: Invalid Signature"%string /\ ~ batch_valid Ps msgs S).
Proof.
  intros F E L N D. unfold VerifyCompressed. rewrite E. destruct (new1_ext S m) as [ma [Ea [Xa [Na _]]]]. rewrite (mbind_ok _ _ _ _ _ Ea).
  destruct (verifyBatch_spec OK ma g2s Ps msgs (length (m1 m)) S allow (g2_all_ext _ _ _ _ Xa F) Na N L D) as [r [Er K]]. exists r, ma. auto.
Qed.
Lemma VerifyCompressed_few m g2s Ps msgs c S allow : Forall2 (g2_is m) g2s Ps -> decompress B c = Some S -> length g2s < length msgs ->
  (allow = true \/ NoDup (map (sha3 B) msgs)) -> fst (VerifyCompressed B g2s msgs c allow m) = Panic.
Proof.
  intros F E L D. unfold VerifyCompressed. rewrite E. destruct (new1_ext S m) as [ma [Ea [Xa [Na _]]]]. rewrite (mbind_ok _ _ _ _ _ Ea).
  rewrite (verifyBatch_few OK ma g2s Ps msgs _ allow (g2_all_ext _ _ _ _ Xa F) L D). reflexivity.
Qed.
Lemma VerifyCompressed_dup m g2s msgs c S : decompress B c = Some S -> ~ NoDup (map (sha3 B) msgs) -> fst (VerifyCompressed B g2s msgs c false m) = Err "bls: Messages are not distinct"%string.
Proof.
  intros E D. unfold VerifyCompressed. rewrite E. destruct (new1_ext S m) as [ma [Ea [Xa [Na _]]]]. rewrite (mbind_ok _ _ _ _ _ Ea).
  rewrite (verifyBatch_dup ma g2s msgs (Some (length (m1 m))) D). reflexivity.
Qed.
Lemma VerifyCompressed_malformed m g2s msgs c allow : decompress B c = None -> VerifyCompressed B g2s msgs c allow m = (Err err_unm, m).
Proof. intros E. unfold VerifyCompressed. rewrite E. reflexivity. Qed.

(** surplus keys: any pointers whatsoever, as they are only read when there is a message *)
Lemma mfor_ext {S} (f g : nat -> S -> M B S) : forall cnt lo st m, (forall i st m, lo <= i < lo + cnt -> f i st m = g i st m) -> mfor lo cnt f st m = mfor lo cnt g st m.
Proof.
  induction cnt as [|cnt IH]; intros lo st m H; cbn [mfor]; [reflexivity|]. unfold mbind. rewrite H by lia. destruct (g lo st m) as [[a|e|] m']; auto. apply IH. intros. apply H. lia.
Qed.
Lemma verifyBatch_surplus m pkeys extra msgs e allow : length msgs <= length pkeys -> verifyBatch B (pkeys ++ extra) msgs e allow m = verifyBatch B pkeys msgs e allow m.
Proof.
  intros L. unfold verifyBatch. destruct (andb _ _); [reflexivity|]. unfold mbind at 1. rewrite (mfor_ext _ (batch_body B pkeys msgs)); [reflexivity|].
  intros i st m' Hi. unfold batch_body, mbind, lift, idx. rewrite nth_error_app1 by lia. reflexivity.
Qed.

(** ** Forgeries and rogue keys *)
Lemma rogue_key P x' : add2 B P (add2 B (G2 x') (mul2 B (ord B - 1) P)) = G2 x'.
Proof.
  destruct (cyc2 B OK P) as [a ->]. rewrite (mul2_gen B OK), !(add2_gen B OK). apply (mul2_eq B OK). exists a. ring.
Qed.
Lemma pk_Aggregate_ok m pk pp P P' : pk_is m pk P -> pk_is m pp P' -> exists r m', pk_Aggregate B pk pp m = (Ok r, m') /\ ext m m' /\ pk_is m' r (add2 B P P').
Proof.
  intros [a [b [-> [H1 H2]]]] [a' [b' [-> [H3 H4]]]]. unfold pk_Aggregate.
  rewrite (mbind_ok _ _ _ _ _ (pk_gx_ok _ _ _ H1)), (mbind_ok _ _ _ _ _ (get2_ok _ _ _ H2)), (mbind_ok _ _ _ _ _ (pk_gx_ok _ _ _ H3)), (mbind_ok _ _ _ _ _ (get2_ok _ _ _ H4)).
  rewrite (mbind_ok _ _ m _ m (lift_ok _ _ m (vadd2_emb B OK _ _))). destruct (new2_ext (emb2 B (add2 B P P')) m) as [ma [Ea [Xa [Na _]]]]. rewrite (mbind_ok _ _ _ _ _ Ea).
  destruct (newpk_ext (Some (length (m2 m))) ma) as [mb [Eb [Xb [Nb _]]]]. rewrite Eb. eexists _, mb. split; [reflexivity|]. split; [eapply ext_trans; eassumption|].
  eexists _, _. split; [reflexivity|]. split; [exact Nb|]. apply (ext2 ma); assumption.
Qed.
Lemma rogue_batch P P' x' msg : add2 B P P' = G2 x' -> batch_valid (B := B) [P; P'] [msg; msg] (usig_of x' msg).
Proof.
  intros E. destruct (valid_exists OK P msg) as [S HS]. destruct (valid_exists OK P' msg) as [S' HS'].
  assert (Q : usig_of x' msg = add1 B S S').
  { apply (valid_unique OK (G2 x') msg); [apply (usig_valid OK)|]. rewrite <- E. apply (valid_add OK); assumption. }
  cbn [batch_valid]. exists S, (add1 B S' (G1 0)). split; [exact HS|]. split; [|rewrite Q, (add1_0 OK); reflexivity]. exists S', (G1 0). auto.
Qed.

(** ** Codecs *)
Lemma pk_Unmarshal_marshal m a P r : a < length (mpk m) -> exists m', pk_Unmarshal B (Some a) (marshal2 B P ++ r) m = (Ok tt, m') /\ frame none none (only a) none none m m' /\ pk_is m' (Some a) P.
Proof. intros L. destruct (pk_Unmarshal_ok m a (marshal2 B P ++ r) P r L (unm2_marshal B OK P r)) as [m' [E [F [I _]]]]. exists m'. auto. Qed.
Lemma apk_Copy_ok m apk P : apk_is m apk P -> exists c m', apk_Copy B apk m = (Ok c, m') /\ ext m m' /\ apk_is m' c P /\ c = Some (length (mapk m)).
Proof.
  intros H. apply apk_is_cell in H. destruct H as [b H]. unfold apk_Copy. rewrite (mbind_ok _ _ _ _ _ (apk_gx_ok _ _ _ _ H)). destruct H as [a [c [-> [H2 [H3 H4]]]]].
  rewrite (mbind_ok _ _ _ _ _ (get2_ok _ _ _ H4)), (mbind_ok _ _ m _ m (lift_ok _ _ m (vmarshal2_emb B OK P))).
  assert (U : unmarshalled2 B (marshal2 B P) = emb2 B P) by (unfold unmarshalled2; rewrite <- (app_nil_r (marshal2 B P)), (unm2_marshal B OK); reflexivity). rewrite U.
  destruct (new2_ext (emb2 B P) m) as [ma [Ea [Xa [Na [_ [Qp [Qa _]]]]]]]. rewrite (mbind_ok _ _ _ _ _ Ea).
  destruct (newpk_ext (Some (length (m2 m))) ma) as [mb [Eb [Xb [Nb [_ [_ [Qb _]]]]]]]. rewrite (mbind_ok _ _ _ _ _ Eb).
  destruct (newapk_ext (Some (length (mpk ma))) mb) as [mc [Ec [Xc [Nc _]]]]. rewrite Ec.
  eexists _, mc. split; [reflexivity|]. split; [eapply ext_trans; [eassumption|]; eapply ext_trans; eassumption|]. split; [|congruence].
  eexists _, _. split; [reflexivity|]. split; [exact Nc|]. exists (length (mpk ma)), (length (m2 m)). split; [reflexivity|]. split; [exact (extpk mb mc _ _ Xc Nb)|]. exact (ext2 mb mc _ _ Xc (ext2 ma mb _ _ Xb Na)).
Qed.
Lemma sig_Copy_ok m s S : sig_is m s S -> exists c m', sig_Copy B s m = (Ok c, m') /\ ext m m' /\ sig_is m' c S /\ c = Some (length (msig m)).
Proof.
  intros H. unfold sig_Copy. rewrite (mbind_ok _ _ _ _ _ (sig_Marshal_ok _ _ _ H)). rewrite <- (app_nil_r (marshal1 B S)), (unm1_marshal B OK).
  destruct (new1_ext S m) as [ma [Ea [Xa [Na [_ [_ [_ [Qs _]]]]]]]]. rewrite (mbind_ok _ _ _ _ _ Ea). destruct (newsig_ext (Some (length (m1 m))) ma) as [mb [Eb [Xb [Nb _]]]]. rewrite Eb.
  eexists _, mb. split; [reflexivity|]. split; [eapply ext_trans; eassumption|]. split; [|congruence]. eexists _, _. split; [reflexivity|]. split; [exact Nb|]. apply (ext1 ma); assumption.
Qed.
Lemma sig_Decompress_ok m a data P : a < length (msig m) -> decompress B data = Some P -> exists m', sig_Decompress B (Some a) data m = (Ok tt, m') /\
  frame none none none (only a) none m m' /\ sig_is m' (Some a) P.
Proof.
  intros La D. unfold sig_Decompress. rewrite D. destruct (nth_error (msig m) a) as [x|] eqn:Ex; [|apply nth_error_None in Ex; lia].
  destruct (new1_ext P m) as [ma [Ea [Xa [Na [_ [_ [_ [Qa _]]]]]]]].
  rewrite (mbind_ok _ _ _ _ _ (look_ok (fun m => msig m) a _ m Ex : sig_e B (Some a) m = _)), (mbind_ok _ _ _ _ _ Ea). eexists. split; [reflexivity|]. split.
  - eapply frame_trans; [apply ext_frame; exact Xa|]. fsplit; try apply keep_refl. apply keep_upd.
  - exists a, (length (m1 m)). split; [reflexivity|]. cbn [msig m1]. split; [apply upd_same; rewrite Qa; exact La|exact Na].
Qed.
Lemma usig_assign_ok m a P : a < length (musig m) -> exists m', (do _ <- usig_e B (Some a); do e <- new1 B P; setusig B (Some a) e) m = (Ok tt, m') /\ frame none none none none (only a) m m' /\ usig_is m' (Some a) P.
Proof.
  intros La. destruct (nth_error (musig m) a) as [x|] eqn:Ex; [|apply nth_error_None in Ex; lia].
  destruct (new1_ext P m) as [ma [Ea [Xa [Na [_ [_ [_ [_ Qa]]]]]]]].
  rewrite (mbind_ok _ _ _ _ _ (look_ok (fun m => musig m) a _ m Ex : usig_e B (Some a) m = _)), (mbind_ok _ _ _ _ _ Ea). eexists. split; [reflexivity|]. split.
  - eapply frame_trans; [apply ext_frame; exact Xa|]. fsplit; try apply keep_refl. apply keep_upd.
  - exists a, (length (m1 m)). split; [reflexivity|]. cbn [musig m1]. split; [apply upd_same; rewrite Qa; exact La|exact Na].
Qed.
Lemma usig_Unmarshal_ok m a P r : a < length (musig m) -> exists m', usig_Unmarshal B (Some a) (marshal1 B P ++ r) m = (Ok tt, m') /\ frame none none none none (only a) m m' /\ usig_is m' (Some a) P.
Proof. intros L. unfold usig_Unmarshal. rewrite (unm1_marshal B OK). apply usig_assign_ok. exact L. Qed.
Lemma usig_Decompress_ok m a data P : a < length (musig m) -> decompress B data = Some P -> exists m', usig_Decompress B (Some a) data m = (Ok tt, m') /\ frame none none none none (only a) m m' /\ usig_is m' (Some a) P.
Proof. intros L E. unfold usig_Decompress. rewrite E. apply usig_assign_ok. exact L. Qed.
Lemma usig_Marshal_ok m s S : usig_is m s S -> usig_Marshal B s m = (Ok (marshal1 B S), m).
Proof. intros H. destruct (usig_cell _ _ _ H) as [a [b [_ [E1 [E2 _]]]]]. unfold usig_Marshal. rewrite (mbind_ok _ _ _ _ _ E1), (mbind_ok _ _ _ _ _ E2). reflexivity. Qed.
Lemma usig_Compress_ok m s S : usig_is m s S -> usig_Compress B s m = (Ok (compress B S), m).
Proof. intros H. destruct (usig_cell _ _ _ H) as [a [b [_ [E1 [E2 _]]]]]. unfold usig_Compress. rewrite (mbind_ok _ _ _ _ _ E1), (mbind_ok _ _ _ _ _ E2). reflexivity. Qed.
Lemma UnmarshalSignature_ok m data P : sig_dec data = Some P -> exists s m', UnmarshalSignature B data m = (Ok s, m') /\ ext m m' /\ sig_is m' s P.
Proof.
  intros D. unfold UnmarshalSignature. destruct (newsig_ext None m) as [ma [Ea [Xa [Na _]]]]. rewrite (mbind_ok _ _ _ _ _ Ea).
  destruct (sig_Unmarshal_ok ma (length (msig m)) data P) as [mb [Eb [Fb Sb]]]; [apply nth_error_Some; rewrite Na; discriminate|exact D|]. rewrite (mbind_ok _ _ _ _ _ Eb).
  eexists _, mb. split; [reflexivity|]. split; [|exact Sb]. eapply ext_freshsig; [exact Xa| |exact Fb]; lia.
Qed.
Lemma UnmarshalSignature_err m data : sig_dec (B := B) data = None -> exists m', UnmarshalSignature B data m = (Err err_unm, m') /\ ext m m'.
Proof.
  intros D. unfold UnmarshalSignature. destruct (newsig_ext None m) as [ma [Ea [Xa [Na _]]]]. rewrite (mbind_ok _ _ _ _ _ Ea).
  rewrite (mbind_err _ _ _ _ _ (sig_Unmarshal_err ma _ data D)). exists ma. auto.
Qed.
Lemma apk_Marshal_ok m apk P : apk_is m apk P -> apk_Marshal B apk m = (Ok (marshal2 B P), m).
Proof.
  intros [a [c [-> [H2 H3]]]]. unfold apk_Marshal. rewrite (mbind_ok _ _ _ _ _ (look_ok (fun m => mapk m) a _ m H2 : apk_pk B (Some a) m = _)). apply (pk_Marshal_ok OK). exact H3.
Qed.
Lemma pk_MarshalText_ok m pk P : pk_is m pk P -> pk_MarshalText B pk m = (Ok (encodeToText (marshal2 B P)), m).
Proof. intros H. unfold pk_MarshalText. rewrite (mbind_ok _ _ _ _ _ (pk_Marshal_ok OK _ _ _ H)). reflexivity. Qed.
End Props.
