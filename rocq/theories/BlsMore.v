(** BLS: further facts for the property files *)
From Coq Require Import String ZArith List Lia Bool Arith Znumtheory Permutation.
From Verif Require Import GoModel GoFacts HashModel Base64Model Base64Facts Bn BlsModel SpecBls BlsSessions BlsFacts BlsOps BlsProps BlsHeapFacts BlsSep.
Import ListNotations.
Local Open Scope nat_scope.

Section More.
Context {B : bn} (OK : bn_ok B).
Local Notation mem := (mem B).
Local Notation G1 k := (mul1 B k (gen1 B)).
Local Notation G2 k := (mul2 B k (gen2 B)).
Local Notation valid := (valid (B := B)).
Local Notation hm := (hm (B := B)).
Implicit Types m : mem.

Lemma sign_verify_unsafe m x pk msg : pk_is m pk (G2 x) -> exists m', (do u <- UnsafeSign B x msg; VerifyUnsafe B pk msg u) m = (Ok tt, m') /\ ext m m'.
Proof.
  intros H. destruct (UnsafeSign_ok m x msg) as [u [ma [Ea [Xa Ia]]]]. rewrite (mbind_ok _ _ _ _ _ Ea). exists ma. split; [|exact Xa].
  apply (VerifyUnsafe_ok_iff OK ma pk (G2 x) msg u _ (pk_is_ext _ _ _ _ Xa H) Ia). apply (usig_valid OK).
Qed.
(** two single programs run after each other *)
Lemma sign_verify m x pk msg : pk_is m pk (G2 x) -> exists m', (do apk <- NewApk B pk; do s <- Sign B x pk msg; Verify B apk msg s) m = (Ok tt, m') /\ ext m m'.
Proof.
  intros H. destruct (NewApk_ok OK m pk _ H) as [apk [ma [b [Ea [Xa [_ Ca]]]]]]. rewrite (mbind_ok _ _ _ _ _ Ea).
  destruct (Sign_ok OK ma x pk _ msg (pk_is_ext _ _ _ _ Xa H)) as [s [mb [c [Eb [Xb [_ Cb]]]]]]. rewrite (mbind_ok _ _ _ _ _ Eb). exists mb. split; [|eapply ext_trans; eassumption].
  apply (Verify_ok_iff OK mb apk _ msg s _ (apk_cell_is _ _ _ _ (apk_cell_ext _ _ _ _ _ Xb Ca)) (sig_cell_is _ _ _ _ Cb)). apply (sig_valid OK).
Qed.

Definition xP (s : Z * ptr * how) : Z * g2 B := (fst (fst s), G2 (fst (fst s))).
Lemma signers_ok m msg l : Forall (signer m msg) l -> Forall2 (signer_ok m msg) l (map xP l).
Proof.
  induction 1 as [|[[x pk] h] l [H1 H2] F IH]; cbn [map]; constructor; [|exact IH]. split; [reflexivity|]. split; [exact H1|exact H2].
Qed.
Lemma signer_keys m msg l : Forall (signer m msg) l -> Forall2 (pk_is m) (map (fun s => snd (fst s)) l) (map (fun s => G2 (fst (fst s))) l).
Proof. induction 1 as [|[[x pk] h] l [H1 H2] F IH]; cbn [map fst snd]; constructor; assumption. Qed.
Lemma multisig_verify m x pk l keys msg apkprog : Forall (signer m msg) l -> pk_is m pk (G2 x) ->
  (exists apk m', apkprog m = (Ok apk, m') /\ ext m m' /\ apk_is m' apk (apk_of (G2 x :: keys))) -> keys = map (fun s : Z * ptr * how => G2 (fst (fst s))) l ->
  exists m', (do apk <- apkprog; do s <- multisign x pk l msg; Verify B apk msg s) m = (Ok tt, m') /\ ext m m'.
Proof.
  intros F HP [apk [ma [Ea [Xa Ia]]]] ->. rewrite (mbind_ok _ _ _ _ _ Ea).
  assert (F' : Forall2 (signer_ok ma msg) l (map xP l)).
  { pose proof (signers_ok _ _ _ F) as Q. clear - Q Xa. induction Q as [|u y l l' [H1 [H2 H3]] Q IH]; constructor; [|exact IH]. split; [exact H1|]. split; [eapply pk_is_ext; eassumption|exact H3]. }
  destruct (multisign_ok OK ma x pk (G2 x) l (map xP l) msg (pk_is_ext _ _ _ _ Xa HP) F') as [s [mb [Eb [Xb Ib]]]]. rewrite (mbind_ok _ _ _ _ _ Eb).
  exists mb. split; [|eapply ext_trans; eassumption]. apply (Verify_ok_iff OK mb apk _ msg s _ (apk_is_ext _ _ _ _ Xb Ia) Ib).
  replace (G2 x :: map (fun s => G2 (fst (fst s))) l) with (map snd ((x, G2 x) :: map xP l)) by (cbn [map snd]; rewrite map_map; reflexivity).
  apply (multi_valid OK). intros y [<-|Hy]; [reflexivity|]. apply in_map_iff in Hy. destruct Hy as [z [<- _]]. reflexivity.
Qed.

(** ** Batches of unsafe signatures *)
Lemma mmap_sign l : forall m, exists us m', mmap (fun xm => UnsafeSign B (fst xm) (snd xm)) l m = (Ok us, m') /\ ext m m' /\ Forall2 (usig_is m') us (map (fun xm => usig_of (fst xm) (snd xm)) l).
Proof.
  induction l as [|[x msg] l IH]; intros m; cbn [mmap map fst snd].
  - exists [], m. split; [reflexivity|]. split; [apply ext_refl|constructor].
  - destruct (UnsafeSign_ok m x msg) as [u [ma [Ea [Xa Ia]]]]. rewrite (mbind_ok _ _ _ _ _ Ea). destruct (IH ma) as [us [mb [Eb [Xb Fb]]]]. rewrite (mbind_ok _ _ _ _ _ Eb).
    exists (u :: us), mb. split; [reflexivity|]. split; [eapply ext_trans; eassumption|]. constructor; [eapply usig_is_ext; eassumption|exact Fb].
Qed.
Lemma unsafe_batch_verify m l pks : l <> [] -> Forall2 (pk_is m) pks (map (fun xm => G2 (fst xm)) l) -> NoDup (map (sha3 B) (map snd l)) ->
  exists m', (do us <- mmap (fun xm => UnsafeSign B (fst xm) (snd xm)) l; do u <- UnsafeBatch B us; VerifyUnsafeBatch B pks (map snd l) u) m = (Ok tt, m') /\ ext m m'.
Proof.
  intros N F D. destruct (mmap_sign l m) as [us [ma [Ea [Xa Fa]]]]. rewrite (mbind_ok _ _ _ _ _ Ea). destruct l as [|[x msg] l]; [contradiction|]. cbn [map fst snd] in *. inversion Fa as [|u S us' Ss Hu Hus]; subst.
  destruct (UnsafeBatch_ok OK ma u us' _ _ Hu Hus) as [w [mb [Eb [Xb Ib]]]]. rewrite (mbind_ok _ _ _ _ _ Eb). exists mb. split; [|eapply ext_trans; eassumption].
  pose proof (Forall2_length F) as LF. cbn [length] in LF. rewrite map_length in LF.
  destruct (VerifyUnsafeBatch_spec OK mb pks _ (msg :: map snd l) w _ (Forall2_pk_ext _ _ _ _ (ext_trans _ _ _ Xa Xb) F) Ib) as [r [Er [[-> _]|[_ V]]]]; [cbn [length]; rewrite map_length; lia|discriminate|exact D|exact Er|].
  exfalso. apply V. apply (batch_valid_sum (B := B)); [cbn [length]; rewrite !map_length; reflexivity|cbn [length]; rewrite !map_length; reflexivity|].
  clear - OK. intros i P g T E1 E2 E3. destruct i as [|i]; cbn [nth_error] in *.
  - injection E1 as <-. injection E2 as <-. injection E3 as <-. apply (usig_valid OK).
  - rewrite nth_error_map in E1, E2, E3. destruct (nth_error l i) as [[y h]|]; [|discriminate]. injection E1 as <-. injection E2 as <-. injection E3 as <-. apply (usig_valid OK).
Qed.
Lemma mmap_app {A C} (f : A -> M B C) a b m ra m' rb m'' : mmap f a m = (Ok ra, m') -> mmap f b m' = (Ok rb, m'') -> mmap f (a ++ b) m = (Ok (ra ++ rb), m'').
Proof.
  revert m ra. induction a as [|x a IH]; intros m ra Ea Eb; cbn [mmap app] in *.
  - injection Ea as <- <-. exact Eb.
  - destruct (f x m) as [[y|e|] mx] eqn:Ex; unfold mbind in Ea; rewrite Ex in Ea; try discriminate. destruct (mmap f a mx) as [[r|e|] my] eqn:Er; try discriminate. injection Ea as <- <-.
    rewrite (mbind_ok _ _ _ _ _ Ex). rewrite (mbind_ok _ _ _ _ _ (IH mx r Er Eb)). reflexivity.
Qed.
Lemma mmap_pk_any m pks : Forall (fun p => exists a, p = Some a /\ a < length (mpk m)) pks -> exists ks, mmap (pk_gx B) pks m = (Ok ks, m) /\ length ks = length pks.
Proof.
  induction 1 as [|p pks [a [-> La]] F [ks [E L]]]; cbn [mmap]; [exists []; auto|]. destruct (nth_error (mpk m) a) as [x|] eqn:Ex; [|apply nth_error_None in Ex; lia].
  rewrite (mbind_ok _ _ _ _ _ (pk_gx_ok _ _ _ Ex)), (mbind_ok _ _ _ _ _ E). exists (x :: ks). split; [reflexivity|]. cbn [length]. lia.
Qed.
Lemma VerifyUnsafeBatch_surplus m pks extra msgs u : Forall (fun p => exists a, p = Some a /\ a < length (mpk m)) (pks ++ extra) -> length msgs <= length pks ->
  VerifyUnsafeBatch B (pks ++ extra) msgs u m = VerifyUnsafeBatch B pks msgs u m.
Proof.
  intros F L. apply Forall_app in F. destruct F as [F1 F2]. destruct (mmap_pk_any m pks F1) as [ks [E1 L1]]. destruct (mmap_pk_any m extra F2) as [es [E2 _]].
  unfold VerifyUnsafeBatch. rewrite (mbind_ok _ _ _ _ _ (mmap_app _ _ _ _ _ _ _ _ E1 E2)), (mbind_ok _ _ _ _ _ E1).
  unfold mbind, usig_e, look. destruct u as [a|]; [|reflexivity]. unfold idx. destruct (nth_error (musig m) a); [|reflexivity]. apply verifyBatch_surplus. lia.
Qed.
Lemma VerifyCompressed_surplus m g2s extra msgs c allow : length msgs <= length g2s -> VerifyCompressed B (g2s ++ extra) msgs c allow m = VerifyCompressed B g2s msgs c allow m.
Proof.
  intros L. unfold VerifyCompressed. destruct (decompress B c); [|reflexivity]. unfold mbind. destruct (new1 B g m) as [[p|e|] m']; try reflexivity. apply verifyBatch_surplus. exact L.
Qed.

(** ** Text *)
Lemma text_round_trip m pk P a : pk_is m pk P -> a < length (mpk m) -> exists m', (do t <- pk_MarshalText B pk; pk_UnmarshalText B (Some a) t) m = (Ok tt, m') /\ frame none none (only a) none none m m' /\ pk_is m' (Some a) P.
Proof.
  intros H L. rewrite (mbind_ok _ _ _ _ _ (pk_MarshalText_ok OK _ _ _ H)). unfold pk_UnmarshalText. rewrite (mbind_ok _ _ m _ m (lift_ok _ _ m (dec_enc (marshal2 B P)))).
  rewrite <- (app_nil_r (marshal2 B P)). apply (pk_Unmarshal_marshal OK). exact L.
Qed.

(** ** Failing operations *)
Definition ferr {A} (x : M B A) : Prop := forall m e, fst (x m) = Err e -> ext m (snd (x m)).
Definition pres {A} (x : M B A) : Prop := forall m, ext m (snd (x m)).
Lemma ferr_bind {A C} (x : M B A) (f : A -> M B C) : pres x -> (forall a, ferr (f a)) -> ferr (mbind x f).
Proof.
  intros P K m e E. specialize (P m). unfold mbind in *. destruct (x m) as [[a|e'|] m']; cbn [fst snd] in *; try exact P. eapply ext_trans; [exact P|]. apply (K a m' e). exact E.
Qed.
Lemma pres_H {A} (x : M B A) : (forall m, H none none none none none m x (fun _ => True)) -> pres x.
Proof. intros K m. apply (K m m). apply F_refl. Qed.
Lemma pres_look {A} (l : mem -> list A) p : pres (look l p).
Proof. apply pres_H. intros m. apply H_look. Qed.
Lemma pres_lift {A} (r : res A) : pres (lift r). Proof. apply pres_H. intros m. apply H_lift. Qed.
Lemma ferr_set2 p x : ferr (set2 B p x). Proof. intros m e. unfold set2. destruct p; discriminate. Qed.
Lemma ferr_pres {A} (x : M B A) : pres x -> ferr x. Proof. intros P m e _. apply P. Qed.
Lemma apk_Aggregate_ferr a p : ferr (apk_Aggregate B a p).
Proof.
  unfold apk_Aggregate. apply ferr_bind; [apply pres_H; intros m; eapply H_true, H_pkt|intros g]. apply ferr_bind; [apply pres_H; intros m; eapply H_true, H_apk_gx|intros x].
  apply ferr_bind; [apply pres_look|intros v]. apply ferr_bind; [apply pres_look|intros w]. apply ferr_bind; [apply pres_lift|intros r]. apply ferr_set2.
Qed.
Lemma apk_AggregateBytes_ferr m a b e m' : apk_AggregateBytes B a b m = (Err e, m') -> ext m m'.
Proof.
  intros E. assert (K : ferr (apk_AggregateBytes B a b)).
  { unfold apk_AggregateBytes. intros n e' E'. unfold mbind at 1 in E'. unfold mbind at 1. destruct (newpk_ext None n) as [na [Ea [Xa [Na _]]]]. rewrite Ea in *.
    destruct (unm2 B b) as [[P r]|] eqn:U.
    - destruct (pk_Unmarshal_ok na (length (mpk n)) b P r) as [nb [Eb [Fb _]]]; [apply nth_error_Some; rewrite Na; discriminate|exact U|].
      rewrite (mbind_ok _ _ _ _ _ Eb) in *. eapply ext_trans; [|eapply apk_Aggregate_ferr; exact E']. eapply ext_freshpk; [exact Xa| |exact Fb]; lia.
    - destruct (pk_Unmarshal_err na (length (mpk n)) b) as [nb [Eb [Fb _]]]; [apply nth_error_Some; rewrite Na; discriminate|exact U|].
      rewrite (mbind_err _ _ _ _ _ Eb) in *. cbn [snd]. eapply ext_freshpk; [exact Xa| |exact Fb]; lia. }
  specialize (K m e). rewrite E in K. apply K. reflexivity.
Qed.
Lemma look_no_err {A} (l : mem -> list A) q n e n' : look l q n = (Err e, n') -> False.
Proof. unfold look, idx. destruct q as [a|]; [|discriminate]. destruct (nth_error (l n) a); discriminate. Qed.
Lemma bind_no_err {A C} (x : M B A) (f : A -> M B C) : (forall m e m', x m = (Err e, m') -> False) -> (forall a m e m', f a m = (Err e, m') -> False) -> forall m e m', mbind x f m = (Err e, m') -> False.
Proof. intros X K m e m' E. unfold mbind in E. destruct (x m) as [[a|e'|] n] eqn:Ex; [exact (K _ _ _ _ E)|exact (X _ _ _ Ex)|discriminate]. Qed.
Lemma sig_Aggregate_no_err s o : forall m e m', sig_Aggregate B s o m = (Err e, m') -> False.
Proof.
  unfold sig_Aggregate. apply bind_no_err; [apply look_no_err|intros x]. apply bind_no_err; [apply look_no_err|intros v]. apply bind_no_err; [apply look_no_err|intros y]. apply bind_no_err; [apply look_no_err|intros w].
  apply bind_no_err; [|discriminate]. intros m e m'. unfold set1. destruct x; discriminate.
Qed.
Lemma sig_AggregateBytes_ferr m s b e m' : sig_AggregateBytes B s b m = (Err e, m') -> ext m m'.
Proof.
  intros E. destruct (sig_dec (B := B) b) as [P|] eqn:D.
  - exfalso. revert E. unfold sig_AggregateBytes. destruct (newsig_ext None m) as [ma [Ea [Xa [Na _]]]]. rewrite (mbind_ok _ _ _ _ _ Ea).
    destruct (sig_Unmarshal_ok ma (length (msig m)) b P) as [mb [Eb _]]; [apply nth_error_Some; rewrite Na; discriminate|exact D|]. rewrite (mbind_ok _ _ _ _ _ Eb).
    apply bind_no_err; [apply sig_Aggregate_no_err|discriminate].
  - destruct (sig_AggregateBytes_err m s b D) as [n [En Xn]]. rewrite En in E. injection E as _ <-. exact Xn.
Qed.
Lemma assign_no_err {A} (get : ptr -> M B A) (set : ptr -> ptr -> M B unit) p P m e m' :
  (forall q n e n', get q n = (Err e, n') -> False) -> (forall q x n e n', set q x n = (Err e, n') -> False) ->
  (do _ <- get p; do x <- new1 B P; set p x) m = (Err e, m') -> False.
Proof.
  intros G S E. unfold mbind in E. destruct (get p m) as [[a|e'|] n] eqn:Eg; [|exact (G _ _ _ _ Eg)|discriminate]. cbn [new1] in E. destruct (set p _ _) as [[u|e'|] n'] eqn:Es; try discriminate. injection E as -> ->. exact (S _ _ _ _ _ Es).
Qed.
Lemma setsig_no_err q x m e m' : setsig B q x m = (Err e, m') -> False. Proof. unfold setsig. destruct q; discriminate. Qed.
Lemma setusig_no_err q x m e m' : setusig B q x m = (Err e, m') -> False. Proof. unfold setusig. destruct q; discriminate. Qed.
Ltac na G S := match goal with E : _ = (Err _, _) |- _ => exfalso; exact (assign_no_err _ _ _ _ _ _ _ G S E) end.
Lemma sig_Unmarshal_same m s b e m' : sig_Unmarshal B s b m = (Err e, m') -> m' = m.
Proof.
  intros E. unfold sig_Unmarshal in E. destruct (Nat.eqb (length b) 33); [destruct (decompress B b)|destruct (unm1 B b) as [[P r]|]]; try na (fun q n e n' => look_no_err (@msig B) q n e n') setsig_no_err; injection E as _ <-; reflexivity.
Qed.
Lemma sig_Decompress_same m s b e m' : sig_Decompress B s b m = (Err e, m') -> m' = m.
Proof. intros E. unfold sig_Decompress in E. destruct (decompress B b); try na (fun q n e n' => look_no_err (@msig B) q n e n') setsig_no_err; injection E as _ <-; reflexivity. Qed.
Lemma usig_Unmarshal_same m s b e m' : usig_Unmarshal B s b m = (Err e, m') -> m' = m.
Proof. intros E. unfold usig_Unmarshal in E. destruct (unm1 B b) as [[P r]|]; try na (fun q n e n' => look_no_err (@musig B) q n e n') setusig_no_err; injection E as _ <-; reflexivity. Qed.
Lemma usig_Decompress_same m s b e m' : usig_Decompress B s b m = (Err e, m') -> m' = m.
Proof. intros E. unfold usig_Decompress in E. destruct (decompress B b); try na (fun q n e n' => look_no_err (@musig B) q n e n') setusig_no_err; injection E as _ <-; reflexivity. Qed.

(** ** Histories *)
Lemma after_frame o m : frame (changes1 o m) (changes2 o m) (changespk o m) (changessig o) (changesusig o) m (after o m).
Proof. apply (after_F o m). Qed.
Lemma apk_is_val m apk P : apk_is m apk P <-> apk_val m apk (emb2 B P).
Proof.
  split.
  - intros [a [c [-> [H2 [c' [b [-> [H3 H4]]]]]]]]. exists b. split; [|exact H4]. exists a, c'. auto.
  - intros [b [[a [c [-> [H2 H3]]]] H4]]. exists a, (Some c). split; [reflexivity|]. split; [exact H2|]. exists c, b. auto.
Qed.
Lemma pk_of_apk_after o m apk c c' : pk_of_apk m apk c -> pk_of_apk (after o m) apk c' -> c' = c.
Proof.
  intros [a [-> E]] [a' [Ea E']]. injection Ea as <-. destruct (after_frame o m) as [_ [_ [_ [Ka _]]]]. pose proof (keep_none _ _ _ _ Ka E) as X. congruence.
Qed.
Lemma history_apk l : forall m apk v, unshared m -> (forall o, In o l -> apk_receiver o <> apk /\ forall c, pk_of_apk m apk c -> pk_receiver o <> Some c) -> apk_val m apk v -> apk_val (history l m) apk v.
Proof.
  induction l as [|o l IH]; intros m apk v U N V; cbn [history]; [exact V|].
  assert (PO : exists c, pk_of_apk m apk c) by (destruct V as [b [[a [c [-> [E _]]]] _]]; exists c, a; auto). destruct PO as [c0 PO].
  apply IH; [apply after_unshared, U| |].
  - intros o' I. destruct (N o' (or_intror I)) as [N1 N2]. split; [exact N1|]. intros c Hc. rewrite (pk_of_apk_after o m apk c0 c PO Hc). apply N2. exact PO.
  - destruct (N o (or_introl eq_refl)) as [N1 N2]. apply after_apk; assumption.
Qed.
Lemma not_embedded_after o m a : a < length (mpk m) -> (forall apk, ~ pk_of_apk m apk a) -> forall apk, ~ pk_of_apk (after o m) apk a.
Proof.
  intros L N apk [i [-> E]]. destruct (after_F o m) as [_ [_ [R _]]]. destruct (R i a E) as [E'|E']; [|lia]. apply (N (Some i)). exists i. auto.
Qed.
Lemma history_pk l : forall m a v, unshared m -> (forall apk, ~ pk_of_apk m apk a) -> (forall o, In o l -> pk_receiver o <> Some a) -> pk_val m a v -> pk_val (history l m) a v.
Proof.
  induction l as [|o l IH]; intros m a v U NE N V; cbn [history]; [exact V|].
  assert (L : a < length (mpk m)) by (destruct V as [b [E _]]; apply nth_error_Some; rewrite E; discriminate).
  apply IH; [apply after_unshared, U|apply not_embedded_after; assumption|intros o' I; apply N; right; exact I|].
  apply after_pk; [exact U|apply N; left; reflexivity| |exact V]. intros apk Hp E. exact (NE apk Hp).
Qed.
Lemma history_sig l : forall m s S, unshared m -> (forall o, In o l -> sig_receiver o <> s) -> sig_is m s S -> sig_is (history l m) s S.
Proof. induction l as [|o l IH]; intros m s S U N V; cbn [history]; [exact V|]. apply IH; [apply after_unshared, U|intros o' I; apply N; right; exact I|]. apply after_sig; auto. apply N. left. reflexivity. Qed.
Lemma history_usig l : forall m s S, unshared m -> (forall o, In o l -> usig_receiver o <> s) -> usig_is m s S -> usig_is (history l m) s S.
Proof. induction l as [|o l IH]; intros m s S U N V; cbn [history]; [exact V|]. apply IH; [apply after_unshared, U|intros o' I; apply N; right; exact I|]. apply after_usig; auto. apply N. left. reflexivity. Qed.
End More.
