(** No operation makes two BLS objects share a part; objects keep their value until they are receivers *)
From Coq Require Import String ZArith List Lia Bool Arith.
From Verif Require Import GoModel GoFacts HashModel Base64Model Bn BlsModel SpecBls BlsSessions BlsFacts BlsHeapFacts.
Import ListNotations.
Local Open Scope nat_scope.

Section Sep.
Context {B : bn}.
Local Notation mem := (mem B).
Implicit Types m : mem.
Definition unused (l : list ptr) (b : nat) : Prop := forall i, nth_error l i <> Some (Some b).
Definition top (_ : mem) : Prop := True.
Definition free1 (p : ptr) m : Prop := forall b, p = Some b -> (unused (msig m) b /\ unused (musig m) b) /\ b < length (m1 m).
Definition free2 (p : ptr) m : Prop := forall b, p = Some b -> unused (mpk m) b /\ b < length (m2 m).
Definition freepk (p : ptr) m : Prop := forall b, p = Some b -> unused (mapk m) b /\ b < length (mpk m).
Definition T {A} (P : mem -> Prop) (x : M B A) (Q : A -> mem -> Prop) : Prop :=
  forall m, unshared m -> P m -> unshared (snd (x m)) /\ forall a, fst (x m) = Ok a -> Q a (snd (x m)).
Definition tt_ {A} (_ : A) := top.
Lemma T_bind {A C} P (x : M B A) (f : A -> M B C) Q S : T P x Q -> (forall a, T (Q a) (f a) S) -> T P (mbind x f) S.
Proof.
  intros Hx Hf m U Pm. destruct (Hx m U Pm) as [F' R]. unfold mbind. destruct (x m) as [[a|e|] m']; cbn [fst snd] in *.
  - apply (Hf a); auto.
  - split; [exact F'|discriminate].
  - split; [exact F'|discriminate].
Qed.
Lemma T_top {A} P (x : M B A) Q : T top x Q -> T P x Q.
Proof. intros K m U _. apply K; [exact U|exact Logic.I]. Qed.
Lemma T_weak {A} P (x : M B A) Q : T P x Q -> T P x tt_.
Proof. intros K m U Pm. split; [apply K; assumption|]. intros; exact Logic.I. Qed.
Lemma T_ret {A} P (a : A) : T P (ret a) tt_.
Proof. intros m U _. split; [exact U|]. intros; exact Logic.I. Qed.
Lemma T_retfree P : T P (ret None) (fun p m => freepk p m).
Proof. intros m U _. split; [exact U|]. intros a E. injection E as <-. intros b E. discriminate. Qed.
Lemma T_fail {A} P e : T P (fail e : M B A) tt_.
Proof. intros m U _. split; [exact U|discriminate]. Qed.
Lemma T_panic {A} P : T P (panic : M B A) tt_.
Proof. intros m U _. split; [exact U|discriminate]. Qed.
Lemma T_lift {A} P (r : res A) : T P (lift r) tt_.
Proof. intros m U _. split; [exact U|]. intros; exact Logic.I. Qed.
Lemma T_look {A} P (l : mem -> list A) p : T P (look l p) tt_.
Proof. intros m U _. unfold look. destruct p; split; try exact U; intros; exact Logic.I. Qed.
Lemma within_weak n k l : n <= k -> within n l -> within k l.
Proof. intros L W i b E. specialize (W i b E). lia. Qed.
Lemma within_unused n l : within n l -> unused l n.
Proof. intros W i E. specialize (W i n E). lia. Qed.
Lemma snoc_cases {A} (l : list A) x i y : nth_error (l ++ [x]) i = Some y -> nth_error l i = Some y \/ (i = length l /\ x = y).
Proof.
  intros E. destruct (Nat.lt_ge_cases i (length l)) as [C|C].
  - rewrite nth_error_app1 in E by exact C. left. exact E.
  - rewrite nth_error_app2 in E by exact C. destruct (i - length l) as [|k] eqn:D; [|destruct k; discriminate]. injection E as ->. right. split; [lia|reflexivity].
Qed.
Lemma upd_cases {A} (l : list A) a x i y : nth_error (upd l a x) i = Some y -> nth_error l i = Some y /\ i <> a \/ (i = a /\ x = y).
Proof.
  intros E. destruct (Nat.eq_dec i a) as [->|N].
  - destruct (Nat.lt_ge_cases a (length l)) as [C|C].
    + rewrite upd_same in E by exact C. injection E as ->. right. auto.
    + rewrite (proj2 (nth_error_None _ _)) in E by (rewrite upd_length; exact C). discriminate.
  - rewrite upd_other in E by lia. left. auto.
Qed.
Lemma inj_snoc l x : inj l -> (forall b, x = Some b -> unused l b) -> inj (l ++ [x]).
Proof.
  intros J W i j b Ei Ej. destruct (snoc_cases _ _ _ _ Ei) as [Ei'|[-> ->]]; destruct (snoc_cases _ _ _ _ Ej) as [Ej'|[-> Ex]]; auto.
  - exact (J i j b Ei' Ej').
  - destruct (W b Ex i Ei').
  - destruct (W b eq_refl j Ej').
Qed.
Lemma within_snoc n l x : within n l -> (forall b, x = Some b -> b < n) -> within n (l ++ [x]).
Proof. intros W K i b E. destruct (snoc_cases _ _ _ _ E) as [E'|[_ E']]; [exact (W i b E')|exact (K b E')]. Qed.
Lemma inj_upd l a x : inj l -> (forall b, x = Some b -> unused l b) -> inj (upd l a x).
Proof.
  intros J W i j b Ei Ej. destruct (upd_cases _ _ _ _ _ Ei) as [[Ei' _]|[-> ->]]; destruct (upd_cases _ _ _ _ _ Ej) as [[Ej' _]|[-> Ex]]; auto.
  - exact (J i j b Ei' Ej').
  - destruct (W b Ex i Ei').
  - destruct (W b eq_refl j Ej').
Qed.
Lemma within_upd n l a x : within n l -> (forall b, x = Some b -> b < n) -> within n (upd l a x).
Proof. intros W K i b E. destruct (upd_cases _ _ _ _ _ E) as [[E' _]|[_ E']]; [exact (W i b E')|exact (K b E')]. Qed.
Ltac usplit := split; [split|split; [split|split; [split|split; [split|]]]]; cbn [m1 m2 mpk mapk msig musig].
Ltac ud U := destruct U as [[Jp Wp] [[Ja Wa] [[Js Ws] [[Ju Wu] D]]]].
Lemma T_new1 x : T top (new1 B x) free1.
Proof.
  intros m U _. cbn [new1 fst snd]. ud U. split.
  - usplit; auto; eapply within_weak; [|eassumption| |eassumption]; rewrite app_length; lia.
  - intros a E b Eb. injection E as <-. injection Eb as <-. cbn [m1 msig musig]. repeat split; try (apply within_unused; assumption). rewrite app_length. cbn. lia.
Qed.
Lemma T_new2 x : T top (new2 B x) free2.
Proof.
  intros m U _. cbn [new2 fst snd]. ud U. split.
  - usplit; auto; eapply within_weak; [|eassumption]; rewrite app_length; lia.
  - intros a E b Eb. injection E as <-. injection Eb as <-. cbn [m2 mpk]. repeat split; try (apply within_unused; assumption). rewrite app_length. cbn. lia.
Qed.
Lemma T_newpk x : T (free2 x) (newpk B x) freepk.
Proof.
  intros m U P. cbn [newpk fst snd]. ud U. split.
  - usplit; auto.
    + apply inj_snoc; [assumption|]. intros b E. apply (P b E).
    + apply within_snoc; [assumption|]. intros b E. apply (P b E).
    + eapply within_weak; [|eassumption]; rewrite app_length; lia.
  - intros a E b Eb. injection E as <-. injection Eb as <-. cbn [mpk mapk]. split; [apply within_unused; assumption|]. rewrite app_length. cbn. lia.
Qed.
Lemma free2_None m : free2 None m. Proof. intros b E. discriminate. Qed.
Lemma free1_None m : free1 None m. Proof. intros b E. discriminate. Qed.
Lemma T_newpk_None P : T P (newpk B None) freepk.
Proof. intros m U _. apply T_newpk; [exact U|apply free2_None]. Qed.
Lemma T_newapk x : T (freepk x) (newapk B x) tt_.
Proof.
  intros m U P. cbn [newapk fst snd]. ud U. split; [|intros; exact Logic.I]. usplit; auto.
  - apply inj_snoc; [assumption|]. intros b E. apply (P b E).
  - apply within_snoc; [assumption|]. intros b E. apply (P b E).
Qed.
Lemma T_newsig x : T (free1 x) (newsig B x) tt_.
Proof.
  intros m U P. cbn [newsig fst snd]. ud U. split; [|intros; exact Logic.I]. usplit; auto.
  - apply inj_snoc; [assumption|]. intros b E. apply (P b E).
  - apply within_snoc; [assumption|]. intros b E. apply (P b E).
  - intros i j b E E'. destruct (snoc_cases _ _ _ _ E) as [X|[_ X]]; [exact (D i j b X E')|]. destruct (P b X) as [[_ K] _]. exact (K j E').
Qed.
Lemma T_newsig_None P : T P (newsig B None) tt_.
Proof. intros m U _. apply T_newsig; [exact U|apply free1_None]. Qed.
Lemma T_newusig x : T (free1 x) (newusig B x) tt_.
Proof.
  intros m U P. cbn [newusig fst snd]. ud U. split; [|intros; exact Logic.I]. usplit; auto.
  - apply inj_snoc; [assumption|]. intros b E. apply (P b E).
  - apply within_snoc; [assumption|]. intros b E. apply (P b E).
  - intros i j b E E'. destruct (snoc_cases _ _ _ _ E') as [X|[_ X]]; [exact (D i j b E X)|]. destruct (P b X) as [[K _] _]. exact (K i E).
Qed.
Lemma T_set1 P p x : T P (set1 B p x) tt_.
Proof.
  intros m U _. split; [|intros; exact Logic.I]. unfold set1. destruct p as [a|]; cbn [fst snd]; [|exact U]. ud U. usplit; auto; rewrite upd_length; assumption.
Qed.
Lemma T_set2 P p x : T P (set2 B p x) tt_.
Proof.
  intros m U _. split; [|intros; exact Logic.I]. unfold set2. destruct p as [a|]; cbn [fst snd]; [|exact U]. ud U. usplit; auto; rewrite upd_length; assumption.
Qed.
Lemma T_setpk p x : T (free2 x) (setpk B p x) tt_.
Proof.
  intros m U P. split; [|intros; exact Logic.I]. unfold setpk. destruct p as [a|]; cbn [fst snd]; [|exact U]. ud U. usplit; auto.
  - apply inj_upd; [assumption|]. intros b E. apply (P b E).
  - apply within_upd; [assumption|]. intros b E. apply (P b E).
  - rewrite upd_length. assumption.
Qed.
Lemma T_setsig p x : T (free1 x) (setsig B p x) tt_.
Proof.
  intros m U P. split; [|intros; exact Logic.I]. unfold setsig. destruct p as [a|]; cbn [fst snd]; [|exact U]. ud U. usplit; auto.
  - apply inj_upd; [assumption|]. intros b E. apply (P b E).
  - apply within_upd; [assumption|]. intros b E. apply (P b E).
  - intros i j b E E'. destruct (upd_cases _ _ _ _ _ E) as [[X _]|[_ X]]; [exact (D i j b X E')|]. destruct (P b X) as [[_ K] _]. exact (K j E').
Qed.
Lemma T_setusig p x : T (free1 x) (setusig B p x) tt_.
Proof.
  intros m U P. split; [|intros; exact Logic.I]. unfold setusig. destruct p as [a|]; cbn [fst snd]; [|exact U]. ud U. usplit; auto.
  - apply inj_upd; [assumption|]. intros b E. apply (P b E).
  - apply within_upd; [assumption|]. intros b E. apply (P b E).
  - intros i j b E E'. destruct (upd_cases _ _ _ _ _ E') as [[X _]|[_ X]]; [exact (D i j b E X)|]. destruct (P b X) as [[K _] _]. exact (K i E).
Qed.

(** ** The operations *)
Ltac st := first [apply T_look | apply T_lift | apply T_fail | apply T_panic | apply T_ret].
Ltac bd := eapply T_bind; [first [apply T_look | apply T_lift]|let z := fresh "zz" in intros z].
Ltac nw L := eapply T_bind; [first [apply L | apply T_top, L]|let z := fresh "zz" in intros z].
Lemma T_GenKeyPair P r : T P (GenKeyPair B r) tt_.
Proof. unfold GenKeyPair. bd. nw T_new2. nw T_newpk. st. Qed.
Lemma T_pk_Marshal P p : T P (pk_Marshal B p) tt_.
Proof. unfold pk_Marshal. bd. bd. st. Qed.
Lemma T_pk_Unmarshal P p data : T P (pk_Unmarshal B p data) tt_.
Proof. unfold pk_Unmarshal. bd. nw T_new2. nw T_setpk. destruct (unm2 B data); st. Qed.
Lemma T_UnmarshalPk P b : T P (UnmarshalPk B b) tt_.
Proof. unfold UnmarshalPk. nw T_newpk_None. nw T_pk_Unmarshal. st. Qed.
Lemma T_h1 P p : T P (h1 B p) tt_.
Proof. unfold h1. nw T_pk_Marshal. bd. st. Qed.
Lemma T_pkt P p : T P (pkt B p) free2.
Proof. unfold pkt. nw T_h1. bd. bd. bd. apply T_top, T_new2. Qed.
Lemma T_NewApk P p : T P (NewApk B p) tt_.
Proof. unfold NewApk. destruct p; [|st]. nw T_pkt. nw T_newpk. apply T_newapk. Qed.
Lemma T_apk_gx P p : T P (apk_gx B p) tt_.
Proof. unfold apk_gx. bd. st. Qed.
Lemma T_apk_Aggregate P a p : T P (apk_Aggregate B a p) tt_.
Proof. unfold apk_Aggregate. nw T_pkt. nw T_apk_gx. bd. bd. bd. apply T_set2. Qed.
Lemma T_agg_loop pks : forall P a, T P (agg_loop B a pks) tt_.
Proof. induction pks as [|p pks IH]; intros P a; cbn [agg_loop]; [st|]. nw T_apk_Aggregate. apply IH. Qed.
Lemma T_AggregateApk P pks : T P (AggregateApk B pks) tt_.
Proof. unfold AggregateApk. destruct pks as [|p pks]; [st|]. nw T_NewApk. apply T_agg_loop. Qed.
Lemma T_apk_AggregateBytes P a b : T P (apk_AggregateBytes B a b) tt_.
Proof. unfold apk_AggregateBytes. nw T_newpk_None. nw T_pk_Unmarshal. apply T_apk_Aggregate. Qed.
Lemma T_apk_Copy P a : T P (apk_Copy B a) tt_.
Proof. unfold apk_Copy. nw T_apk_gx. bd. bd. nw T_new2. nw T_newpk. apply T_newapk. Qed.
Lemma T_apk_Unmarshal P a d : T P (apk_Unmarshal B a d) tt_.
Proof. unfold apk_Unmarshal. bd. apply T_pk_Unmarshal. Qed.
Lemma T_UnmarshalApk P b : T P (UnmarshalApk B b) tt_.
Proof. unfold UnmarshalApk. nw T_newpk_None. nw T_newapk. nw T_apk_Unmarshal. st. Qed.
Lemma T_UnsafeSign P x msg : T P (UnsafeSign B x msg) tt_.
Proof. unfold UnsafeSign. bd. nw T_new1. apply T_newusig. Qed.
Lemma T_apkSigWrap P p u : T P (apkSigWrap B p u) tt_.
Proof. unfold apkSigWrap. nw T_h1. bd. bd. nw T_new1. apply T_newsig. Qed.
Lemma T_Sign P x p msg : T P (Sign B x p msg) tt_.
Proof. unfold Sign. nw T_UnsafeSign. apply T_apkSigWrap. Qed.
Lemma T_sig_Decompress P s b : T P (sig_Decompress B s b) tt_.
Proof. unfold sig_Decompress. destruct (decompress B b); [|st]. bd. nw T_new1. apply T_setsig. Qed.
Lemma T_sig_Unmarshal P s b : T P (sig_Unmarshal B s b) tt_.
Proof.
  unfold sig_Unmarshal. destruct (Nat.eqb (length b) 33); [destruct (decompress B b)|destruct (unm1 B b) as [[S r]|]]; try st; (bd; nw T_new1; apply T_setsig).
Qed.
Lemma T_UnmarshalSignature P b : T P (UnmarshalSignature B b) tt_.
Proof. unfold UnmarshalSignature. nw T_newsig_None. nw T_sig_Unmarshal. st. Qed.
Lemma T_sig_Marshal P s : T P (sig_Marshal B s) tt_.
Proof. unfold sig_Marshal. bd. bd. st. Qed.
Lemma T_sig_Compress P s : T P (sig_Compress B s) tt_.
Proof. unfold sig_Compress. bd. bd. st. Qed.
Lemma T_sig_Copy P s : T P (sig_Copy B s) tt_.
Proof. unfold sig_Copy. nw T_sig_Marshal. destruct (unm1 B _) as [[S r]|]; [|st]. nw T_new1. apply T_newsig. Qed.
Lemma T_sig_Aggregate P s o : T P (sig_Aggregate B s o) tt_.
Proof. unfold sig_Aggregate. bd. bd. bd. bd. nw T_set1. st. Qed.
Lemma T_sig_Add P s p u : T P (sig_Add B s p u) tt_.
Proof. unfold sig_Add. nw T_apkSigWrap. nw T_sig_Aggregate. st. Qed.
Lemma T_sig_AggregateBytes P s b : T P (sig_AggregateBytes B s b) tt_.
Proof. unfold sig_AggregateBytes. nw T_newsig_None. nw T_sig_Unmarshal. nw T_sig_Aggregate. st. Qed.
Lemma T_usig_Decompress P s b : T P (usig_Decompress B s b) tt_.
Proof. unfold usig_Decompress. destruct (decompress B b); [|st]. bd. nw T_new1. apply T_setusig. Qed.
Lemma T_usig_Unmarshal P s b : T P (usig_Unmarshal B s b) tt_.
Proof. unfold usig_Unmarshal. destruct (unm1 B b) as [[S r]|]; [|st]. bd. nw T_new1. apply T_setusig. Qed.
Lemma T_usig_Marshal P s : T P (usig_Marshal B s) tt_.
Proof. unfold usig_Marshal. bd. bd. st. Qed.
Lemma T_usig_Compress P s : T P (usig_Compress B s) tt_.
Proof. unfold usig_Compress. bd. bd. st. Qed.
Lemma T_UnsafeAggregate P u v : T P (UnsafeAggregate B u v) tt_.
Proof. unfold UnsafeAggregate. bd. bd. bd. bd. nw T_new1. apply T_newusig. Qed.
Lemma T_UnsafeBatch P l : T P (UnsafeBatch B l) tt_.
Proof.
  unfold UnsafeBatch. destruct l as [|s l]; [st|]. revert P s. induction l as [|u l IH]; intros P s; cbn [batch_loop]; [st|]. nw T_UnsafeAggregate. apply IH.
Qed.
Lemma T_verify P p msg s : T P (verify B p msg s) tt_.
Proof. unfold verify. bd. bd. bd. bd. bd. cbv zeta. destruct (bytes_eqb _ _); [st|]. destruct (orb _ _); st. Qed.
Lemma T_mfor {S} (body : nat -> S -> M B S) : (forall P i s, T P (body i s) tt_) -> forall cnt P lo s, T P (mfor lo cnt body s) tt_.
Proof. intros W. induction cnt as [|cnt IH]; intros P lo s; cbn [mfor]; [st|]. nw W. apply IH. Qed.
Lemma T_batch_body l ms : forall P i s, T P (batch_body B l ms i s) tt_.
Proof. intros P i acc. unfold batch_body. bd. bd. bd. bd. bd. destruct acc; st. Qed.
Lemma T_verifyBatch P l ms s a : T P (verifyBatch B l ms s a) tt_.
Proof.
  unfold verifyBatch. destruct (andb _ _); [st|]. eapply T_bind; [apply T_mfor; intros; unfold batch_body; bd; bd; bd; bd; bd; destruct s0; st|intros acc].
  bd. bd. destruct acc; [|st]. destruct (bytes_eqb _ _); st.
Qed.
Lemma T_mmap {A C} (f : A -> M B C) : (forall P x, T P (f x) tt_) -> forall l P, T P (mmap f l) tt_.
Proof. intros W. induction l as [|x l IH]; intros P; cbn [mmap]; [st|]. nw W. nw IH. st. Qed.
Lemma T_Verify P a msg s : T P (Verify B a msg s) tt_.
Proof. unfold Verify. nw T_apk_gx. bd. apply T_verify. Qed.
Lemma T_VerifyBatch P l ms s : T P (VerifyBatch B l ms s) tt_.
Proof. unfold VerifyBatch. destruct (negb _); [st|]. eapply T_bind; [apply T_mmap, T_apk_gx|intros x]. bd. apply T_verifyBatch. Qed.
Lemma T_VerifyUnsafeBatch P l ms s : T P (VerifyUnsafeBatch B l ms s) tt_.
Proof. unfold VerifyUnsafeBatch. eapply T_bind; [apply T_mmap; intros; apply T_look|intros x]. bd. apply T_verifyBatch. Qed.
Lemma T_VerifyUnsafe P p msg s : T P (VerifyUnsafe B p msg s) tt_.
Proof. unfold VerifyUnsafe. bd. bd. apply T_verify. Qed.
Lemma T_VerifyCompressed P l ms b a : T P (VerifyCompressed B l ms b a) tt_.
Proof. unfold VerifyCompressed. destruct (decompress B b); [|st]. nw T_new1. apply T_verifyBatch. Qed.
Lemma T_pk_Aggregate P p p' : T P (pk_Aggregate B p p') tt_.
Proof. unfold pk_Aggregate. bd. bd. bd. bd. bd. nw T_new2. eapply T_weak, T_newpk. Qed.
Lemma T_pk_MarshalText P p : T P (pk_MarshalText B p) tt_.
Proof. unfold pk_MarshalText. nw T_pk_Marshal. st. Qed.
Lemma T_pk_UnmarshalText P p d : T P (pk_UnmarshalText B p d) tt_.
Proof. unfold pk_UnmarshalText. bd. apply T_pk_Unmarshal. Qed.
Lemma T_void {A} P (x : M B A) Q : T P x Q -> T P (void x) tt_.
Proof. intros K. unfold void. eapply T_bind; [exact K|intros a]. st. Qed.

Lemma after_unshared o m : unshared m -> unshared (after o m).
Proof.
  intros U. assert (K : T top (call o) tt_).
  { destruct o; cbn [call]; try (eapply T_void);
     first [apply T_GenKeyPair | apply T_UnmarshalPk | apply T_NewApk | apply T_apk_Copy | apply T_UnmarshalApk | apply T_AggregateApk | apply T_apk_Aggregate | apply T_apk_AggregateBytes
        | apply T_Sign | apply T_UnmarshalSignature | apply T_sig_Copy | apply T_sig_Add | apply T_sig_AggregateBytes | apply T_sig_Aggregate | apply T_sig_Compress | apply T_sig_Decompress
        | apply T_sig_Marshal | apply T_sig_Unmarshal | apply T_Verify | apply T_VerifyBatch | apply T_UnsafeSign | apply T_usig_Compress | apply T_usig_Decompress | apply T_usig_Marshal | apply T_usig_Unmarshal
        | apply T_UnsafeAggregate | apply T_UnsafeBatch | apply T_VerifyUnsafeBatch | apply T_VerifyUnsafe | apply T_VerifyCompressed | apply T_pk_Aggregate | apply T_pk_MarshalText | apply T_pk_UnmarshalText
        | apply T_pk_Marshal | apply T_pk_Unmarshal | apply T_apk_Unmarshal
        | (unfold apk_MarshalText; bd; apply T_pk_MarshalText) | (unfold apk_UnmarshalText; bd; apply T_pk_UnmarshalText) | (unfold apk_Marshal; bd; apply T_pk_Marshal)]. }
  apply (K m U Logic.I).
Qed.
Lemma mem0_unshared : unshared (B := B) mem0.
Proof. usplit; intros i; destruct i; discriminate. Qed.
Lemma history_unshared l : forall m, unshared m -> unshared (history l m).
Proof. induction l as [|o l IH]; intros m U; cbn [history]; [exact U|]. apply IH, after_unshared, U. Qed.

(** ** Objects keep their value *)
Lemma after_apk o m apk v : unshared m -> apk_receiver o <> apk -> (forall c, pk_of_apk m apk c -> pk_receiver o <> Some c) ->
  (exists b, gx_of_apk m apk b /\ nth_error (m2 m) b = Some v) -> exists b, gx_of_apk (after o m) apk b /\ nth_error (m2 (after o m)) b = Some v.
Proof.
  intros U N1 N2 [b [[a [c [-> [Ea Ec]]]] Eb]]. destruct (after_F o m) as [[_ [K2 [Kp [Ka _]]]] _]. ud U.
  exists b. split.
  - exists a, c. split; [reflexivity|]. split; [apply (keep_none _ _ _ _ Ka Ea)|]. apply (keep_at _ _ _ _ _ Kp); [|exact Ec].
    intros X. assert (pk_of_apk m (Some a) c) as PO by (exists a; auto). specialize (N2 c PO).
    destruct o; cbn [changespk] in X; try contradiction; cbn [apk_receiver pk_receiver] in *; try (unfold obj in X; congruence); destruct X as [i [-> Ei]]; rewrite (Ja i a c Ei Ea) in N1; congruence.
  - apply (keep_at _ _ _ _ _ K2); [|exact Eb].
    intros X. destruct o; cbn [changes2] in X; try contradiction; cbn [apk_receiver] in *; destruct X as [i [c' [-> [Ei Ei']]]]; rewrite (Jp c' c b Ei' Ec) in Ei; rewrite (Ja i a c Ei Ea) in N1; congruence.
Qed.
Lemma after_pk o m a v : unshared m -> pk_receiver o <> Some a -> (forall apk, pk_of_apk m apk a -> apk_receiver o <> apk) ->
  (exists b, nth_error (mpk m) a = Some (Some b) /\ nth_error (m2 m) b = Some v) -> exists b, nth_error (mpk (after o m)) a = Some (Some b) /\ nth_error (m2 (after o m)) b = Some v.
Proof.
  intros U N1 N2 [b [Ec Eb]]. destruct (after_F o m) as [[_ [K2 [Kp [Ka _]]]] _]. ud U.
  exists b. split.
  - apply (keep_at _ _ _ _ _ Kp); [|exact Ec].
    intros X. destruct o; cbn [changespk] in X; try contradiction; cbn [apk_receiver pk_receiver] in *; try (unfold obj in X; congruence); apply (N2 _ X); reflexivity.
  - apply (keep_at _ _ _ _ _ K2); [|exact Eb].
    intros X. destruct o; cbn [changes2] in X; try contradiction; cbn [apk_receiver] in *; destruct X as [i [c' [-> [Ei Ei']]]]; rewrite (Jp c' a b Ei' Ec) in Ei; apply (N2 (Some i)); (reflexivity || (exists i; auto)).
Qed.
Lemma after_sig o m s S : unshared m -> sig_receiver o <> s -> sig_is m s S -> sig_is (after o m) s S.
Proof.
  intros U N [a [b [-> [Ea Eb]]]]. destruct (after_F o m) as [[K1 [_ [_ [_ [Ks Ku]]]]] _]. ud U.
  exists a, b. split; [reflexivity|]. split.
  - apply (keep_at _ _ _ _ _ Ks); [|exact Ea]. intros X. destruct o; cbn [changessig] in X; try contradiction; unfold obj in X; cbn [sig_receiver] in N; congruence.
  - apply (keep_at _ _ _ _ _ K1); [|exact Eb]. intros X. destruct o; cbn [changes1] in X; try contradiction; cbn [sig_receiver] in N; destruct X as [i [-> Ei]]; rewrite (Js i a b Ei Ea) in N; congruence.
Qed.
Lemma after_usig o m u S : unshared m -> usig_receiver o <> u -> usig_is m u S -> usig_is (after o m) u S.
Proof.
  intros U N [a [b [-> [Ea Eb]]]]. destruct (after_F o m) as [[K1 [_ [_ [_ [Ks Ku]]]]] _]. ud U.
  exists a, b. split; [reflexivity|]. split.
  - apply (keep_at _ _ _ _ _ Ku); [|exact Ea]. intros X. destruct o; cbn [changesusig] in X; try contradiction; unfold obj in X; cbn [usig_receiver] in N; congruence.
  - apply (keep_at _ _ _ _ _ K1); [|exact Eb]. intros X. destruct o; cbn [changes1] in X; try contradiction; destruct X as [i [-> Ei]]; destruct (D i a b Ei Ea).
Qed.
End Sep.
