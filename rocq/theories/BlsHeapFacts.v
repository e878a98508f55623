(** Which objects the BLS operations change, for all memories *)
From Coq Require Import String ZArith List Lia Bool Arith.
From Verif Require Import GoModel GoFacts HashModel Base64Model Bn BlsModel SpecBls BlsSessions BlsFacts.
Import ListNotations.
Local Open Scope nat_scope.

Section Heap.
Context {B : bn}.
Local Notation mem := (mem B).
Implicit Types m : mem.

Lemma nth_error_Some_lt {A} (l : list A) i x : nth_error l i = Some x -> i < length l.
Proof. intros E. apply nth_error_Some. rewrite E. discriminate. Qed.

Section Triple.
Context (X1 X2 Xp Xs Xu : nat -> Prop) (m0 : mem).
(** pointers that are nil or point to objects newer than m0, or into X *)
Definition fr (l : nat) (p : ptr) : Prop := forall b, p = Some b -> l <= b.
Definition F m : Prop := frame X1 X2 Xp Xs Xu m0 m /\
  (forall i b, nth_error (mpk m) i = Some (Some b) -> nth_error (mpk m0) i = Some (Some b) \/ length (m2 m0) <= b) /\
  (forall i c, nth_error (mapk m) i = Some (Some c) -> nth_error (mapk m0) i = Some (Some c) \/ length (mpk m0) <= c) /\
  (forall i b, nth_error (msig m) i = Some (Some b) -> nth_error (msig m0) i = Some (Some b) \/ length (m1 m0) <= b) /\
  (forall i b, nth_error (musig m) i = Some (Some b) -> nth_error (musig m0) i = Some (Some b) \/ length (m1 m0) <= b).
Definition H {A} (x : M B A) (Q : A -> Prop) : Prop := forall m, F m -> F (snd (x m)) /\ forall a, fst (x m) = Ok a -> Q a.
Lemma F_refl : F m0.
Proof. split; [apply frame_refl|]. repeat split; auto. Qed.
Lemma H_bind {A C} (x : M B A) (f : A -> M B C) Q S : H x Q -> (forall a, Q a -> H (f a) S) -> H (mbind x f) S.
Proof.
  intros Hx Hf m Fm. destruct (Hx m Fm) as [F' P]. unfold mbind. destruct (x m) as [[a|e|] m']; cbn [fst snd] in *.
  - apply (Hf a (P a eq_refl)). exact F'.
  - split; [exact F'|discriminate].
  - split; [exact F'|discriminate].
Qed.
Lemma H_weak {A} (x : M B A) (Q S : A -> Prop) : H x Q -> (forall a, Q a -> S a) -> H x S.
Proof. intros Hx W m Fm. destruct (Hx m Fm) as [F' P]. split; [exact F'|]. intros a E. apply W, P, E. Qed.
Lemma H_ret {A} (a : A) (Q : A -> Prop) : Q a -> H (ret a) Q.
Proof. intros q m Fm. split; [exact Fm|]. intros a' E. injection E as <-. exact q. Qed.
Lemma H_fail {A} e (Q : A -> Prop) : H (fail e) Q.
Proof. intros m Fm. split; [exact Fm|discriminate]. Qed.
Lemma H_panic {A} (Q : A -> Prop) : H (panic : M B A) Q.
Proof. intros m Fm. split; [exact Fm|discriminate]. Qed.
Lemma H_lift {A} (r : res A) : H (lift r) (fun _ => True).
Proof. intros m Fm. split; [exact Fm|auto]. Qed.
Lemma H_look {A} (l : mem -> list A) p : H (look l p) (fun _ => True).
Proof. intros m Fm. unfold look. destruct p; split; auto. Qed.
Lemma keep_snoc {A} (X : nat -> Prop) (l l' : list A) x : keep X l l' -> keep X l (l' ++ [x]).
Proof. intros K. eapply keep_trans; [exact K|apply keep_app]. Qed.
Lemma snoc_ptr (l0 l : list ptr) n x : (forall i b, nth_error l i = Some (Some b) -> nth_error l0 i = Some (Some b) \/ n <= b) -> fr n x ->
  forall i b, nth_error (l ++ [x]) i = Some (Some b) -> nth_error l0 i = Some (Some b) \/ n <= b.
Proof.
  intros K P i b E. destruct (Nat.lt_ge_cases i (length l)) as [C|C].
  - rewrite nth_error_app1 in E by exact C. apply K. exact E.
  - rewrite nth_error_app2 in E by exact C. destruct (i - length l) as [|j]; [|destruct j; discriminate]. injection E as ->. right. apply P. reflexivity.
Qed.
Lemma F_len2 m : F m -> length (m2 m0) <= length (m2 m). Proof. intros [[_ [[L _] _]] _]. exact L. Qed.
Lemma F_len1 m : F m -> length (m1 m0) <= length (m1 m). Proof. intros [[[L _] _] _]. exact L. Qed.
Lemma F_lenpk m : F m -> length (mpk m0) <= length (mpk m). Proof. intros [[_ [_ [[L _] _]]] _]. exact L. Qed.
Ltac opn := let a := fresh in let c := fresh in let d := fresh in let e := fresh in let f := fresh in let g := fresh in let k := fresh in let l := fresh in let n := fresh in let o := fresh in
  intros [[a [c [d [e [f g]]]]] [k [l [n o]]]].
Lemma H_new1 x : H (new1 B x) (fr (length (m1 m0))).
Proof.
  intros m Fm. pose proof (F_len1 m Fm) as L. split; [|intros a E b Eb; cbn in E; injection E as <-; injection Eb as <-; exact L].
  destruct Fm as [[A [C [D [E [G K]]]]] R]. split; [|exact R]. fsplit; try assumption. apply keep_snoc. exact A.
Qed.
Lemma H_new2 x : H (new2 B x) (fr (length (m2 m0))).
Proof.
  intros m Fm. pose proof (F_len2 m Fm) as L. split; [|intros a E b Eb; cbn in E; injection E as <-; injection Eb as <-; exact L].
  destruct Fm as [[A [C [D [E [G K]]]]] R]. split; [|exact R]. fsplit; try assumption. apply keep_snoc. exact C.
Qed.
Lemma H_newpk x : fr (length (m2 m0)) x -> H (newpk B x) (fr (length (mpk m0))).
Proof.
  intros P m Fm. pose proof (F_lenpk m Fm) as L. split; [|intros a E b Eb; cbn in E; injection E as <-; injection Eb as <-; exact L].
  destruct Fm as [[A [C [D [E [G K]]]]] [R1 [R2 [R3 R4]]]]. split; [fsplit; try assumption; apply keep_snoc; exact D|].
  split; [|auto]. apply snoc_ptr; assumption.
Qed.
Lemma H_newapk x : fr (length (mpk m0)) x -> H (newapk B x) (fun p => fr (length (mapk m0)) p).
Proof.
  intros P m Fm. assert (L : length (mapk m0) <= length (mapk m)) by (destruct Fm as [[_ [_ [_ [[L _] _]]]] _]; exact L).
  split; [|intros a E b Eb; cbn in E; injection E as <-; injection Eb as <-; exact L].
  destruct Fm as [[A [C [D [E [G K]]]]] [R1 [R2 [R3 R4]]]]. split; [fsplit; try assumption; apply keep_snoc; exact E|].
  split; [exact R1|]. split; [|auto]. apply snoc_ptr; assumption.
Qed.
Lemma H_newsig x : fr (length (m1 m0)) x -> H (newsig B x) (fun p => fr (length (msig m0)) p).
Proof.
  intros P m Fm. assert (L : length (msig m0) <= length (msig m)) by (destruct Fm as [[_ [_ [_ [_ [[L _] _]]]]] _]; exact L).
  split; [|intros a E b Eb; cbn in E; injection E as <-; injection Eb as <-; exact L].
  destruct Fm as [[A [C [D [E [G K]]]]] [R1 [R2 [R3 R4]]]]. split; [fsplit; try assumption; apply keep_snoc; exact G|].
  split; [exact R1|]. split; [exact R2|]. split; [|exact R4]. apply snoc_ptr; assumption.
Qed.
Lemma H_newusig x : fr (length (m1 m0)) x -> H (newusig B x) (fun p => fr (length (musig m0)) p).
Proof.
  intros P m Fm. assert (L : length (musig m0) <= length (musig m)) by (destruct Fm as [[_ [_ [_ [_ [_ [L _]]]]]] _]; exact L).
  split; [|intros a E b Eb; cbn in E; injection E as <-; injection Eb as <-; exact L].
  destruct Fm as [[A [C [D [E [G K]]]]] [R1 [R2 [R3 R4]]]]. split; [fsplit; try assumption; apply keep_snoc; exact K|].
  split; [exact R1|]. split; [exact R2|]. split; [exact R3|]. apply snoc_ptr; assumption.
Qed.
(** the pointer read from an object: new, or the one the object had in m0 *)
Lemma H_pk_gx p : H (pk_gx B p) (fun x => forall b, x = Some b -> length (m2 m0) <= b \/ exists a, p = Some a /\ nth_error (mpk m0) a = Some (Some b)).
Proof.
  intros m Fm. unfold pk_gx, look. destruct p as [a|]; cbn [fst snd]; (split; [exact Fm|]); [|discriminate]. intros x E b ->. unfold idx in E.
  destruct (nth_error (mpk m) a) as [y|] eqn:Q; [|discriminate]. injection E as ->. destruct Fm as [_ [R _]]. destruct (R a b Q) as [S|S]; [right; exists a; auto|left; exact S].
Qed.
Lemma H_apk_pk p : H (apk_pk B p) (fun x => forall c, x = Some c -> length (mpk m0) <= c \/ exists a, p = Some a /\ nth_error (mapk m0) a = Some (Some c)).
Proof.
  intros m Fm. unfold apk_pk, look. destruct p as [a|]; cbn [fst snd]; (split; [exact Fm|]); [|discriminate]. intros x E b ->. unfold idx in E.
  destruct (nth_error (mapk m) a) as [y|] eqn:Q; [|discriminate]. injection E as ->. destruct Fm as [_ [_ [R _]]]. destruct (R a b Q) as [S|S]; [right; exists a; auto|left; exact S].
Qed.
Lemma H_sig_e p : H (sig_e B p) (fun x => forall b, x = Some b -> length (m1 m0) <= b \/ exists a, p = Some a /\ nth_error (msig m0) a = Some (Some b)).
Proof.
  intros m Fm. unfold sig_e, look. destruct p as [a|]; cbn [fst snd]; (split; [exact Fm|]); [|discriminate]. intros x E b ->. unfold idx in E.
  destruct (nth_error (msig m) a) as [y|] eqn:Q; [|discriminate]. injection E as ->. destruct Fm as [_ [_ [_ [R _]]]]. destruct (R a b Q) as [S|S]; [right; exists a; auto|left; exact S].
Qed.
Lemma keep_set {A} (X : nat -> Prop) (l l' : list A) a x : keep X l l' -> length l <= a \/ X a -> keep X l (upd l' a x).
Proof.
  intros [L K] P. split; [rewrite upd_length; exact L|]. intros i Hi N. rewrite upd_other; [apply K; assumption|]. intros <-. destruct P; [lia|contradiction].
Qed.
Lemma set_ptr (l0 l : list ptr) n a x : (forall i b, nth_error l i = Some (Some b) -> nth_error l0 i = Some (Some b) \/ n <= b) -> fr n x ->
  forall i b, nth_error (upd l a x) i = Some (Some b) -> nth_error l0 i = Some (Some b) \/ n <= b.
Proof.
  intros K P i b E. destruct (Nat.eq_dec i a) as [->|N].
  - destruct (Nat.lt_ge_cases a (length l)) as [C|C].
    + rewrite upd_same in E by exact C. injection E as ->. right. apply P. reflexivity.
    + rewrite (proj2 (nth_error_None _ _)) in E by (rewrite upd_length; exact C). discriminate.
  - rewrite upd_other in E by lia. apply K. exact E.
Qed.
Lemma H_set1 p x : (forall b, p = Some b -> length (m1 m0) <= b \/ X1 b) -> H (set1 B p x) (fun _ => True).
Proof.
  intros P m Fm. unfold set1. destruct p as [b|]; cbn [fst snd]; [|split; auto]. split; [|auto].
  destruct Fm as [[A [C [D [E [G K]]]]] R]. split; [|exact R]. fsplit; try assumption. apply keep_set; auto.
Qed.
Lemma H_set2 p x : (forall b, p = Some b -> length (m2 m0) <= b \/ X2 b) -> H (set2 B p x) (fun _ => True).
Proof.
  intros P m Fm. unfold set2. destruct p as [b|]; cbn [fst snd]; [|split; auto]. split; [|auto].
  destruct Fm as [[A [C [D [E [G K]]]]] R]. split; [|exact R]. fsplit; try assumption. apply keep_set; auto.
Qed.
Lemma H_setpk p x : (forall b, p = Some b -> length (mpk m0) <= b \/ Xp b) -> fr (length (m2 m0)) x -> H (setpk B p x) (fun _ => True).
Proof.
  intros P Q m Fm. unfold setpk. destruct p as [b|]; cbn [fst snd]; [|split; auto]. split; [|auto].
  destruct Fm as [[A [C [D [E [G K]]]]] [R1 [R2 R3]]]. split; [fsplit; try assumption; apply keep_set; auto|]. split; [|auto]. apply set_ptr; assumption.
Qed.
Lemma H_setsig p x : (forall b, p = Some b -> length (msig m0) <= b \/ Xs b) -> fr (length (m1 m0)) x -> H (setsig B p x) (fun _ => True).
Proof.
  intros P Q m Fm. unfold setsig. destruct p as [b|]; cbn [fst snd]; [|split; auto]. split; [|auto].
  destruct Fm as [[A [C [D [E [G K]]]]] [R1 [R2 [R3 R4]]]]. split; [fsplit; try assumption; apply keep_set; auto|]. split; [exact R1|]. split; [exact R2|]. split; [|exact R4]. apply set_ptr; assumption.
Qed.
Lemma H_setusig p x : (forall b, p = Some b -> length (musig m0) <= b \/ Xu b) -> fr (length (m1 m0)) x -> H (setusig B p x) (fun _ => True).
Proof.
  intros P Q m Fm. unfold setusig. destruct p as [b|]; cbn [fst snd]; [|split; auto]. split; [|auto].
  destruct Fm as [[A [C [D [E [G K]]]]] [R1 [R2 [R3 R4]]]]. split; [fsplit; try assumption; apply keep_set; auto|]. split; [exact R1|]. split; [exact R2|]. split; [exact R3|]. apply set_ptr; assumption.
Qed.

(** ** The operations *)
Lemma fr_None l : fr l None. Proof. intros b E. discriminate. Qed.
Ltac st := first [apply H_look | apply H_lift | apply H_fail | apply H_panic | (apply H_ret; exact Logic.I)].
Ltac bd := eapply H_bind; [first [apply H_look | apply H_lift]|let z := fresh "zz" in intros z _].
Lemma H_GenKeyPair r : H (GenKeyPair B r) (fun _ => True).
Proof. unfold GenKeyPair. bd. eapply H_bind; [apply H_new2|intros g Fg]. eapply H_bind; [apply H_newpk; exact Fg|intros p _]. st. Qed.
Lemma H_pk_Marshal p : H (pk_Marshal B p) (fun _ => True).
Proof. unfold pk_Marshal. bd. bd. st. Qed.
Lemma H_pk_Unmarshal p data : (forall b, p = Some b -> length (mpk m0) <= b \/ Xp b) -> H (pk_Unmarshal B p data) (fun _ => True).
Proof.
  intros P. unfold pk_Unmarshal. bd. eapply H_bind; [apply H_new2|intros g Fg]. eapply H_bind; [apply H_setpk; assumption|intros u _]. destruct (unm2 B data); st.
Qed.
Lemma H_UnmarshalPk b : H (UnmarshalPk B b) (fun _ => True).
Proof.
  unfold UnmarshalPk. eapply H_bind; [apply H_newpk, fr_None|intros p Fp]. eapply H_bind; [apply H_pk_Unmarshal; intros x E; left; apply Fp, E|intros u _]. st.
Qed.
Lemma H_h1 p : H (h1 B p) (fun _ => True).
Proof. unfold h1. eapply H_bind; [apply H_pk_Marshal|intros b _]. bd. st. Qed.
Lemma H_pkt p : H (pkt B p) (fr (length (m2 m0))).
Proof. unfold pkt. eapply H_bind; [apply H_h1|intros t _]. bd. bd. bd. apply H_new2. Qed.
Lemma H_NewApk p : H (NewApk B p) (fr (length (mapk m0))).
Proof.
  unfold NewApk. destruct p; [|apply H_ret, fr_None]. eapply H_bind; [apply H_pkt|intros g Fg]. eapply H_bind; [apply H_newpk; exact Fg|intros p Fp]. apply H_newapk. exact Fp.
Qed.
Lemma H_apk_gx p : H (apk_gx B p) (fun x => forall b, x = Some b -> length (m2 m0) <= b \/ (exists a c, p = Some a /\ nth_error (mapk m0) a = Some (Some c) /\ nth_error (mpk m0) c = Some (Some b)) ).
Proof.
  unfold apk_gx. eapply H_bind; [apply H_apk_pk|]. intros x Px. eapply H_weak; [apply H_pk_gx|]. intros y Py b Eb. destruct (Py b Eb) as [L|[c [Ec Nc]]]; [left; exact L|].
  destruct (Px c Ec) as [L|[a [Ea Na]]]; [apply nth_error_Some_lt in Nc; lia|]. right. exists a, c. auto.
Qed.
Lemma H_apk_gx' p : (forall b, gx_of_apk m0 p b -> X2 b) -> H (apk_gx B p) (fun x => forall b, x = Some b -> length (m2 m0) <= b \/ X2 b).
Proof. intros W. eapply H_weak; [apply H_apk_gx|]. intros x Px b Eb. destruct (Px b Eb) as [L|E]; [left; exact L|right; apply W; exact E]. Qed.
Lemma H_apk_Aggregate a p : (forall b, gx_of_apk m0 a b -> X2 b) -> H (apk_Aggregate B a p) (fun _ => True).
Proof. intros W. unfold apk_Aggregate. eapply H_bind; [apply H_pkt|intros g Fg]. eapply H_bind; [apply H_apk_gx'; exact W|intros x Px]. bd. bd. bd. apply H_set2. exact Px. Qed.
Lemma gx_fresh a : fr (length (mapk m0)) a -> forall b, gx_of_apk m0 a b -> X2 b.
Proof. intros Fa b [i [c [Ei [Ni _]]]]. apply Fa in Ei. apply nth_error_Some_lt in Ni. lia. Qed.
Lemma H_agg_loop pks : forall a, fr (length (mapk m0)) a -> H (agg_loop B a pks) (fun _ => True).
Proof.
  induction pks as [|p pks IH]; intros a Fa; cbn [agg_loop]; [st|]. eapply H_bind; [apply H_apk_Aggregate, gx_fresh, Fa|intros u _]. apply IH. exact Fa.
Qed.
Lemma H_AggregateApk pks : H (AggregateApk B pks) (fun _ => True).
Proof. unfold AggregateApk. destruct pks as [|p pks]; [st|]. eapply H_bind; [apply H_NewApk|intros a Fa]. apply H_agg_loop. exact Fa. Qed.
Lemma H_apk_AggregateBytes a b : (forall b, gx_of_apk m0 a b -> X2 b) -> H (apk_AggregateBytes B a b) (fun _ => True).
Proof.
  intros W. unfold apk_AggregateBytes. eapply H_bind; [apply H_newpk, fr_None|intros p Fp]. eapply H_bind; [apply H_pk_Unmarshal; intros x E; left; apply Fp, E|intros u _]. apply H_apk_Aggregate. exact W.
Qed.
Lemma H_apk_Copy a : H (apk_Copy B a) (fun _ => True).
Proof.
  unfold apk_Copy. eapply H_bind; [apply H_apk_gx|intros x _]. bd. bd. eapply H_bind; [apply H_new2|intros g Fg]. eapply H_bind; [apply H_newpk; exact Fg|intros p Fp].
  eapply H_weak; [apply H_newapk; exact Fp|auto].
Qed.
Lemma H_apk_pk' p : (forall c, pk_of_apk m0 p c -> Xp c) -> H (apk_pk B p) (fun x => forall b, x = Some b -> length (mpk m0) <= b \/ Xp b).
Proof. intros W. eapply H_weak; [apply H_apk_pk|]. intros x Px b Eb. destruct (Px b Eb) as [L|[a E]]; [left; exact L|right; apply W; exists a; exact E]. Qed.
Lemma H_apk_Unmarshal a d : (forall c, pk_of_apk m0 a c -> Xp c) -> H (apk_Unmarshal B a d) (fun _ => True).
Proof. intros W. unfold apk_Unmarshal. eapply H_bind; [apply H_apk_pk'; exact W|intros x Px]. apply H_pk_Unmarshal. exact Px. Qed.
Lemma H_UnmarshalApk b : H (UnmarshalApk B b) (fun _ => True).
Proof.
  unfold UnmarshalApk. eapply H_bind; [apply H_newpk, fr_None|intros p Fp]. eapply H_bind; [apply H_newapk; exact Fp|intros a Fa].
  eapply H_bind; [apply H_apk_Unmarshal|intros u _; st]. intros c [i [Ei Ni]]. apply Fa in Ei. apply nth_error_Some_lt in Ni. lia.
Qed.
Lemma H_UnsafeSign x msg : H (UnsafeSign B x msg) (fun _ => True).
Proof. unfold UnsafeSign. bd. eapply H_bind; [apply H_new1|intros p Fp]. eapply H_weak; [apply H_newusig; exact Fp|auto]. Qed.
Lemma H_apkSigWrap p u : H (apkSigWrap B p u) (fr (length (msig m0))).
Proof. unfold apkSigWrap. eapply H_bind; [apply H_h1|intros t _]. bd. bd. eapply H_bind; [apply H_new1|intros s Fs]. apply H_newsig. exact Fs. Qed.
Lemma H_Sign x p msg : H (Sign B x p msg) (fun _ => True).
Proof. unfold Sign. eapply H_bind; [apply H_UnsafeSign|intros u _]. eapply H_weak; [apply H_apkSigWrap|auto]. Qed.
Lemma H_sig_assign s P : (forall b, s = Some b -> length (msig m0) <= b \/ Xs b) -> H (do _ <- sig_e B s; do e <- new1 B P; setsig B s e) (fun _ => True).
Proof. intros W. eapply H_bind; [apply H_sig_e|intros x _]. eapply H_bind; [apply H_new1|intros e Fe]. apply H_setsig; assumption. Qed.
Lemma H_sig_Decompress s b : (forall b, s = Some b -> length (msig m0) <= b \/ Xs b) -> H (sig_Decompress B s b) (fun _ => True).
Proof. intros W. unfold sig_Decompress. destruct (decompress B b); [apply H_sig_assign; exact W|st]. Qed.
Lemma H_sig_Unmarshal s b : (forall b, s = Some b -> length (msig m0) <= b \/ Xs b) -> H (sig_Unmarshal B s b) (fun _ => True).
Proof.
  intros W. unfold sig_Unmarshal. destruct (Nat.eqb (length b) 33); [destruct (decompress B b)|destruct (unm1 B b) as [[P r]|]]; try (apply H_sig_assign; exact W); st.
Qed.
Lemma H_UnmarshalSignature b : H (UnmarshalSignature B b) (fun _ => True).
Proof. unfold UnmarshalSignature. eapply H_bind; [apply H_newsig, fr_None|intros s Fs]. eapply H_bind; [apply H_sig_Unmarshal; intros x E; left; apply Fs, E|intros u _]. st. Qed.
Lemma H_sig_Marshal s : H (sig_Marshal B s) (fun _ => True).
Proof. unfold sig_Marshal. bd. bd. st. Qed.
Lemma H_sig_Compress s : H (sig_Compress B s) (fun _ => True).
Proof. unfold sig_Compress. bd. bd. st. Qed.
Lemma H_sig_Copy s : H (sig_Copy B s) (fun _ => True).
Proof.
  unfold sig_Copy. eapply H_bind; [apply H_sig_Marshal|intros b _]. destruct (unm1 B b) as [[P r]|]; [|st]. eapply H_bind; [apply H_new1|intros e Fe]. eapply H_weak; [apply H_newsig; exact Fe|auto].
Qed.
Lemma H_sig_Aggregate s o : (forall b, e_of_sig m0 s b -> X1 b) -> H (sig_Aggregate B s o) (fun _ => True).
Proof.
  intros W. unfold sig_Aggregate. eapply H_bind; [apply H_sig_e|intros x Px]. bd. eapply H_bind; [apply H_sig_e|intros y _]. bd.
  eapply H_bind; [apply H_set1|intros u _; st]. intros b Eb. destruct (Px b Eb) as [L|[a E]]; [left; exact L|right; apply W; exists a; exact E].
Qed.
Lemma H_sig_Add s p u : (forall b, e_of_sig m0 s b -> X1 b) -> H (sig_Add B s p u) (fun _ => True).
Proof. intros W. unfold sig_Add. eapply H_bind; [apply H_apkSigWrap|intros o _]. eapply H_bind; [apply H_sig_Aggregate; exact W|intros x _]. st. Qed.
Lemma H_sig_AggregateBytes s b : (forall b, e_of_sig m0 s b -> X1 b) -> H (sig_AggregateBytes B s b) (fun _ => True).
Proof.
  intros W. unfold sig_AggregateBytes. eapply H_bind; [apply H_newsig, fr_None|intros o Fo]. eapply H_bind; [apply H_sig_Unmarshal; intros x E; left; apply Fo, E|intros u _].
  eapply H_bind; [apply H_sig_Aggregate; exact W|intros x _]. st.
Qed.
Lemma H_usig_assign s P : (forall b, s = Some b -> length (musig m0) <= b \/ Xu b) -> H (do _ <- usig_e B s; do e <- new1 B P; setusig B s e) (fun _ => True).
Proof. intros W. bd. eapply H_bind; [apply H_new1|intros e Fe]. apply H_setusig; assumption. Qed.
Lemma H_usig_Decompress s b : (forall b, s = Some b -> length (musig m0) <= b \/ Xu b) -> H (usig_Decompress B s b) (fun _ => True).
Proof. intros W. unfold usig_Decompress. destruct (decompress B b); [apply H_usig_assign; exact W|st]. Qed.
Lemma H_usig_Unmarshal s b : (forall b, s = Some b -> length (musig m0) <= b \/ Xu b) -> H (usig_Unmarshal B s b) (fun _ => True).
Proof. intros W. unfold usig_Unmarshal. destruct (unm1 B b) as [[P r]|]; [apply H_usig_assign; exact W|st]. Qed.
Lemma H_usig_Marshal s : H (usig_Marshal B s) (fun _ => True).
Proof. unfold usig_Marshal. bd. bd. st. Qed.
Lemma H_usig_Compress s : H (usig_Compress B s) (fun _ => True).
Proof. unfold usig_Compress. bd. bd. st. Qed.
Lemma H_UnsafeAggregate u v : H (UnsafeAggregate B u v) (fun _ => True).
Proof. unfold UnsafeAggregate. bd. bd. bd. bd. eapply H_bind; [apply H_new1|intros e Fe]. eapply H_weak; [apply H_newusig; exact Fe|auto]. Qed.
Lemma H_UnsafeBatch l : H (UnsafeBatch B l) (fun _ => True).
Proof.
  unfold UnsafeBatch. destruct l as [|s l]; [st|]. revert s. induction l as [|u l IH]; intros s; cbn [batch_loop]; [st|]. eapply H_bind; [apply H_UnsafeAggregate|intros x _]. apply IH.
Qed.
Lemma H_verify p msg s : H (verify B p msg s) (fun _ => True).
Proof. unfold verify. bd. bd. bd. bd. bd. cbv zeta. destruct (bytes_eqb _ _); [st|]. destruct (orb _ _); st. Qed.
Lemma H_mfor {S} (body : nat -> S -> M B S) : (forall i s, H (body i s) (fun _ => True)) -> forall cnt lo s, H (mfor lo cnt body s) (fun _ => True).
Proof. intros W. induction cnt as [|cnt IH]; intros lo s; cbn [mfor]; [st|]. eapply H_bind; [apply W|intros x _]. apply IH. Qed.
Lemma H_verifyBatch l ms s a : H (verifyBatch B l ms s a) (fun _ => True).
Proof.
  unfold verifyBatch. destruct (andb _ _); [st|]. eapply H_bind.
  - apply H_mfor. intros i acc. unfold batch_body. bd. bd. bd. bd. bd. destruct acc; st.
  - intros acc _. bd. bd. destruct acc; [|st]. destruct (bytes_eqb _ _); st.
Qed.
Lemma H_mmap {A C} (f : A -> M B C) : (forall x, H (f x) (fun _ => True)) -> forall l, H (mmap f l) (fun _ => True).
Proof. intros W. induction l as [|x l IH]; cbn [mmap]; [st|]. eapply H_bind; [apply W|intros y _]. eapply H_bind; [apply IH|intros r _]. st. Qed.
Lemma H_true {A} (x : M B A) Q : H x Q -> H x (fun _ => True).
Proof. intros K. eapply H_weak; [exact K|auto]. Qed.
Lemma H_Verify a msg s : H (Verify B a msg s) (fun _ => True).
Proof. unfold Verify. eapply H_bind; [apply H_apk_gx|intros x _]. bd. apply H_verify. Qed.
Lemma H_VerifyBatch l ms s : H (VerifyBatch B l ms s) (fun _ => True).
Proof. unfold VerifyBatch. destruct (negb _); [st|]. eapply H_bind; [apply H_mmap; intros x; eapply H_true, H_apk_gx|intros x _]. bd. apply H_verifyBatch. Qed.
Lemma H_VerifyUnsafeBatch l ms s : H (VerifyUnsafeBatch B l ms s) (fun _ => True).
Proof. unfold VerifyUnsafeBatch. eapply H_bind; [apply H_mmap; intros x; apply H_look|intros x _]. bd. apply H_verifyBatch. Qed.
Lemma H_VerifyUnsafe p msg s : H (VerifyUnsafe B p msg s) (fun _ => True).
Proof. unfold VerifyUnsafe. bd. bd. apply H_verify. Qed.
Lemma H_VerifyCompressed l ms b a : H (VerifyCompressed B l ms b a) (fun _ => True).
Proof. unfold VerifyCompressed. destruct (decompress B b); [|st]. eapply H_bind; [apply H_new1|intros e _]. apply H_verifyBatch. Qed.
Lemma H_pk_Aggregate p p' : H (pk_Aggregate B p p') (fun _ => True).
Proof. unfold pk_Aggregate. bd. bd. bd. bd. bd. eapply H_bind; [apply H_new2|intros g Fg]. eapply H_true, H_newpk. exact Fg. Qed.
Lemma H_pk_MarshalText p : H (pk_MarshalText B p) (fun _ => True).
Proof. unfold pk_MarshalText. eapply H_bind; [apply H_pk_Marshal|intros b _]. st. Qed.
Lemma H_pk_UnmarshalText p d : (forall b, p = Some b -> length (mpk m0) <= b \/ Xp b) -> H (pk_UnmarshalText B p d) (fun _ => True).
Proof. intros W. unfold pk_UnmarshalText. bd. apply H_pk_Unmarshal. exact W. Qed.
Lemma H_void {A} (x : M B A) Q : H x Q -> H (void x) (fun _ => True).
Proof. intros K. unfold void. eapply H_bind; [exact K|intros a _]. st. Qed.
End Triple.

Lemma after_F (o : op) m : F (changes1 o m) (changes2 o m) (changespk o m) (changessig o) (changesusig o) m (after o m).
Proof.
  assert (K : H (changes1 o m) (changes2 o m) (changespk o m) (changessig o) (changesusig o) m (call o) (fun _ => True)).
  { destruct o; cbn [call changes1 changes2 changespk changessig changesusig];
      try (eapply H_void; first [apply H_GenKeyPair | apply H_UnmarshalPk | apply H_NewApk | apply H_apk_Copy | apply H_UnmarshalApk | apply H_AggregateApk
        | apply H_Sign | apply H_UnmarshalSignature | apply H_sig_Copy | apply H_sig_Compress | apply H_sig_Marshal | apply H_UnsafeSign | apply H_usig_Compress | apply H_usig_Marshal
        | apply H_UnsafeAggregate | apply H_UnsafeBatch | apply H_pk_Aggregate | apply H_pk_MarshalText | apply H_pk_Marshal]; fail).
    - apply H_apk_Aggregate; auto.
    - apply H_apk_AggregateBytes; auto.
    - apply H_sig_Add; auto.
    - apply H_sig_AggregateBytes; auto.
    - eapply H_void, H_sig_Aggregate; auto.
    - apply H_sig_Decompress. intros x E. right. exact E.
    - apply H_sig_Unmarshal. intros x E. right. exact E.
    - apply H_Verify.
    - apply H_VerifyBatch.
    - apply H_usig_Decompress. intros x E. right. exact E.
    - apply H_usig_Unmarshal. intros x E. right. exact E.
    - apply H_VerifyUnsafeBatch.
    - apply H_VerifyUnsafe.
    - apply H_VerifyCompressed.
    - apply H_pk_UnmarshalText. intros x E. right. exact E.
    - apply H_pk_Unmarshal. intros x E. right. exact E.
    - eapply H_void. unfold apk_MarshalText. eapply H_bind; [apply H_look|intros x _; apply H_pk_MarshalText].
    - unfold apk_UnmarshalText. eapply H_bind; [apply H_apk_pk'; auto|intros x Px]. apply H_pk_UnmarshalText. exact Px.
    - eapply H_void. unfold apk_Marshal. eapply H_bind; [apply H_look|intros x _; apply H_pk_Marshal].
    - apply H_apk_Unmarshal; auto. }
  apply (K m). apply F_refl.
Qed.
End Heap.
