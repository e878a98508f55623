(** Facts about the BLS model *)
From Coq Require Import String ZArith List Lia Bool Arith Znumtheory Permutation.
From Verif Require Import GoModel GoFacts HashModel Base64Model Bn BlsModel SpecBls.
Import ListNotations.
Local Open Scope nat_scope.

(** ** The monad *)
Lemma mbind_ok {B A C} (x : M B A) (f : A -> M B C) m a m' : x m = (Ok a, m') -> mbind x f m = f a m'.
Proof. intros E. unfold mbind. rewrite E. reflexivity. Qed.
Lemma mbind_err {B A C} (x : M B A) (f : A -> M B C) m e m' : x m = (Err e, m') -> mbind x f m = (Err e, m').
Proof. intros E. unfold mbind. rewrite E. reflexivity. Qed.
Lemma mbind_panic {B A C} (x : M B A) (f : A -> M B C) m m' : x m = (Panic, m') -> mbind x f m = (Panic, m').
Proof. intros E. unfold mbind. rewrite E. reflexivity. Qed.
Lemma look_ok {B A} (l : mem B -> list A) a v m : nth_error (l m) a = Some v -> look l (Some a) m = (Ok v, m).
Proof. intros E. unfold look, idx. rewrite E. reflexivity. Qed.
Lemma lift_ok {B A} (r : res A) a (m : mem B) : r = Ok a -> lift r m = (Ok a, m).
Proof. intros ->. reflexivity. Qed.

Ltac fsplit := split; [|split; [|split; [|split; [|split]]]].

(** ** Frames *)
Section Frames.
Context {B : bn}.
Lemma keep_refl {A} X (l : list A) : keep X l l.
Proof. split; auto. Qed.
Lemma keep_app {A} X (l x : list A) : keep X l (l ++ x).
Proof. split; [rewrite app_length; lia|]. intros i Hi _. apply nth_error_app1. exact Hi. Qed.
Lemma keep_trans {A} X (l l' l'' : list A) : keep X l l' -> keep X l' l'' -> keep X l l''.
Proof. intros [L H] [L' H']. split; [lia|]. intros i Hi N. rewrite H' by (auto; lia). auto. Qed.
Lemma keep_weak {A} (X Y : nat -> Prop) (l l' : list A) : (forall i, X i -> Y i) -> keep X l l' -> keep Y l l'.
Proof. intros S [L H]. split; [exact L|]. intros i Hi N. apply H; auto. Qed.
Lemma keep_upd {A} a (l : list A) x : keep (only a) l (upd l a x).
Proof. split; [rewrite upd_length; lia|]. intros i Hi N. apply upd_other. unfold only in N. lia. Qed.
Lemma keep_none {A} (l l' : list A) i v : keep none l l' -> nth_error l i = Some v -> nth_error l' i = Some v.
Proof. intros [L H] E. rewrite H; [exact E| |intros []]. apply nth_error_Some. rewrite E. discriminate. Qed.
Lemma keep_at {A} X (l l' : list A) i v : keep X l l' -> ~ X i -> nth_error l i = Some v -> nth_error l' i = Some v.
Proof. intros [L H] N E. rewrite H; [exact E| |exact N]. apply nth_error_Some. rewrite E. discriminate. Qed.

Lemma frame_trans X1 X2 Xp Xs Xu (m m' m'' : mem B) : frame X1 X2 Xp Xs Xu m m' -> frame X1 X2 Xp Xs Xu m' m'' -> frame X1 X2 Xp Xs Xu m m''.
Proof. intros [A [C [D [E [F G]]]]] [A' [C' [D' [E' [F' G']]]]]. fsplit; eapply keep_trans; eassumption. Qed.
Lemma frame_refl X1 X2 Xp Xs Xu (m : mem B) : frame X1 X2 Xp Xs Xu m m.
Proof. fsplit; apply keep_refl. Qed.
Lemma frame_weak (X1 X2 Xp Xs Xu Y1 Y2 Yp Ys Yu : nat -> Prop) (m m' : mem B) :
  (forall i, X1 i -> Y1 i) -> (forall i, X2 i -> Y2 i) -> (forall i, Xp i -> Yp i) -> (forall i, Xs i -> Ys i) -> (forall i, Xu i -> Yu i) ->
  frame X1 X2 Xp Xs Xu m m' -> frame Y1 Y2 Yp Ys Yu m m'.
Proof. intros H1 H2 H3 H4 H5 [A [C [D [E [F G]]]]]. fsplit; try (eapply keep_weak; eassumption). exact E. Qed.
Lemma ext_frame X1 X2 Xp Xs Xu (m m' : mem B) : ext m m' -> frame X1 X2 Xp Xs Xu m m'.
Proof. apply frame_weak; intros i []. Qed.
Lemma ext_refl (m : mem B) : ext m m. Proof. apply frame_refl. Qed.
Lemma ext_trans (m m' m'' : mem B) : ext m m' -> ext m' m'' -> ext m m''. Proof. apply frame_trans. Qed.

Lemma new1_ext x (m : mem B) : exists m', new1 B x m = (Ok (Some (length (m1 m))), m') /\ ext m m' /\ nth_error (m1 m') (length (m1 m)) = Some x /\
  m2 m' = m2 m /\ mpk m' = mpk m /\ mapk m' = mapk m /\ msig m' = msig m /\ musig m' = musig m.
Proof. eexists. split; [reflexivity|]. split; [fsplit; apply keep_refl || apply keep_app|]. cbn. split; [rewrite nth_error_app2, Nat.sub_diag by lia; reflexivity|]. repeat split. Qed.
Lemma new2_ext x (m : mem B) : exists m', new2 B x m = (Ok (Some (length (m2 m))), m') /\ ext m m' /\ nth_error (m2 m') (length (m2 m)) = Some x /\
  m1 m' = m1 m /\ mpk m' = mpk m /\ mapk m' = mapk m /\ msig m' = msig m /\ musig m' = musig m.
Proof. eexists. split; [reflexivity|]. split; [fsplit; apply keep_refl || apply keep_app|]. cbn. split; [rewrite nth_error_app2, Nat.sub_diag by lia; reflexivity|]. repeat split. Qed.
Lemma newpk_ext x (m : mem B) : exists m', newpk B x m = (Ok (Some (length (mpk m))), m') /\ ext m m' /\ nth_error (mpk m') (length (mpk m)) = Some x /\
  m1 m' = m1 m /\ m2 m' = m2 m /\ mapk m' = mapk m /\ msig m' = msig m /\ musig m' = musig m.
Proof. eexists. split; [reflexivity|]. split; [fsplit; apply keep_refl || apply keep_app|]. cbn. split; [rewrite nth_error_app2, Nat.sub_diag by lia; reflexivity|]. repeat split. Qed.
Lemma newapk_ext x (m : mem B) : exists m', newapk B x m = (Ok (Some (length (mapk m))), m') /\ ext m m' /\ nth_error (mapk m') (length (mapk m)) = Some x /\
  m1 m' = m1 m /\ m2 m' = m2 m /\ mpk m' = mpk m /\ msig m' = msig m /\ musig m' = musig m.
Proof. eexists. split; [reflexivity|]. split; [fsplit; apply keep_refl || apply keep_app|]. cbn. split; [rewrite nth_error_app2, Nat.sub_diag by lia; reflexivity|]. repeat split. Qed.
Lemma newsig_ext x (m : mem B) : exists m', newsig B x m = (Ok (Some (length (msig m))), m') /\ ext m m' /\ nth_error (msig m') (length (msig m)) = Some x /\
  m1 m' = m1 m /\ m2 m' = m2 m /\ mpk m' = mpk m /\ mapk m' = mapk m /\ musig m' = musig m.
Proof. eexists. split; [reflexivity|]. split; [fsplit; apply keep_refl || apply keep_app|]. cbn. split; [rewrite nth_error_app2, Nat.sub_diag by lia; reflexivity|]. repeat split. Qed.
Lemma newusig_ext x (m : mem B) : exists m', newusig B x m = (Ok (Some (length (musig m))), m') /\ ext m m' /\ nth_error (musig m') (length (musig m)) = Some x /\
  m1 m' = m1 m /\ m2 m' = m2 m /\ mpk m' = mpk m /\ mapk m' = mapk m /\ msig m' = msig m.
Proof. eexists. split; [reflexivity|]. split; [fsplit; apply keep_refl || apply keep_app|]. cbn. split; [rewrite nth_error_app2, Nat.sub_diag by lia; reflexivity|]. repeat split. Qed.

Lemma ext1 (m m' : mem B) i v : ext m m' -> nth_error (m1 m) i = Some v -> nth_error (m1 m') i = Some v.
Proof. intros [A _]. apply keep_none. exact A. Qed.
Lemma ext2 (m m' : mem B) i v : ext m m' -> nth_error (m2 m) i = Some v -> nth_error (m2 m') i = Some v.
Proof. intros [_ [A _]]. apply keep_none. exact A. Qed.
Lemma extpk (m m' : mem B) i v : ext m m' -> nth_error (mpk m) i = Some v -> nth_error (mpk m') i = Some v.
Proof. intros [_ [_ [A _]]]. apply keep_none. exact A. Qed.
Lemma extapk (m m' : mem B) i v : ext m m' -> nth_error (mapk m) i = Some v -> nth_error (mapk m') i = Some v.
Proof. intros [_ [_ [_ [A _]]]]. apply keep_none. exact A. Qed.
Lemma extsig (m m' : mem B) i v : ext m m' -> nth_error (msig m) i = Some v -> nth_error (msig m') i = Some v.
Proof. intros [_ [_ [_ [_ [A _]]]]]. apply keep_none. exact A. Qed.
Lemma extusig (m m' : mem B) i v : ext m m' -> nth_error (musig m) i = Some v -> nth_error (musig m') i = Some v.
Proof. intros [_ [_ [_ [_ [_ A]]]]]. apply keep_none. exact A. Qed.
Lemma pk_is_ext (m m' : mem B) p P : ext m m' -> pk_is m p P -> pk_is m' p P.
Proof. intros E [a [b [H1 [H2 H3]]]]. exists a, b. split; [exact H1|]. split; [apply (extpk m); assumption|apply (ext2 m); assumption]. Qed.
Lemma apk_is_ext (m m' : mem B) p P : ext m m' -> apk_is m p P -> apk_is m' p P.
Proof. intros E [a [b [H1 [H2 H3]]]]. exists a, b. split; [exact H1|]. split; [apply (extapk m); assumption|apply (pk_is_ext m); assumption]. Qed.
Lemma sig_is_ext (m m' : mem B) p P : ext m m' -> sig_is m p P -> sig_is m' p P.
Proof. intros E [a [b [H1 [H2 H3]]]]. exists a, b. split; [exact H1|]. split; [apply (extsig m); assumption|apply (ext1 m); assumption]. Qed.
Lemma usig_is_ext (m m' : mem B) p P : ext m m' -> usig_is m p P -> usig_is m' p P.
Proof. intros E [a [b [H1 [H2 H3]]]]. exists a, b. split; [exact H1|]. split; [apply (extusig m); assumption|apply (ext1 m); assumption]. Qed.
Lemma g2_is_ext (m m' : mem B) p P : ext m m' -> g2_is m p P -> g2_is m' p P.
Proof. intros E [b [H1 H2]]. exists b. split; [exact H1|]. apply (ext2 m); assumption. Qed.
End Frames.

(** ** Exponents *)
Section Exp.
Context {B : bn} (OK : bn_ok B).
Local Notation q := (ord B).
Local Notation valid := (valid (B := B)).
Local Notation hm := (hm (B := B)).
Local Notation G1 k := (mul1 B k (gen1 B)).
Local Notation G2 k := (mul2 B k (gen2 B)).
Local Open Scope Z_scope.
Lemma g2Base_gen : g2Base B = Ok (gen2 B).
Proof. destruct (g2Base_ok B OK) as [b [E U]]. unfold g2Base. rewrite E. cbn [bind]. rewrite U. reflexivity. Qed.
Lemma valid_exp b msg s : valid (G2 b) msg (G1 s) <-> (q | hm msg * b - s).
Proof. unfold valid. rewrite <- (mul2_1 B OK) at 2. rewrite !(pair_gen B OK). rewrite (expt_eq B OK). rewrite Z.mul_1_r. reflexivity. Qed.
Lemma valid_unique P msg S S' : valid P msg S -> valid P msg S' -> S = S'.
Proof.
  destruct (cyc2 B OK P) as [b ->], (cyc1 B OK S) as [s ->], (cyc1 B OK S') as [s' ->]. rewrite !valid_exp. intros H H'.
  apply (mul1_eq B OK). replace (s - s') with ((hm msg * b - s') - (hm msg * b - s)) by ring. apply Z.divide_sub_r; assumption.
Qed.
Lemma valid_exists P msg : exists S, valid P msg S.
Proof. destruct (cyc2 B OK P) as [b ->]. exists (G1 (hm msg * b)). apply valid_exp. rewrite Z.sub_diag. apply Z.divide_0_r. Qed.
Lemma valid_key P P' msg S : ~ (q | hm msg) -> valid P msg S -> valid P' msg S -> P = P'.
Proof.
  destruct (cyc2 B OK P) as [b ->], (cyc2 B OK P') as [b' ->], (cyc1 B OK S) as [s ->]. rewrite !valid_exp. intros N H H'.
  apply (mul2_eq B OK). assert (D : (q | hm msg * (b - b'))).
  { replace (hm msg * (b - b')) with ((hm msg * b - s) - (hm msg * b' - s)) by ring. apply Z.divide_sub_r; assumption. }
  apply (prime_mult _ (ord_prime B OK)) in D. destruct D as [D|D]; [contradiction|exact D].
Qed.
Lemma mul1_mul k l P : mul1 B k (mul1 B l P) = mul1 B (k * l) P.
Proof. destruct (cyc1 B OK P) as [a ->]. rewrite !(mul1_gen B OK). f_equal. ring. Qed.
Lemma mul2_mul k l P : mul2 B k (mul2 B l P) = mul2 B (k * l) P.
Proof. destruct (cyc2 B OK P) as [a ->]. rewrite !(mul2_gen B OK). f_equal. ring. Qed.
Lemma add1_comm P Q : add1 B P Q = add1 B Q P.
Proof. destruct (cyc1 B OK P) as [a ->], (cyc1 B OK Q) as [b ->]. rewrite !(add1_gen B OK). f_equal. ring. Qed.
Lemma add1_assoc P Q S : add1 B P (add1 B Q S) = add1 B (add1 B P Q) S.
Proof. destruct (cyc1 B OK P) as [a ->], (cyc1 B OK Q) as [b ->], (cyc1 B OK S) as [c ->]. rewrite !(add1_gen B OK). f_equal. ring. Qed.
Lemma add1_0 P : add1 B P (G1 0) = P.
Proof. destruct (cyc1 B OK P) as [a ->]. rewrite !(add1_gen B OK). f_equal. ring. Qed.
Lemma add2_comm P Q : add2 B P Q = add2 B Q P.
Proof. destruct (cyc2 B OK P) as [a ->], (cyc2 B OK Q) as [b ->]. rewrite !(add2_gen B OK). f_equal. ring. Qed.
Lemma add2_assoc P Q S : add2 B P (add2 B Q S) = add2 B (add2 B P Q) S.
Proof. destruct (cyc2 B OK P) as [a ->], (cyc2 B OK Q) as [b ->], (cyc2 B OK S) as [c ->]. rewrite !(add2_gen B OK). f_equal. ring. Qed.
Lemma add2_0 P : add2 B P (G2 0) = P.
Proof. destruct (cyc2 B OK P) as [a ->]. rewrite !(add2_gen B OK). f_equal. ring. Qed.
Lemma sum1_perm l l' : Permutation l l' -> sum1 (B := B) l = sum1 l'.
Proof.
  unfold sum1. induction 1; cbn; [reflexivity|f_equal; assumption| |etransitivity; eassumption].
  rewrite !add1_assoc. rewrite (add1_comm y x). reflexivity.
Qed.
Lemma sum2_perm l l' : Permutation l l' -> sum2 (B := B) l = sum2 l'.
Proof.
  unfold sum2. induction 1; cbn; [reflexivity|f_equal; assumption| |etransitivity; eassumption].
  rewrite !add2_assoc. rewrite (add2_comm y x). reflexivity.
Qed.
(** sums of valid signatures on one message are valid for the sum of the keys *)
Lemma valid_add P P' msg S S' : valid P msg S -> valid P' msg S' -> valid (add2 B P P') msg (add1 B S S').
Proof.
  destruct (cyc2 B OK P) as [b ->], (cyc2 B OK P') as [b' ->], (cyc1 B OK S) as [s ->], (cyc1 B OK S') as [s' ->]. rewrite (add1_gen B OK), (add2_gen B OK), !valid_exp.
  intros H H'. replace (hm msg * (b + b') - (s + s')) with ((hm msg * b - s) + (hm msg * b' - s')) by ring. apply Z.divide_add_r; assumption.
Qed.
Lemma valid_mul k P msg S : valid P msg S -> valid (mul2 B k P) msg (mul1 B k S).
Proof.
  destruct (cyc2 B OK P) as [b ->], (cyc1 B OK S) as [s ->]. rewrite (mul1_gen B OK), (mul2_gen B OK), !valid_exp. intros H.
  replace (hm msg * (k * b) - k * s) with (k * (hm msg * b - s)) by ring. apply Z.divide_mul_r. exact H.
Qed.
Lemma valid_0 msg : valid (G2 0) msg (G1 0).
Proof. apply valid_exp. replace (hm msg * 0 - 0) with 0 by ring. apply Z.divide_0_r. Qed.
Lemma usig_valid x msg : valid (G2 x) msg (usig_of x msg).
Proof. unfold usig_of. rewrite (mul1_gen B OK). apply valid_exp. replace (hm msg * x - x * hm msg) with 0 by ring. apply Z.divide_0_r. Qed.
Lemma sig_valid x msg : valid (mul2 B (ht (G2 x)) (G2 x)) msg (sig_of x (G2 x) msg).
Proof. unfold sig_of. apply valid_mul. apply usig_valid. Qed.
Lemma forge_valid P msg msg' S k : valid P msg S -> (q | k * hm msg - 1) -> valid P msg' (mul1 B (hm msg' * k) S).
Proof.
  destruct (cyc2 B OK P) as [b ->], (cyc1 B OK S) as [s ->]. rewrite (mul1_gen B OK), !valid_exp. intros H D.
  replace (hm msg' * b - hm msg' * k * s) with ((hm msg' * k) * (hm msg * b - s) + (- hm msg' * b) * (k * hm msg - 1)) by ring.
  apply Z.divide_add_r; apply Z.divide_mul_r; assumption.
Qed.
Lemma inverse_exists a : ~ (q | a) -> exists k, (q | k * a - 1).
Proof.
  intros N. destruct (rel_prime_bezout a q) as [u v E].
  - apply rel_prime_sym, prime_rel_prime; [apply (ord_prime B OK)|exact N].
  - exists u. exists (- v). replace (u * a) with (1 - v * q) by lia. ring.
Qed.
End Exp.
