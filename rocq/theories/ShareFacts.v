(** Facts about BLS objects that share memory *)
From Coq Require Import String ZArith List Lia Arith.
From Verif Require Import GoModel GoFacts HashModel Bn BlsModel SpecBls BlsSessions BlsFacts BlsOps BlsProps ShareModel.
Import ListNotations.
Local Open Scope nat_scope.

Section Share.
Context {B : bn} (OK : bn_ok B).
Implicit Types m : mem B.

(** two signatures in one cell have one value *)
Lemma sig_cell_other m m' s c b S S' : sig_cell m s b S -> sig_cell m c b S -> frame (only b) none none none none m m' -> sig_cell m' s b S' -> sig_cell m' c b S'.
Proof.
  intros _ [a [-> [H2 H3]]] [_ [_ [_ [_ [F _]]]]] [a' [_ [_ V]]]. exists a. split; [reflexivity|]. split; [|exact V].
  eapply keep_none; eassumption.
Qed.
Lemma sig_star_ok m s b S : sig_cell m s b S -> exists c m', sig_star B s m = (Ok c, m') /\ ext m m' /\ c = Some (length (msig m)) /\ c <> s /\ sig_cell m' s b S /\ sig_cell m' c b S.
Proof.
  intros H. unfold sig_star. rewrite (mbind_ok _ _ _ _ _ (sig_e_ok _ _ _ _ H)). destruct (newsig_ext (Some b) m) as [m' [E [X [N [Q _]]]]].
  exists (Some (length (msig m))), m'. split; [exact E|]. split; [exact X|]. split; [reflexivity|]. split; [|split; [exact (sig_cell_ext _ _ _ _ _ X H)|]].
  - destruct H as [a [-> [H2 _]]]. intros Y. injection Y as Y. assert (a < length (msig m)) by (apply nth_error_Some; rewrite H2; discriminate). lia.
  - destruct H as [a [-> [_ H3]]]. exists (length (msig m)). split; [reflexivity|]. split; [exact N|]. rewrite Q. exact H3.
Qed.
Lemma sig_share m s S o T : sig_is m s S -> sig_is m o T -> exists c m1 m2, sig_star B s m = (Ok c, m1) /\ c <> s /\ sig_is m1 c S /\ sig_is m1 s S /\
  sig_Aggregate B s o m1 = (Ok s, m2) /\ sig_is m2 s (add1 B S T) /\ sig_is m2 c (add1 B S T).
Proof.
  intros HS HT. destruct (sig_is_cell _ _ _ HS) as [b C]. destruct (sig_star_ok _ _ _ _ C) as [c [m1 [E1 [X [_ [N [C1 C2]]]]]]].
  destruct (sig_Aggregate_ok m1 s b S o T C1 (sig_is_ext _ _ _ _ X HT)) as [m2 [E2 [F D]]].
  exists c, m1, m2. split; [exact E1|]. split; [exact N|]. split; [eapply sig_cell_is; exact C2|]. split; [eapply sig_cell_is; exact C1|]. split; [exact E2|]. split; [eapply sig_cell_is; exact D|].
  eapply sig_cell_is. eapply sig_cell_other; [exact C1|exact C2|exact F|exact D].
Qed.
Lemma sig_share_back m s S o T : sig_is m s S -> sig_is m o T -> exists c m1 m2, sig_star B s m = (Ok c, m1) /\ c <> s /\
  sig_Aggregate B c o m1 = (Ok c, m2) /\ sig_is m2 s (add1 B S T) /\ sig_is m2 c (add1 B S T).
Proof.
  intros HS HT. destruct (sig_is_cell _ _ _ HS) as [b C]. destruct (sig_star_ok _ _ _ _ C) as [c [m1 [E1 [X [_ [N [C1 C2]]]]]]].
  destruct (sig_Aggregate_ok m1 c b S o T C2 (sig_is_ext _ _ _ _ X HT)) as [m2 [E2 [F D]]].
  exists c, m1, m2. split; [exact E1|]. split; [exact N|]. split; [exact E2|]. split; [|eapply sig_cell_is; exact D].
  eapply sig_cell_is. eapply sig_cell_other; [exact C2|exact C1|exact F|exact D].
Qed.
(** Unmarshal gives the receiver an element of its own *)
Lemma sig_share_unmarshal m s S data T : sig_is m s S -> sig_dec data = Some T -> exists c m1 m2, sig_star B s m = (Ok c, m1) /\
  sig_Unmarshal B c data m1 = (Ok tt, m2) /\ sig_is m2 c T /\ sig_is m2 s S.
Proof.
  intros HS D. destruct (sig_is_cell _ _ _ HS) as [b C]. destruct (sig_star_ok _ _ _ _ C) as [c [m1 [E1 [X [Ec [N [C1 C2]]]]]]].
  subst c. destruct (sig_Unmarshal_ok m1 (length (msig m)) data T) as [m2 [E2 [F2 D2]]]; [|exact D|].
  - destruct C2 as [a [Y [H2 _]]]. injection Y as <-. apply nth_error_Some. rewrite H2. discriminate.
  - exists (Some (length (msig m))), m1, m2. split; [exact E1|]. split; [exact E2|]. split; [exact D2|].
    destruct C1 as [a [-> [H2 H3]]]. destruct F2 as [F1 [_ [_ [_ [F5 _]]]]]. exists a, b. split; [reflexivity|]. split; [|eapply keep_none; eassumption].
    eapply keep_at; [exact F5| |exact H2]. unfold only. intros ->. apply N. reflexivity.
Qed.

(** the literal holds the key itself *)
Lemma apk_literal_ok m pk P : pk_is m pk P -> exists apk m', apk_literal B pk m = (Ok apk, m') /\ ext m m' /\ nth_error (mapk m') (length (mapk m)) = Some pk /\ apk = Some (length (mapk m)) /\ apk_is m' apk P.
Proof.
  intros H. unfold apk_literal. destruct (newapk_ext pk m) as [m' [E [X [N _]]]]. exists (Some (length (mapk m))), m'. split; [exact E|]. split; [exact X|]. split; [exact N|]. split; [reflexivity|].
  exists (length (mapk m)), pk. split; [reflexivity|]. split; [exact N|]. eapply pk_is_ext; eassumption.
Qed.
Lemma apk_share m pk P q Q : pk_is m pk P -> pk_is m q Q -> exists apk m1 m2, apk_literal B pk m = (Ok apk, m1) /\ apk_is m1 apk P /\
  apk_Aggregate B apk q m1 = (Ok tt, m2) /\ apk_is m2 apk (add2 B P (mul2 B (ht Q) Q)) /\ pk_is m2 pk (add2 B P (mul2 B (ht Q) Q)).
Proof.
  intros HP HQ. destruct (apk_literal_ok _ _ _ HP) as [apk [m1 [E1 [X [N [-> A]]]]]]. destruct (apk_is_cell _ _ _ A) as [b C].
  destruct (apk_Aggregate_ok OK m1 _ b P q Q C (pk_is_ext _ _ _ _ X HQ)) as [m2 [E2 [F D]]].
  exists (Some (length (mapk m))), m1, m2. split; [exact E1|]. split; [exact A|]. split; [exact E2|]. split; [eapply apk_cell_is; exact D|].
  destruct D as [a [c [Y [H2 [H3 H4]]]]]. injection Y as <-. destruct F as [_ [_ [_ [FA _]]]].
  assert (Some c = pk) as <-. { rewrite (keep_none _ _ _ _ FA N) in H2. injection H2 as ->. reflexivity. }
  exists c, b. auto.
Qed.
(** Unmarshal of the key changes the literal, but not a copied struct *)
Lemma apk_share_unmarshal m pk P data Q r : pk_is m pk P -> unm2 B data = Some (Q, r) -> exists apk m1 m2, apk_literal B pk m = (Ok apk, m1) /\
  pk_Unmarshal B pk data m1 = (Ok tt, m2) /\ pk_is m2 pk Q /\ apk_is m2 apk Q.
Proof.
  intros HP D. destruct (apk_literal_ok _ _ _ HP) as [apk [m1 [E1 [X [N [-> A]]]]]]. pose proof (pk_is_ext _ _ _ _ X HP) as [a [b [-> [H2 H3]]]].
  destruct (pk_Unmarshal_ok m1 a data Q r) as [m2 [E2 [F2 [D2 _]]]]; [apply nth_error_Some; rewrite H2; discriminate|exact D|].
  exists (Some (length (mapk m))), m1, m2. split; [exact E1|]. split; [exact E2|]. split; [exact D2|].
  exists (length (mapk m)), (Some a). split; [reflexivity|]. split; [|exact D2]. destruct F2 as [_ [_ [_ [FA _]]]]. exact (keep_none _ _ _ _ FA N).
Qed.
Lemma pk_star_unmarshal m pk P data Q r : pk_is m pk P -> unm2 B data = Some (Q, r) -> exists c m1 m2, pk_star B pk m = (Ok c, m1) /\ pk_is m1 c P /\
  pk_Unmarshal B pk data m1 = (Ok tt, m2) /\ pk_is m2 pk Q /\ pk_is m2 c P.
Proof.
  intros [a [b [-> [H2 H3]]]] D. unfold pk_star. rewrite (mbind_ok _ _ _ _ _ (pk_gx_ok _ _ _ H2)). destruct (newpk_ext (Some b) m) as [m1 [E1 [X [N [_ [Q2 _]]]]]].
  assert (La : a < length (mpk m)) by (apply nth_error_Some; rewrite H2; discriminate).
  destruct (pk_Unmarshal_ok m1 a data Q r) as [m2 [E2 [F2 [D2 _]]]]; [apply nth_error_Some; rewrite (extpk _ _ _ _ X H2); discriminate|exact D|].
  assert (H3' : nth_error (BlsModel.m2 m1) b = Some (emb2 B P)) by (rewrite Q2; exact H3).
  exists (Some (length (mpk m))), m1, m2. split; [exact E1|]. split; [exists (length (mpk m)), b; auto|]. split; [exact E2|]. split; [exact D2|].
  destruct F2 as [_ [G2 [G3 _]]]. exists (length (mpk m)), b. split; [reflexivity|]. split; [eapply keep_at; [exact G3| |exact N]; unfold only; lia|eapply keep_none; eassumption].
Qed.
(** a copied Apk holds the same key *)
Lemma apk_star_ok m apk P : apk_is m apk P -> exists a p c m', apk = Some a /\ apk_star B apk m = (Ok c, m') /\ ext m m' /\ c <> apk /\
  nth_error (mapk m') a = Some p /\ c = Some (length (mapk m)) /\ nth_error (mapk m') (length (mapk m)) = Some p /\ pk_is m' p P.
Proof.
  intros [a [p [-> [H2 H3]]]]. unfold apk_star. rewrite (mbind_ok _ _ _ _ _ (look_ok (fun m => mapk m) a _ m H2 : apk_pk B (Some a) m = _)).
  destruct (newapk_ext p m) as [m' [E [X [N _]]]]. exists a, p, (Some (length (mapk m))), m'. split; [reflexivity|]. split; [exact E|]. split; [exact X|]. split.
  { intros Y. injection Y as Y. assert (a < length (mapk m)) by (apply nth_error_Some; rewrite H2; discriminate). lia. }
  split; [|split; [reflexivity|split; [exact N|eapply pk_is_ext; eassumption]]]. destruct X as [_ [_ [_ [FA _]]]]. exact (keep_none _ _ _ _ FA H2).
Qed.
Lemma apk_star_unmarshal m apk P data Q r : apk_is m apk P -> unm2 B data = Some (Q, r) -> exists c m1 m2, apk_star B apk m = (Ok c, m1) /\ c <> apk /\
  apk_is m1 c P /\ apk_Unmarshal B apk data m1 = (Ok tt, m2) /\ apk_is m2 apk Q /\ apk_is m2 c Q.
Proof.
  intros HA D. destruct (apk_star_ok _ _ _ HA) as (a & p & c & m1 & -> & E1 & X & NE & N1 & -> & N2 & HP). pose proof HP as [i [b [-> [H2 H3]]]].
  destruct (pk_Unmarshal_ok m1 i data Q r) as [m2 [E2 [F2 [D2 _]]]]; [apply nth_error_Some; rewrite H2; discriminate|exact D|].
  destruct F2 as [_ [_ [_ [FA _]]]].
  exists (Some (length (mapk m))), m1, m2. split; [exact E1|]. split; [exact NE|]. split; [exists (length (mapk m)), (Some i); auto|]. split; [|split].
  - unfold apk_Unmarshal. rewrite (mbind_ok _ _ _ _ _ (look_ok (fun m => mapk m) a _ m1 N1 : apk_pk B (Some a) m1 = _)). exact E2.
  - exists a, (Some i). split; [reflexivity|]. split; [exact (keep_none _ _ _ _ FA N1)|exact D2].
  - exists (length (mapk m)), (Some i). split; [reflexivity|]. split; [exact (keep_none _ _ _ _ FA N2)|exact D2].
Qed.
Lemma apk_star_aggregate m apk P q Q : apk_is m apk P -> pk_is m q Q -> exists c m1 m2, apk_star B apk m = (Ok c, m1) /\ c <> apk /\
  apk_Aggregate B apk q m1 = (Ok tt, m2) /\ apk_is m2 apk (add2 B P (mul2 B (ht Q) Q)) /\ apk_is m2 c (add2 B P (mul2 B (ht Q) Q)).
Proof.
  intros HA HQ. destruct (apk_star_ok _ _ _ HA) as (a & p & c & m1 & -> & E1 & X & NE & N1 & -> & N2 & HP).
  assert (HA1 : apk_is m1 (Some a) P) by (exists a, p; auto). destruct (apk_is_cell _ _ _ HA1) as [b C].
  destruct (apk_Aggregate_ok OK m1 _ b P q Q C (pk_is_ext _ _ _ _ X HQ)) as [m2 [E2 [F D]]].
  exists (Some (length (mapk m))), m1, m2. split; [exact E1|]. split; [exact NE|]. split; [exact E2|]. split; [eapply apk_cell_is; exact D|].
  apply apk_cell_is in D. destruct D as [a' [p' [Y [H2 H3]]]]. injection Y as <-. destruct F as [_ [_ [_ [FA _]]]].
  rewrite (keep_none _ _ _ _ FA N1) in H2. injection H2 as <-. exists (length (mapk m)), p. split; [reflexivity|]. split; [exact (keep_none _ _ _ _ FA N2)|exact H3].
Qed.
(** conversions *)
Lemma usig_convert_share m s S o T : sig_is m s S -> sig_is m o T -> exists u m1 m2, usig_convert B s m = (Ok u, m1) /\ usig_is m1 u S /\
  sig_Aggregate B s o m1 = (Ok s, m2) /\ usig_is m2 u (add1 B S T).
Proof.
  intros HS HT. destruct (sig_is_cell _ _ _ HS) as [b C]. unfold usig_convert. rewrite (mbind_ok _ _ _ _ _ (sig_e_ok _ _ _ _ C)).
  destruct (newusig_ext (Some b) m) as [m1 [E1 [X [N _]]]]. pose proof (sig_cell_ext _ _ _ _ _ X C) as C1.
  destruct (sig_Aggregate_ok m1 s b S o T C1 (sig_is_ext _ _ _ _ X HT)) as [m2 [E2 [F [a [_ [_ D]]]]]].
  exists (Some (length (musig m))), m1, m2. split; [exact E1|]. split; [|split; [exact E2|]].
  - exists (length (musig m)), b. split; [reflexivity|]. split; [exact N|]. destruct C1 as [? [_ [_ H]]]. exact H.
  - exists (length (musig m)), b. split; [reflexivity|]. split; [|exact D]. destruct F as [_ [_ [_ [_ [_ FU]]]]]. exact (keep_none _ _ _ _ FU N).
Qed.
Lemma sig_convert_ok m u S : usig_is m u S -> exists s m', sig_convert B u m = (Ok s, m') /\ ext m m' /\ sig_is m' s S.
Proof.
  intros [a [b [-> [H2 H3]]]]. unfold sig_convert. rewrite (mbind_ok _ _ _ _ _ (look_ok (fun m => musig m) a _ m H2 : usig_e B (Some a) m = _)).
  destruct (newsig_ext (Some b) m) as [m' [E [X [N [Q _]]]]]. exists (Some (length (msig m))), m'. split; [exact E|]. split; [exact X|].
  exists (length (msig m)), b. rewrite Q. auto.
Qed.
Lemma literal_verify m pk P msg u S : pk_is m pk P -> usig_is m u S -> exists apk s m', (do apk <- apk_literal B pk; do s <- sig_convert B u; ret (apk, s)) m = (Ok (apk, s), m') /\ ext m m' /\
  (Verify B apk msg s m' = (Ok tt, m') <-> VerifyUnsafe B pk msg u m = (Ok tt, m)).
Proof.
  intros HP HU. destruct (apk_literal_ok _ _ _ HP) as [apk [m1 [E1 [X [_ [_ A]]]]]]. destruct (sig_convert_ok m1 u S (usig_is_ext _ _ _ _ X HU)) as [s [m2 [E2 [X2 HS]]]].
  exists apk, s, m2. rewrite (mbind_ok _ _ _ _ _ E1), (mbind_ok _ _ _ _ _ E2). split; [reflexivity|]. split; [eapply ext_trans; eassumption|].
  rewrite (Verify_ok_iff OK m2 apk P msg s S (apk_is_ext _ _ _ _ X2 A) HS), (VerifyUnsafe_ok_iff OK m pk P msg u S HP HU). reflexivity.
Qed.
(** a key against which the literal protects no one *)
Definition literal_rogue (Q : g2 B) (x : Z) : g2 B := add2 B (mul2 B x (gen2 B)) (mul2 B (ord B - 1) (mul2 B (ht Q) Q)).
Lemma literal_rogue_sum Q x : add2 B (literal_rogue Q x) (mul2 B (ht Q) Q) = mul2 B x (gen2 B).
Proof. unfold literal_rogue. rewrite <- (rogue_key OK (mul2 B (ht Q) Q) x) at 2. apply (add2_comm OK). Qed.
Lemma literal_rogue_accepted m pk q Q x msg : pk_is m pk (literal_rogue Q x) -> pk_is m q Q ->
  exists m', (do apk <- apk_literal B pk; do _ <- apk_Aggregate B apk q; do u <- UnsafeSign B x msg; do s <- sig_convert B u; Verify B apk msg s) m = (Ok tt, m').
Proof.
  intros HP HQ. destruct (apk_share m pk _ q Q HP HQ) as [apk [ma [mb [E1 [_ [E2 [A _]]]]]]]. rewrite literal_rogue_sum in A.
  destruct (UnsafeSign_ok mb x msg) as [u [mc [E3 [X3 U]]]]. destruct (sig_convert_ok mc u _ U) as [s [md [E4 [X4 S]]]].
  exists md. rewrite (mbind_ok _ _ _ _ _ E1), (mbind_ok _ _ _ _ _ E2), (mbind_ok _ _ _ _ _ E3), (mbind_ok _ _ _ _ _ E4).
  apply (Verify_ok_iff OK md apk (mul2 B x (gen2 B)) msg s (usig_of x msg)); [|exact S|apply (usig_valid OK)].
  eapply apk_is_ext; [exact X4|]. eapply apk_is_ext; [exact X3|exact A].
Qed.
Lemma apk_is_frame1 m m' X p P : frame X none none none none m m' -> apk_is m p P -> apk_is m' p P.
Proof.
  intros [_ [F2 [F3 [F4 _]]]] [a [c [-> [H2 [a' [b [-> [H3 H4]]]]]]]]. exists a, (Some a'). split; [reflexivity|]. split; [eapply keep_none; eassumption|].
  exists a', b. split; [reflexivity|]. split; eapply keep_none; eassumption.
Qed.
Lemma sig_share_verify m apk P msg s S o T : apk_is m apk P -> sig_is m s S -> sig_is m o T -> Verify B apk msg s m = (Ok tt, m) ->
  exists c m1 m2, sig_star B s m = (Ok c, m1) /\ Verify B apk msg c m1 = (Ok tt, m1) /\ sig_Aggregate B s o m1 = (Ok s, m2) /\
    (Verify B apk msg c m2 = (Ok tt, m2) <-> T = mul1 B 0 (gen1 B)).
Proof.
  intros HA HS HT V. apply (Verify_ok_iff OK _ _ _ _ _ _ HA HS) in V. destruct (sig_is_cell _ _ _ HS) as [b C].
  destruct (sig_star_ok _ _ _ _ C) as [c [ma [E1 [X [_ [N [C1 C2]]]]]]].
  destruct (sig_Aggregate_ok ma s b S o T C1 (sig_is_ext _ _ _ _ X HT)) as [mb [E2 [F D]]].
  pose proof (apk_is_ext _ _ _ _ X HA) as HA1. exists c, ma, mb. split; [exact E1|].
  split; [apply (Verify_ok_iff OK ma apk P msg c S HA1 (sig_cell_is _ _ _ _ C2)); exact V|]. split; [exact E2|].
  rewrite (Verify_ok_iff OK mb apk P msg c (add1 B S T) (apk_is_frame1 _ _ _ _ _ F HA1)); [|eapply sig_cell_is; eapply sig_cell_other; [exact C1|exact C2|exact F|exact D]].
  split.
  - intros V'. pose proof (valid_unique OK _ _ _ _ V V') as Q. destruct (cyc1 B OK S) as [a ->]. destruct (cyc1 B OK T) as [t ->].
    rewrite (add1_gen B OK) in Q. apply (mul1_eq B OK) in Q. apply (mul1_eq B OK). apply Z.divide_opp_r in Q. replace (t - 0)%Z with (- (a - (a + t)))%Z by ring. exact Q.
  - intros ->. rewrite (add1_0 OK). exact V.
Qed.
Lemma literal_nil m q Q msg s : pk_is m q Q -> exists apk m', apk_literal B None m = (Ok apk, m') /\ ext m m' /\
  fst (apk_Aggregate B apk q m') = Panic /\ fst (Verify B apk msg s m') = Panic.
Proof.
  intros HQ. unfold apk_literal. destruct (newapk_ext None m) as [m' [E [X [N _]]]]. exists (Some (length (mapk m))), m'. split; [exact E|]. split; [exact X|].
  assert (G : forall mm, nth_error (mapk mm) (length (mapk m)) = Some None -> apk_gx B (Some (length (mapk m))) mm = (Panic, mm)).
  { intros mm Y. unfold apk_gx. rewrite (mbind_ok _ _ _ _ _ (look_ok (fun m => mapk m) _ _ mm Y : apk_pk B (Some (length (mapk m))) mm = _)). reflexivity. }
  split.
  - unfold apk_Aggregate. destruct (pkt_ok OK _ _ _ (pk_is_ext _ _ _ _ X HQ)) as [ma [Ea [Xa _]]]. rewrite (mbind_ok _ _ _ _ _ Ea).
    unfold mbind at 1. rewrite (G ma (extapk _ _ _ _ Xa N)). reflexivity.
  - unfold Verify, mbind at 1. rewrite (G m' N). reflexivity.
Qed.
End Share.
