(** C116: objects that share memory *)
From Coq Require Import String ZArith List Lia Arith.
From Coq Require Import Init.Byte.
From Verif Require Import GoModel GoFacts HashModel Bn BnInst BlsModel SpecBls BlsSessions BlsFacts BlsOps BlsProps ShareModel ShareFacts P_Bls.
Import ListNotations.
Local Open Scope nat_scope.
Local Notation pub B x := (mul2 B x (gen2 B)).

(** ** C116.  Copied structs and Apk literals share memory (defect). *)
(** c := *s: after s.Aggregate(o), c has changed too, and after c.Aggregate(o), s *)
Theorem C116_signature B m s S o T : sig_is (B := B) m s S -> sig_is m o T ->
  (exists c m1 m2, sig_star B s m = (Ok c, m1) /\ c <> s /\ sig_is m1 c S /\ sig_is m1 s S /\
     sig_Aggregate B s o m1 = (Ok s, m2) /\ sig_is m2 s (add1 B S T) /\ sig_is m2 c (add1 B S T)) /\
  (exists c m1 m2, sig_star B s m = (Ok c, m1) /\ c <> s /\ sig_Aggregate B c o m1 = (Ok c, m2) /\ sig_is m2 s (add1 B S T) /\ sig_is m2 c (add1 B S T)).
Proof. intros HS HT. split; [exact (sig_share m s S o T HS HT)|exact (sig_share_back m s S o T HS HT)]. Qed.
Print Assumptions C116_signature.
(** a copied signature that was accepted is refused after the original is aggregated with a signature other than zero *)
Theorem C116_refused B (OK : bn_ok B) m apk P msg s S o T : apk_is m apk P -> sig_is m s S -> sig_is m o T -> Verify B apk msg s m = (Ok tt, m) ->
  exists c m1 m2, sig_star B s m = (Ok c, m1) /\ Verify B apk msg c m1 = (Ok tt, m1) /\ sig_Aggregate B s o m1 = (Ok s, m2) /\
    (Verify B apk msg c m2 = (Ok tt, m2) <-> T = mul1 B 0 (gen1 B)).
Proof. exact (sig_share_verify OK m apk P msg s S o T). Qed.
Print Assumptions C116_refused.
(** Unmarshal ends the sharing: the original keeps its value *)
Theorem C116_unmarshal B m s S data T : sig_is (B := B) m s S -> sig_dec data = Some T ->
  exists c m1 m2, sig_star B s m = (Ok c, m1) /\ sig_Unmarshal B c data m1 = (Ok tt, m2) /\ sig_is m2 c T /\ sig_is m2 s S.
Proof. exact (sig_share_unmarshal m s S data T). Qed.
Print Assumptions C116_unmarshal.
(** &Apk{PublicKey: pk}: Aggregate changes pk; Unmarshal of pk changes the aggregated key, but not a copy of the struct pk *)
Theorem C116_literal B (OK : bn_ok B) m pk P q Q : pk_is m pk P -> pk_is m q Q ->
  exists apk m1 m2, apk_literal B pk m = (Ok apk, m1) /\ apk_is m1 apk P /\
    apk_Aggregate B apk q m1 = (Ok tt, m2) /\ apk_is m2 apk (add2 B P (mul2 B (ht Q) Q)) /\ pk_is m2 pk (add2 B P (mul2 B (ht Q) Q)).
Proof. exact (apk_share OK m pk P q Q). Qed.
Print Assumptions C116_literal.
Theorem C116_literal_unmarshal B m pk P data Q r : pk_is (B := B) m pk P -> unm2 B data = Some (Q, r) ->
  (exists apk m1 m2, apk_literal B pk m = (Ok apk, m1) /\ pk_Unmarshal B pk data m1 = (Ok tt, m2) /\ pk_is m2 pk Q /\ apk_is m2 apk Q) /\
  (exists c m1 m2, pk_star B pk m = (Ok c, m1) /\ pk_is m1 c P /\ pk_Unmarshal B pk data m1 = (Ok tt, m2) /\ pk_is m2 pk Q /\ pk_is m2 c P).
Proof. intros HP U. split; [exact (apk_share_unmarshal m pk P data Q r HP U)|exact (pk_star_unmarshal m pk P data Q r HP U)]. Qed.
Print Assumptions C116_literal_unmarshal.
(** c := *apk: Aggregate and Unmarshal of apk change c too *)
Theorem C116_apk B (OK : bn_ok B) m apk P : apk_is m apk P ->
  (forall q Q, pk_is m q Q -> exists c m1 m2, apk_star B apk m = (Ok c, m1) /\ c <> apk /\
     apk_Aggregate B apk q m1 = (Ok tt, m2) /\ apk_is m2 apk (add2 B P (mul2 B (ht Q) Q)) /\ apk_is m2 c (add2 B P (mul2 B (ht Q) Q))) /\
  (forall data Q r, unm2 B data = Some (Q, r) -> exists c m1 m2, apk_star B apk m = (Ok c, m1) /\ c <> apk /\ apk_is m1 c P /\
     apk_Unmarshal B apk data m1 = (Ok tt, m2) /\ apk_is m2 apk Q /\ apk_is m2 c Q).
Proof. intros HA. split; [intros q Q; exact (apk_star_aggregate OK m apk P q Q HA)|intros data Q r; exact (apk_star_unmarshal m apk P data Q r HA)]. Qed.
Print Assumptions C116_apk.
(** c := UnsafeSignature( *s ): Aggregate of s changes c *)
Theorem C116_convert B m s S o T : sig_is (B := B) m s S -> sig_is m o T -> exists u m1 m2, usig_convert B s m = (Ok u, m1) /\ usig_is m1 u S /\
  sig_Aggregate B s o m1 = (Ok s, m2) /\ usig_is m2 u (add1 B S T).
Proof. exact (usig_convert_share m s S o T). Qed.
Print Assumptions C116_convert.
(** with the literal and a converted signature, Verify is VerifyUnsafe *)
Theorem C116_unsafe B (OK : bn_ok B) m pk P msg u S : pk_is m pk P -> usig_is m u S ->
  exists apk s m', (do apk <- apk_literal B pk; do s <- sig_convert B u; ret (apk, s)) m = (Ok (apk, s), m') /\ ext m m' /\
    (Verify B apk msg s m' = (Ok tt, m') <-> VerifyUnsafe B pk msg u m = (Ok tt, m)).
Proof. exact (literal_verify OK m pk P msg u S). Qed.
Print Assumptions C116_unsafe.
(** and a key made from another member's key gives an aggregated key for which its maker alone signs every message *)
Theorem C116_rogue B (OK : bn_ok B) m pk q Q x msg :
  pk_is m pk (add2 B (pub B x) (mul2 B (ord B - 1) (mul2 B (ht Q) Q))) -> pk_is m q Q ->
  exists m', (do apk <- apk_literal B pk; do _ <- apk_Aggregate B apk q; do u <- UnsafeSign B x msg; do s <- sig_convert B u; Verify B apk msg s) m = (Ok tt, m').
Proof. exact (literal_rogue_accepted OK m pk q Q x msg). Qed.
Print Assumptions C116_rogue.
(** the literal with nil panics *)
Theorem C116_nil B (OK : bn_ok B) m q Q msg s : pk_is m q Q -> exists apk m', apk_literal B None m = (Ok apk, m') /\ ext m m' /\
  fst (apk_Aggregate B apk q m') = Panic /\ fst (Verify B apk msg s m') = Panic.
Proof. exact (literal_nil OK m q Q msg s). Qed.
Print Assumptions C116_nil.
(** the copied struct follows the original; the result of Copy does not *)
Example C116_ex : result (do s <- Sign B5 2 (ex_k 0) ex_msg; do c <- sig_star B5 s; do d <- sig_Copy B5 s; do apk <- NewApk B5 (ex_k 0);
    do _ <- Verify B5 apk ex_msg c; do _ <- sig_Aggregate B5 s s; Verify B5 apk ex_msg d) ex_m = Ok tt /\
  result (do s <- Sign B5 2 (ex_k 0) ex_msg; do c <- sig_star B5 s; do apk <- NewApk B5 (ex_k 0);
    do _ <- Verify B5 apk ex_msg c; do _ <- sig_Aggregate B5 s s; Verify B5 apk ex_msg c) ex_m = Err "bls apk: Invalid Signature.".
Proof. split; vm_compute; reflexivity. Qed.
(** the key changes under the literal *)
Example C116_ex_literal : result (do b <- pk_Marshal B5 (ex_k 0); do apk <- apk_literal B5 (ex_k 0); do _ <- apk_Aggregate B5 apk (ex_k 1); do b' <- pk_Marshal B5 (ex_k 0); do c <- apk_Marshal B5 apk;
    ret (bytes_eqb b b', bytes_eqb b' c)) ex_m = Ok (false, true).
Proof. vm_compute. reflexivity. Qed.
(** the maker of a key from key 1 signs alone, and NewApk instead of the literal refuses it *)
Definition ex_rogue : M B5 ptr := do gx <- new2 B5 (emb2 B5 (add2 B5 (pub B5 4) (mul2 B5 (ord B5 - 1) (mul2 B5 (ht (pub B5 3)) (pub B5 3))))); newpk B5 gx.
Example C116_ex_rogue : result (do pk <- ex_rogue; do apk <- apk_literal B5 pk; do _ <- apk_Aggregate B5 apk (ex_k 1); do u <- UnsafeSign B5 4 ex_msg; do s <- sig_convert B5 u; Verify B5 apk ex_msg s) ex_m = Ok tt /\
  result (do pk <- ex_rogue; do apk <- NewApk B5 pk; do _ <- apk_Aggregate B5 apk (ex_k 1); do u <- UnsafeSign B5 4 ex_msg; do s <- sig_convert B5 u; Verify B5 apk ex_msg s) ex_m = Err "bls apk: Invalid Signature.".
Proof. split; vm_compute; reflexivity. Qed.
