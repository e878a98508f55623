(** C110: rogue keys against aggregated keys *)
From Coq Require Import String ZArith List Lia Bool Arith Znumtheory.
From Coq Require Import Init.Byte.
From Verif Require Import GoModel Bn BnInst BlsModel SpecBls BlsFacts BlsOps BlsProps SpecRogue RogueFacts P_Bls.
Import ListNotations.
Local Open Scope Z_scope.
Local Notation pub B x := (mul2 B x (gen2 B)).

(** ** The aggregate of keys and of keys made from them: each key with its factor, and a known part. *)
Theorem C110_aggregate B (OK : bn_ok B) m pks P Ps rs : Forall (fun r => length (snd r) = length (P :: Ps)) rs ->
  Forall2 (pk_is m) pks ((P :: Ps) ++ map (made_key (P :: Ps)) rs) ->
  exists apk m', AggregateApk B pks m = (Ok apk, m') /\ ext m m' /\
    apk_is m' apk (add2 B (lin2 (factors (P :: Ps) rs) (P :: Ps)) (pub B (known (P :: Ps) rs))).
Proof.
  intros F FP. rewrite <- (apk_factors OK (P :: Ps) rs F). cbn [app] in *. inversion FP as [|pk P' pks' Ps' H1 H2]; subst.
  exact (AggregateApk_ok OK m pk pks' _ _ H1 H2).
Qed.
Print Assumptions C110_aggregate.

(** ** Forgery.  When the order divides all factors, whoever made the keys signs every message for all of
    them together, without any private key: the factors depend on each key alone, so that this is a linear
    equation between hash values that are all known beforehand. *)
Theorem C110_rogue B (OK : bn_ok B) m pks P Ps rs msg :
  Forall2 (pk_is m) pks ((P :: Ps) ++ map (made_key (P :: Ps)) rs) ->
  Forall (fun r => length (snd r) = length (P :: Ps)) rs -> Forall (Z.divide (ord B)) (factors (P :: Ps) rs) ->
  exists m', (do apk <- AggregateApk B pks; do u <- UnsafeSign B (known (P :: Ps) rs) msg; do b <- usig_Marshal B u; do s <- UnmarshalSignature B b;
    Verify B apk msg s) m = (Ok tt, m') /\ ext m m'.
Proof. exact (rogue_accepted OK m pks P Ps rs msg). Qed.
Print Assumptions C110_rogue.

(** ** There is no other way.  A signature y H(m) with known y is accepted exactly if it gives a linear
    relation between the keys of the others; for one key whose factor is not divisible by the order, the
    private key. *)
Theorem C110_relation B (OK : bn_ok B) Ps rs m apk msg s y : Forall (fun r => length (snd r) = length Ps) rs -> ~ (ord B | hm (B := B) msg) ->
  apk_is m apk (apk_of (Ps ++ map (made_key Ps) rs)) -> sig_is m s (usig_of y msg) ->
  (Verify B apk msg s m = (Ok tt, m) <-> lin2 (factors Ps rs) Ps = pub B (y - known Ps rs)).
Proof. exact (accepted_relation OK Ps rs m apk msg s y). Qed.
Print Assumptions C110_relation.
Theorem C110_key B (OK : bn_ok B) P rs m apk msg s y f k : Forall (fun r => length (snd r) = 1%nat) rs -> ~ (ord B | hm (B := B) msg) ->
  factors [P] rs = [f] -> (ord B | k * f - 1) ->
  apk_is m apk (apk_of (P :: map (made_key [P]) rs)) -> sig_is m s (usig_of y msg) ->
  Verify B apk msg s m = (Ok tt, m) -> P = pub B (k * (y - known [P] rs)).
Proof.
  intros F N EF D IA IS E. apply (accepted_relation OK [P] rs m apk msg s y F N IA IS) in E. rewrite EF in E. exact (single_key OK P k _ f D E).
Qed.
Print Assumptions C110_key.
Theorem C110_invertible B (OK : bn_ok B) P rs : Forall (fun r => length (snd r) = 1%nat) rs ->
  exists f, factors (B := B) [P] rs = [f] /\ ((ord B | f) \/ exists k, (ord B | k * f - 1)).
Proof.
  intros F. pose proof (factors_length (B := B) [P] rs F) as L. destruct (factors [P] rs) as [|f [|]]; try discriminate. exists f. split; [reflexivity|].
  destruct (Zdivide_dec (ord B) f) as [D|D]; [left; exact D|right; exact (inverse_exists OK f D)].
Qed.
Print Assumptions C110_invertible.

(** ** Aggregates of groups of keys add up to the aggregate of all. *)
Theorem C110_groups B (OK : bn_ok B) l l' : apk_of (B := B) (l ++ l') = add2 B (apk_of l) (apk_of l').
Proof. exact (apk_app OK l l'). Qed.
Print Assumptions C110_groups.

(** the honest key 2 with hash 204, the made key 2 g2 + P = 4 with hash 206: 204 + 206 is divisible by 5 *)
Example C110_ex : Forall2 (pk_is ex_m) [ex_k 0; ex_k 2] ([pub B5 2] ++ map (made_key [pub B5 2]) [(2, [1])]) /\
  Forall (Z.divide (ord B5)) (factors (B := B5) [pub B5 2] [(2, [1])]) /\
  result (do apk <- AggregateApk B5 [ex_k 0; ex_k 2]; do u <- UnsafeSign B5 (known (B := B5) [pub B5 2] [(2, [1])]) ex_msg; do b <- usig_Marshal B5 u;
    do s <- UnmarshalSignature B5 b; Verify B5 apk ex_msg s) ex_m = Ok tt.
Proof.
  split; [|split].
  - constructor; [exact ex_pk0|]. constructor; [|constructor]. change (made_key [pub B5 2] (2, [1])) with (pub B5 4). exact ex_pk2.
  - constructor; [|constructor]. exists 82. vm_compute. reflexivity.
  - vm_compute. reflexivity.
Qed.
(** the made key g2 + P = 3: the factor 204 + 77 has the inverse 1, and only whoever knows the key 2 signs *)
Example C110_ex_key : factors (B := B5) [pub B5 2] [(1, [1])] = [281] /\ (ord B5 | 1 * 281 - 1) /\ known (B := B5) [pub B5 2] [(1, [1])] = 77 /\
  result (do apk <- AggregateApk B5 [ex_k 0; ex_k 1]; do u <- UnsafeSign B5 (281 * 2 + 77) ex_msg; do b <- usig_Marshal B5 u;
    do s <- UnmarshalSignature B5 b; Verify B5 apk ex_msg s) ex_m = Ok tt /\
  result (do apk <- AggregateApk B5 [ex_k 0; ex_k 1]; do u <- UnsafeSign B5 (281 * 3 + 77) ex_msg; do b <- usig_Marshal B5 u;
    do s <- UnmarshalSignature B5 b; Verify B5 apk ex_msg s) ex_m = Err "bls apk: Invalid Signature.".
Proof. split; [vm_compute; reflexivity|]. split; [exists 56; reflexivity|]. repeat split; vm_compute; reflexivity. Qed.
