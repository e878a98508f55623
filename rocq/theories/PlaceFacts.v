(** Where the shuffle of MLSAG puts the signer *)
From Coq Require Import String ZArith List Lia Bool Arith Permutation.
From Coq Require Import Init.Byte.
From Verif Require Import GoModel GoFacts Fld Rist RistFacts SpecVector VectorFacts PedersenFacts SpecMlsag MlsagModel MlsagSessions MlsagFacts MlsagProve MlsagProps SpecPlace.
Import ListNotations.
Local Open Scope nat_scope.

Section Place.
Context {R : rist}.
Lemma moved_lt i j pos n : i < n -> j < n -> pos < n -> moved i j pos < n.
Proof. unfold moved. destruct (Nat.eqb pos i), (Nat.eqb pos j); auto. Qed.
Lemma nth_moved {A} (m : list A) i j a b pos : nth_error m j = Some a -> nth_error m i = Some b ->
  nth_error (upd (upd m i a) j b) (moved i j pos) = nth_error m pos.
Proof.
  intros Ea Eb. assert (Li : i < length m) by (apply nth_error_Some; congruence). assert (Lj : j < length m) by (apply nth_error_Some; congruence).
  unfold moved. destruct (Nat.eqb_spec pos i) as [->|Ni].
  - rewrite upd_same by (rewrite upd_length; lia). congruence.
  - destruct (Nat.eqb_spec pos j) as [->|Nj].
    + rewrite upd_other by congruence. rewrite upd_same by lia. congruence.
    + rewrite !upd_other by congruence. reflexivity.
Qed.
Lemma shuffle_place js (m : list (pubkeys R)) pre x : m = pre ++ [x] ->
  exists m', shuffle R js m = Ok m' /\ length m' = length m /\ nth_error m' (place (length m) (drawn (length m) js)) = Some x.
Proof.
  intros EM. unfold shuffle.
  edestruct (for_loop_inv (fun t m' => length m' = length m /\
    nth_error m' (fold_left (fun pos t => moved (length m - 1 - t) (drawn (length m) js t) pos) (seq 0 t) (length m - 1)) = Some x)) as [m' [E [P Q]]]; cycle 2.
  - exists m'. rewrite E. split; [reflexivity|]. split; [exact P|exact Q].
  - split; [reflexivity|]. cbn [seq fold_left]. subst m. rewrite app_length. cbn [length]. rewrite nth_error_app2 by lia.
    replace (length pre + 1 - 1 - length pre) with 0 by lia. reflexivity.
  - intros t m1 Ht [L Q]. cbn [Nat.add] in *. rewrite L.
    set (i := length m - 1 - t). assert (Hi : i < length m) by (unfold i; lia).
    assert (EI : intn js t i = drawn (length m) js t). { unfold intn, drawn, i. f_equal. lia. }
    assert (Hj : intn js t i < length m). { unfold intn. pose proof (Nat.mod_upper_bound (js t) (i + 1)). lia. }
    set (j := intn js t i) in *.
    destruct (nth_error m1 j) as [a|] eqn:Ea; [|apply nth_error_None in Ea; lia].
    destruct (nth_error m1 i) as [b|] eqn:Eb; [|apply nth_error_None in Eb; lia].
    unfold idx. rewrite Ea, Eb. cbn [bind]. rewrite set_idx_ok by lia. cbn [bind]. rewrite set_idx_ok by (rewrite upd_length; lia).
    eexists. split; [reflexivity|]. rewrite !upd_length. split; [exact L|]. rewrite seq_S, fold_left_app. cbn [fold_left Nat.add].
    fold i. rewrite <- EI. rewrite (nth_moved m1 i j a b _ Ea Eb). exact Q.
Qed.
Lemma prove_shuffled_pub p sk rs sg J : prove_shuffled R p sk rs = Ok (sg, J) -> sg_pub R sg = mp_matrix R p.
Proof.
  unfold prove_shuffled. destruct (negb _); [discriminate|]. intros E.
  repeat match type of E with bind ?r _ = _ => destruct r; cbn [bind] in E; try discriminate E | (let (_, _) := ?z in _) = _ => destruct z end.
  injection E as <- _. reflexivity.
Qed.
Lemma prove_place p sk js rs sg J p' : prove R p sk js rs = (Ok (sg, J), p') ->
  length (sg_pub R sg) = length (mp_matrix R p) + 1 /\
  nth_error (sg_pub R sg) (place (length (sg_pub R sg)) (drawn (length (sg_pub R sg)) js)) = Some (mkPK R false (pk_keys R (mp_signer R p))).
Proof.
  unfold prove, shuffleSet. cbn [addSignerPubKey addPubKeys mp_matrix mp_priv mp_signer mp_msg mp_index].
  destruct (shuffle_place js _ _ _ eq_refl : exists m', shuffle R js (mp_matrix R p ++ [mkPK R false (pk_keys R (mp_signer R p))]) = Ok m' /\ _) as (m' & E & L & Q).
  rewrite E. destruct (find_signer R m' 0); [|discriminate]. intros P. injection P as P _. apply prove_shuffled_pub in P. cbn [mp_matrix] in P. rewrite P, L.
  split; [rewrite app_length; reflexivity|exact Q].
Qed.
Lemma dk_place d k0 k1 l js rs sg KI d' : dk_keys R d = k0 :: k1 :: l -> dk_Prove R d js rs = (Ok (sg, KI), d') ->
  length (sg_pub R sg) = length (mp_matrix R (dk_proof R d)) + 1 /\
  nth_error (sg_pub R sg) (place (length (sg_pub R sg)) (drawn (length (sg_pub R sg)) js)) =
    Some (mkPK R false (pk_keys R (mp_signer R (dk_proof R d)) ++ [smul R k0 (pbase R); smul R k1 (pbase R)])).
Proof.
  intros EK. unfold dk_Prove. rewrite EK. destruct (orb _ _); [discriminate|].
  destruct (prove R (AddSecret R (AddSecret R (dk_proof R d) k0) k1) true js rs) as [r p'] eqn:E.
  destruct r as [[s J]| |]; try discriminate. destruct J as [|K [|? ?]]; try discriminate. intros P. injection P as <- _ _.
  destruct (prove_place _ _ _ _ _ _ _ E) as [L Q]. split; [exact L|]. rewrite Q. unfold AddSecret, AddPubKey. cbn [mp_signer pk_keys]. rewrite <- app_assoc. reflexivity.
Qed.
End Place.
