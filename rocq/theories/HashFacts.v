(** Proofs about HashModel.v *)
From Coq Require Import String ZArith List Lia Bool DecimalString.
From Verif Require Import GoModel GoFacts HashModel.
Import ListNotations.
Local Open Scope Z_scope.

Lemma Xxhash_eq H d : Xxhash H d = match h_write H d with Some e => Err e | None => Ok (h_sum H d) end.
Proof. reflexivity. Qed.

Lemma get_put_u32' v : 0 <= v < 2 ^ 32 -> get_u32 (put_u32 v) = v.
Proof.
  intros Hv. rewrite <- (app_nil_r (put_u32 v)), get_put_u32. apply Z.mod_small. exact Hv.
Qed.

Lemma checksum_value H d dg v :
  Xxhash H d = Ok dg -> (4 <= length dg)%nat ->
  (Checksum H d = Ok v <-> (0 <= v < 2 ^ 32 /\ put_u32 v = firstn 4 dg)).
Proof.
  intros E Hl. unfold Checksum. rewrite E. cbn [bind].
  destruct (Nat.ltb_spec (length dg) 4) as [C|_]; [lia|].
  assert (Hf : length (firstn 4 dg) = 4%nat) by (rewrite firstn_length; lia).
  split.
  - intros [= <-]. split; [apply get_u32_range|]. apply put_get_u32. exact Hf.
  - intros [Hv Hp]. f_equal. rewrite <- Hp. apply get_put_u32'. exact Hv.
Qed.

Lemma compare_decides H d w :
  (forall x, (4 <= length (h_sum H x))%nat) ->
  CompareChecksum H d w = Ok true /\ Checksum H d = Ok w \/
  CompareChecksum H d w = Ok false /\ Checksum H d <> Ok w.
Proof.
  intros Hl. unfold CompareChecksum.
  destruct (Checksum H d) as [got|e|] eqn:E.
  - destruct (Z.eqb_spec got w) as [->|Hne]; [left|right]; split; congruence.
  - right. split; congruence.
  - exfalso. unfold Checksum in E. rewrite Xxhash_eq in E.
    destruct (h_write H d); cbn [bind] in E; [discriminate|].
    destruct (Nat.ltb_spec (length (h_sum H d)) 4) as [C|C]; [|discriminate].
    specialize (Hl d). lia.
Qed.

Lemma checksum_write_error H d w e :
  h_write H d = Some e -> Checksum H d = Err e /\ CompareChecksum H d w = Ok false.
Proof.
  intros E. unfold CompareChecksum, Checksum. rewrite Xxhash_eq, E. split; reflexivity.
Qed.

Lemma same_prefix_same_checksum H d d' v :
  (forall x, (4 <= length (h_sum H x))%nat) ->
  h_write H d = None -> h_write H d' = None -> Checksum H d = Ok v ->
  (CompareChecksum H d' v = Ok true <-> firstn 4 (h_sum H d) = firstn 4 (h_sum H d')).
Proof.
  intros Hl W W' E.
  assert (X : Xxhash H d = Ok (h_sum H d)) by (rewrite Xxhash_eq, W; reflexivity).
  assert (X' : Xxhash H d' = Ok (h_sum H d')) by (rewrite Xxhash_eq, W'; reflexivity).
  pose proof (checksum_value H d _ v X (Hl d)) as [A _].
  pose proof (checksum_value H d' _ v X' (Hl d')) as B.
  destruct (A E) as [Hv Hp].
  destruct (compare_decides H d' v Hl) as [[C1 C2]|[C1 C2]]; rewrite C1.
  - split; [intros _|reflexivity]. destruct B as [B _]. destruct (B C2) as [_ Hp'].
    congruence.
  - split; [discriminate|]. intros Hq. exfalso. apply C2. apply B. split; [exact Hv|congruence].
Qed.

(** decimal digits of a number *)
Notation dec z := (NilZero.string_of_int (Z.to_int z)).
Lemma rand_entropy_spec src n :
  0 <= n < 2 ^ 32 -> Z.of_nat (length (e_bytes src)) <= n ->
  (exists b, RandEntropy src n = Ok b /\ Z.of_nat (length b) = n /\ b = e_bytes src /\ e_err src = None)
  \/ (exists e, RandEntropy src n = Err e /\
       (e_err src <> None \/ Z.of_nat (length (e_bytes src)) < n)).
Proof.
  intros Hn Hl. unfold RandEntropy.
  destruct (e_err src) as [e|] eqn:E.
  - right. eexists. split; [reflexivity|]. left. discriminate.
  - unfold u32. rewrite Z.mod_small by lia.
    destruct (Z.eqb_spec (Z.of_nat (length (e_bytes src))) n) as [H|H].
    + left. eexists. split; [reflexivity|].
      replace (Z.to_nat n - length (e_bytes src))%nat with 0%nat by lia.
      rewrite app_nil_r. auto.
    + right. eexists. split; [reflexivity|]. right. lia.
Qed.

Lemma rand_entropy_texts src n : 0 <= n < 2 ^ 32 ->
  (forall e, e_err src = Some e -> RandEntropy src n = Err ("Error generating entropy " ++ e)) /\
  (e_err src = None -> Z.of_nat (length (e_bytes src)) < n ->
   RandEntropy src n = Err ("Error expected to read" ++ dec n ++ " bytes instead read " ++ dec (Z.of_nat (length (e_bytes src))) ++ " bytes")).
Proof.
  intros Hn. unfold RandEntropy. split.
  - intros e E. rewrite E. reflexivity.
  - intros E L. rewrite E. unfold u32. rewrite Z.mod_small by lia.
    destruct (Z.eqb_spec (Z.of_nat (length (e_bytes src))) n); [lia|reflexivity].
Qed.
Lemma rand_entropy_short src n :
  0 <= n < 2 ^ 32 -> Z.of_nat (length (e_bytes src)) < n ->
  exists e, RandEntropy src n = Err e.
Proof.
  intros Hn Hl. destruct (rand_entropy_spec src n Hn) as [[b [E [H1 [H2 _]]]]|[e [E _]]].
  - lia.
  - exfalso. subst b. lia.
  - exists e. exact E.
Qed.

Lemma checksum_short (H : hasher) (d dg : bytes) (w : Z) :
  Xxhash H d = Ok dg -> (length dg < 4)%nat -> Checksum H d = Panic /\ CompareChecksum H d w = Panic.
Proof.
  intros E L. assert (C : Checksum H d = Panic).
  { unfold Checksum. rewrite E. cbn [bind]. destruct (Nat.ltb_spec (length dg) 4); [reflexivity|lia]. }
  split; [exact C|]. unfold CompareChecksum. rewrite C. reflexivity.
Qed.

Lemma one_shot (H : hasher) (bs : bytes) (ctor : string) :
  (h_write H bs = None ->
   Sha3256 H bs = Ok (h_sum H bs) /\ Sha3512 H bs = Ok (h_sum H bs) /\ Xxhash H bs = Ok (h_sum H bs) /\
   Blake2b256 (Ok H) bs = Ok (h_sum H bs) /\ Blake2b512 (Ok H) bs = Ok (h_sum H bs)) /\
  (forall e, h_write H bs = Some e ->
   Sha3256 H bs = Err e /\ Sha3512 H bs = Err e /\ Xxhash H bs = Err e /\
   Blake2b256 (Ok H) bs = Err e /\ Blake2b512 (Ok H) bs = Err e) /\
  Blake2b256 (Err ctor) bs = Err ctor /\ Blake2b512 (Err ctor) bs = Err ctor.
Proof.
  unfold Sha3256, Sha3512, Xxhash, Blake2b256, Blake2b512, Digest, PerformHash. cbn [bind].
  split; [intros E; rewrite E; auto|]. split; [intros e E; rewrite E; auto|auto].
Qed.

Lemma object (A : algo) (st bs : bytes) :
  (forall p x, snd (al_write A p x) = None -> fst (al_write A p x) = length x) ->
  (snd (al_write A st bs) = None -> PerformHashOn A st bs = (st ++ bs, Ok (al_sum A (st ++ bs)))) /\
  (forall e, snd (al_write A st bs) = Some e -> snd (PerformHashOn A st bs) = Err e).
Proof.
  intros W. specialize (W st bs). unfold PerformHashOn. destruct (al_write A st bs) as [n err]. cbn in *.
  split; [intros ->; rewrite (W eq_refl), firstn_all; reflexivity|intros e ->; reflexivity].
Qed.

Lemma object_fresh (A : algo) (bs : bytes) :
  (forall p x, snd (al_write A p x) = None -> fst (al_write A p x) = length x) ->
  snd (PerformHashOn A [] bs) = PerformHash (fresh_hasher A) bs.
Proof.
  intros W. destruct (object A [] bs W) as [O1 O2]. unfold PerformHash, fresh_hasher. cbn [h_write h_sum].
  destruct (snd (al_write A [] bs)) as [e|]; [apply O2; reflexivity|rewrite O1; reflexivity].
Qed.

Lemma object_reuse (A : algo) (st : bytes) (l : list bytes) (k : nat) :
  (forall p x, al_write A p x = (length x, None)) -> (k < length l)%nat ->
  nth_error (PerformAll A st l) k = Some (Ok (al_sum A (st ++ concat (firstn (S k) l)))).
Proof.
  intros W. revert st k. induction l as [|x l IH]; intros st k Lk; [cbn in Lk; lia|].
  cbn [PerformAll]. unfold PerformHashOn. rewrite W, firstn_all. destruct k as [|k].
  - cbn [nth_error firstn concat]. rewrite app_nil_r. reflexivity.
  - cbn [nth_error]. rewrite IH by (cbn in Lk; lia). cbn [firstn concat]. rewrite app_assoc. reflexivity.
Qed.
