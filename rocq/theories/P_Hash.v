(** Properties C01, C02: hash/hash.go *)
From Coq Require Import String ZArith List Lia Bool DecimalString.
From Verif Require Import GoModel GoFacts HashModel HashFacts.
Import ListNotations.
Local Open Scope Z_scope.

(** C01. *)
Theorem C01_checksum_value (H : hasher) (d : bytes) (dg : bytes) (v : Z) :
  Xxhash H d = Ok dg -> (4 <= length dg)%nat ->
  (Checksum H d = Ok v <-> (0 <= v < 2 ^ 32 /\ put_u32 v = firstn 4 dg)).
Proof. exact (checksum_value H d dg v). Qed.
Print Assumptions C01_checksum_value.

Theorem C01_compare_decides (H : hasher) (d : bytes) (w : Z) :
  (forall x, (4 <= length (h_sum H x))%nat) ->
  CompareChecksum H d w = Ok true /\ Checksum H d = Ok w \/
  CompareChecksum H d w = Ok false /\ Checksum H d <> Ok w.
Proof. exact (compare_decides H d w). Qed.
Print Assumptions C01_compare_decides.

Theorem C01_write_error (H : hasher) (d : bytes) (w : Z) (e : string) :
  h_write H d = Some e ->
  Checksum H d = Err e /\ CompareChecksum H d w = Ok false.
Proof. exact (checksum_write_error H d w e). Qed.
Print Assumptions C01_write_error.

(** Sufficient for acceptance: the two payloads agree on the digest prefix. *)
Theorem C01_same_prefix_same_checksum (H : hasher) (d d' : bytes) (v : Z) :
  (forall x, (4 <= length (h_sum H x))%nat) ->
  h_write H d = None -> h_write H d' = None -> Checksum H d = Ok v ->
  (CompareChecksum H d' v = Ok true <-> firstn 4 (h_sum H d) = firstn 4 (h_sum H d')).
Proof. exact (same_prefix_same_checksum H d d' v). Qed.
Print Assumptions C01_same_prefix_same_checksum.

Definition ex_hasher : hasher :=
  mkHasher (fun b => match b with [] => Some "empty"%string | _ => None end)
           (fun b => firstn 8 (b ++ repeat Byte.x01 8)).
Example C01_ex : (forall x, (4 <= length (h_sum ex_hasher x))%nat)
  /\ Checksum ex_hasher [Byte.xab; Byte.x02] = Ok 2869035265
  /\ CompareChecksum ex_hasher [Byte.xab; Byte.x02] 2869035265 = Ok true
  /\ CompareChecksum ex_hasher [Byte.xab; Byte.x02] 5 = Ok false
  /\ Checksum ex_hasher [] = Err "empty".
Proof.
  repeat split; try reflexivity. intros x. unfold ex_hasher. cbn [h_sum]. rewrite firstn_length, app_length, repeat_length. lia.
Qed.

(** C02. *)
Theorem C02_rand_entropy (src : entropy) (n : Z) :
  0 <= n < 2 ^ 32 -> Z.of_nat (length (e_bytes src)) <= n ->
  (exists b, RandEntropy src n = Ok b /\ Z.of_nat (length b) = n /\ b = e_bytes src /\ e_err src = None)
  \/ (exists e, RandEntropy src n = Err e /\
       (e_err src <> None \/ Z.of_nat (length (e_bytes src)) < n)).
Proof. exact (rand_entropy_spec src n). Qed.
Print Assumptions C02_rand_entropy.

Theorem C02_short_read_is_error (src : entropy) (n : Z) :
  0 <= n < 2 ^ 32 -> Z.of_nat (length (e_bytes src)) < n ->
  exists e, RandEntropy src n = Err e.
Proof. exact (rand_entropy_short src n). Qed.
Print Assumptions C02_short_read_is_error.

(** The error texts; the numbers are in decimal. *)
Theorem C02_texts (src : entropy) (n : Z) : 0 <= n < 2 ^ 32 ->
  (forall e, e_err src = Some e -> RandEntropy src n = Err ("Error generating entropy " ++ e)%string) /\
  (e_err src = None -> Z.of_nat (length (e_bytes src)) < n ->
   RandEntropy src n = Err ("Error expected to read" ++ NilZero.string_of_int (Z.to_int n) ++ " bytes instead read " ++
     NilZero.string_of_int (Z.to_int (Z.of_nat (length (e_bytes src)))) ++ " bytes")%string).
Proof. exact (rand_entropy_texts src n). Qed.
Print Assumptions C02_texts.

Example C02_ex : RandEntropy (mkEntropy [Byte.x01; Byte.x02] None) 2 = Ok [Byte.x01; Byte.x02]
  /\ RandEntropy (mkEntropy [Byte.x01] None) 2 = Err "Error expected to read2 bytes instead read 1 bytes".
Proof. split; reflexivity. Qed.

Theorem C01_short_digest_panics (H : hasher) (d dg : bytes) (w : Z) :
  Xxhash H d = Ok dg -> (length dg < 4)%nat -> Checksum H d = Panic /\ CompareChecksum H d w = Panic.
Proof. exact (checksum_short H d dg w). Qed.
Print Assumptions C01_short_digest_panics.

Example C01_short_ex : CompareChecksum (mkHasher (fun _ => None) (fun _ => [Byte.x01])) [] 1 = Panic.
Proof. reflexivity. Qed.

(** C72.  The five one-shot functions. *)
Theorem C72_one_shot (H : hasher) (bs : bytes) (ctor : string) :
  (h_write H bs = None ->
   Sha3256 H bs = Ok (h_sum H bs) /\ Sha3512 H bs = Ok (h_sum H bs) /\ Xxhash H bs = Ok (h_sum H bs) /\
   Blake2b256 (Ok H) bs = Ok (h_sum H bs) /\ Blake2b512 (Ok H) bs = Ok (h_sum H bs)) /\
  (forall e, h_write H bs = Some e ->
   Sha3256 H bs = Err e /\ Sha3512 H bs = Err e /\ Xxhash H bs = Err e /\
   Blake2b256 (Ok H) bs = Err e /\ Blake2b512 (Ok H) bs = Err e) /\
  Blake2b256 (Err ctor) bs = Err ctor /\ Blake2b512 (Err ctor) bs = Err ctor.
Proof. exact (one_shot H bs ctor). Qed.
Print Assumptions C72_one_shot.

(** On an object that obeys io.Writer (no error: everything absorbed), PerformHash
    continues from what was written before. *)
Theorem C72_object (A : algo) (st bs : bytes) :
  (forall p x, snd (al_write A p x) = None -> fst (al_write A p x) = length x) ->
  (snd (al_write A st bs) = None -> PerformHashOn A st bs = (st ++ bs, Ok (al_sum A (st ++ bs)))) /\
  (forall e, snd (al_write A st bs) = Some e -> snd (PerformHashOn A st bs) = Err e).
Proof. exact (object A st bs). Qed.
Print Assumptions C72_object.

(** On a fresh object it is the one-shot hash. *)
Theorem C72_fresh (A : algo) (bs : bytes) :
  (forall p x, snd (al_write A p x) = None -> fst (al_write A p x) = length x) ->
  snd (PerformHashOn A [] bs) = PerformHash (fresh_hasher A) bs.
Proof. exact (object_fresh A bs). Qed.
Print Assumptions C72_fresh.

(** Reusing one object for several payloads gives the digests of the concatenations of
    all payloads so far. *)
Theorem C72_reuse (A : algo) (st : bytes) (l : list bytes) (k : nat) :
  (forall p x, al_write A p x = (length x, None)) -> (k < length l)%nat ->
  nth_error (PerformAll A st l) k = Some (Ok (al_sum A (st ++ concat (firstn (S k) l)))).
Proof. exact (object_reuse A st l k). Qed.
Print Assumptions C72_reuse.

(** So it is not true that PerformHash depends on its payload only. *)
Theorem C72_payload_only_refuted :
  ~ (forall A st st' bs, (forall p x, al_write A p x = (length x, None)) ->
       snd (PerformHashOn A st bs) = snd (PerformHashOn A st' bs)).
Proof.
  intros C.
  specialize (C (mkAlgo (fun _ x => (length x, None)) (fun x => x)) [] [Byte.x01] [] (fun _ _ => eq_refl)).
  discriminate C.
Qed.
Print Assumptions C72_payload_only_refuted.

Definition ex_algo : algo := mkAlgo (fun _ x => (length x, None)) (fun x => firstn 4 (rev x ++ repeat Byte.x00 4)).
Example C72_ex : PerformAll ex_algo [] [[Byte.x01]; [Byte.x02]; []] =
    [Ok [Byte.x01; Byte.x00; Byte.x00; Byte.x00]; Ok [Byte.x02; Byte.x01; Byte.x00; Byte.x00];
     Ok [Byte.x02; Byte.x01; Byte.x00; Byte.x00]] /\
  (forall p x, al_write ex_algo p x = (length x, None)).
Proof. split; [reflexivity|intros; reflexivity]. Qed.
