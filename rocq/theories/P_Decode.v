(** What the decoders accept: property C73 *)
From Coq Require Import String ZArith List Arith Lia.
From Coq Require Import Init.Byte.
From Verif Require Import GoModel GoFacts ReadModel ReadFacts StreamFacts Fld Rist RistInst PedersenModel InnerProductModel RangeProofModel MlsagModel SpecDecode DecodeFacts.
Import ListNotations.
Local Open Scope string_scope.
Local Open Scope list_scope.

(** ** C73.  The decoders accept exactly the encodings. *)
Theorem C73_commitment R c : decodes (com_Decode R c) (is_commitment R (c_blind R c)).
Proof. exact (parses_decodes _ _ (parses_com R c) (det_com R _)). Qed.
Print Assumptions C73_commitment.
Theorem C73_commitments R : decodes (DecodeCommitments R) (is_commitments R).
Proof. exact (parses_decodes _ _ (parses_coms R) (det_coms R)). Qed.
Print Assumptions C73_commitments.
Theorem C73_pubkeys R old n : decodes (pk_Decode R old n) (is_keys R old n).
Proof. exact (parses_decodes _ _ (parses_keys R old n) (det_keys R old n)). Qed.
Print Assumptions C73_pubkeys.
Theorem C73_responses R old n : decodes (rsp_Decode R old n) (is_responses R old n).
Proof. exact (parses_decodes _ _ (parses_rsp R old n) (det_rsp R old n)). Qed.
Print Assumptions C73_responses.
Theorem C73_mlsag R old keys : decodes (sig_Decode R old keys) (is_signature R old keys).
Proof. exact (parses_decodes _ _ (parses_sig R old keys) (det_sig R old keys)). Qed.
Print Assumptions C73_mlsag.
Theorem C73_range_proof R old commits : decodes_all (pf_Decode R old commits) (is_proof R old commits).
Proof. intros r F. exact (consumes_decodes _ _ r (consumes_pf R old commits) F). Qed.
Print Assumptions C73_range_proof.

Theorem C73_inner_product R old r : (forall e, ~ In (RFault e) r) ->
  let b := concat (map (fun x => match x with RChunk b => b | RFault _ => [] end) r) in
  (Z.of_nat (length b) < 2 ^ 38)%Z ->
  (forall p, exec (ipp_Decode R old) r = ((p, Ok tt), []) <-> is_ipp R b p) /\
  ((exists p e, fst (exec (ipp_Decode R old) r) = (p, Err e)) <-> length b < 64 \/ length b mod 32 <> 0).
Proof.
  intros F b. unfold b. clear b. rewrite (rbytes_concat r F). intros Z. destruct (ipp_cases R old r F Z) as [(p & X & I & U)|((q & e & X) & L & N)].
  - split.
    + intros w. rewrite X. split; [intros Q; injection Q as <-; exact I|intros Hw; now rewrite (U w Hw)].
    + rewrite X. cbn [fst]. split; [intros (? & ? & ?); discriminate|]. intros L. exfalso. destruct p as [L' R' a b].
      destruct I as (ba & bb & blr & extra & E' & [NA SA] & [NB SB] & LL & HS & HX). cbn [ip_L ip_R ip_A ip_B] in *.
      destruct (lr_decode_inv R L' R' blr extra LL HS) as [N3 _]. apply (f_equal (@length _)) in E'. rewrite !app_length in E'.
      destruct L as [L|L]; [lia|]. apply L.
      assert (Q : length (rbytes r) = (if Nat.eqb (length extra) 0 then 2 + 2 * length L' else 3 + 2 * length L') * 32) by (destruct (Nat.eqb_spec (length extra) 0); lia).
      rewrite Q. apply Nat.mod_mul. lia.
  - split.
    + intros w. split; [intros Q; rewrite Q in X; discriminate|intros H; exfalso; exact (N _ H)].
    + split; [intros _; exact L|intros _; eauto].
Qed.
Print Assumptions C73_inner_product.
(** A failing Decode leaves the receiver unchanged when there are fewer than 64 bytes; otherwise its
    A and B are already those of the input. *)
Theorem C73_inner_product_receiver R old r : (forall e, ~ In (RFault e) r) ->
  let b := concat (map (fun x => match x with RChunk b => b | RFault _ => [] end) r) in
  (length b < 64 -> exists e, fst (exec (ipp_Decode R old) r) = (old, Err e)) /\
  (64 <= length b -> length b mod 32 <> 0 ->
     exists q e, fst (exec (ipp_Decode R old) r) = (q, Err e) /\ ip_L R q = ip_L R old /\ ip_R R q = ip_R R old /\
       ip_A R q = sset R (firstn 32 b) /\ ip_B R q = sset R (firstn 32 (skipn 32 b))).
Proof.
  intros F b. unfold b. clear b. rewrite (rbytes_concat r F). split; [apply (ipp_short R old r F)|]. intros L M.
  destruct (split64 _ L) as (A & B & buf & E & LA & LB). rewrite (ipp_odd R old r A B buf F LA LB E).
  - eexists. eexists. split; [reflexivity|]. cbn [ip_L ip_R ip_A ip_B]. rewrite E, (firstn_pre 32 A _ LA), (skipn_pre 32 A _ LA), (firstn_pre 32 B _ LB). auto.
  - intros M'. apply M. rewrite E, !app_length, LA, LB. replace (32 + (32 + length buf)) with (length buf + 2 * 32) by lia. rewrite Nat.mod_add by lia. exact M'.
Qed.
Print Assumptions C73_inner_product_receiver.

(** accepted and rejected inputs *)
Example C73_ex_commitments R : is_commitments R [x00; x00; x00; x00] [] /\ fst (exec (DecodeCommitments R) [RChunk [x00; x00]; RChunk [x00; x00; x07]]) = Ok [] /\
  fst (exec (DecodeCommitments R) [RChunk [x00; x00; x00]]) = Err "unexpected EOF".
Proof.
  split; [|split; reflexivity]. exists [x00; x00; x00; x00], []. split; [reflexivity|]. split; [split; [split; [discriminate|reflexivity]|reflexivity]|].
  exists []. split; [reflexivity|constructor].
Qed.
Example C73_ex_point : is_point toy (pbytes toy (pbase toy)) (pbase toy) /\ (match pset toy (repeat xff 32) with None => true | Some _ => false end) = true.
Proof. split; [split; [apply (pbytes_len toy toy_ok)|apply (pset_pbytes toy toy_ok)]|]. vm_compute. reflexivity. Qed.
Example C73_ex_inner_product R : let b := repeat x00 64 in is_ipp R b (mkIPP R [] [] (sset R (repeat x00 32)) (sset R (repeat x00 32))) /\
  is_ipp R (b ++ repeat x00 32) (mkIPP R [] [] (sset R (repeat x00 32)) (sset R (repeat x00 32))) /\ length (b ++ [x00]) mod 32 <> 0.
Proof.
  split; [|split; [|discriminate]].
  - exists (repeat x00 32), (repeat x00 32), [], []. split; [reflexivity|]. split; [split; reflexivity|]. split; [split; reflexivity|]. split; [reflexivity|]. split; [exists []; split; [reflexivity|constructor]|auto].
  - exists (repeat x00 32), (repeat x00 32), [], (repeat x00 32). split; [reflexivity|]. split; [split; reflexivity|]. split; [split; reflexivity|]. split; [reflexivity|]. split; [exists []; split; [reflexivity|constructor]|auto].
Qed.
Example C73_ex_mlsag R old : exists s, is_signature R old false (repeat x00 32 ++ [x00; x00; x00; x01] ++ [x00; x00; x00; x00]) s.
Proof.
  exists (mkSig R (sset R (repeat x00 32)) [[]] (sg_pub R old) (sg_msg R old)).
  exists (repeat x00 32), [x00; x00; x00; x01], [x00; x00; x00; x00], [], [], 0%Z. split; [reflexivity|]. split; [split; reflexivity|].
  split; [split; [split; [discriminate|reflexivity]|reflexivity]|]. split; [split; [split; [discriminate|reflexivity]|reflexivity]|].
  split; [|split; [split; reflexivity|reflexivity]]. exists [[]]. split; [reflexivity|]. constructor; [|constructor]. exists []. split; [|split; reflexivity]. exists []. split; [reflexivity|constructor].
Qed.
