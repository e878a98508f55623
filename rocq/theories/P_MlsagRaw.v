(** C109: zero values of ristretto.Point among the keys and key images of multilayered ring signatures *)
From Coq Require Import String ZArith List Lia Bool Arith.
From Coq Require Import Init.Byte.
From Verif Require Import GoModel Fld Rist RistInst SpecVector SpecMlsag MlsagModel BlsagModel MlsagRaw MlsagRawFacts P_Blsag.
Import ListNotations.
Local Open Scope nat_scope.

(** ** On group elements Verify is the function of MlsagModel.v, whatever its arguments. *)
Theorem C109_agree R V (VOK : raw_ok R V) sub neg eqb s J :
  let L := raw_lib R V sub neg eqb in
  sig_Verify L (emb_sig R L (emb R V) s) (map (emb R V) J) = sig_Verify R s J.
Proof. exact (raw_agree sub neg eqb VOK s J). Qed.
Print Assumptions C109_agree.

(** ** Anybody can sign for a ring with a row of zero values, when the key images are zero values: the
    response [r] of that row and the other rows are arbitrary, and no private key is used.  The laws AB
    and AM are those of C69. *)
Theorem C109_forgery R V (AB : forall p, radd R V p (rzero R V) = rzero R V) (AM : forall s, s <> f0 -> rsmul R V s (rzero R V) = rzero R V)
  sub neg eqb msg n m r rows1 rows2 : 0 < n -> n <= m -> m <= length r ->
  let L := raw_lib R V sub neg eqb in
  let J := repeat (rzero R V) n in
  let h := sderive R (msg ++ concat (repeat (rbytes R V (rzero R V)) (m + n))) in
  let rows := rows1 ++ (repeat (rzero R V) m, r) :: rows2 in
  Forall (row_ok L J) (rows1 ++ rows2) -> ring_chain L msg J (rows2 ++ rows1) h <> f0 ->
  sig_Verify L (mkSig L (ring_chain L msg J rows2 h) (map snd rows) (map (fun row => mkPK L false (fst row)) rows) msg) J = Ok true.
Proof. exact (forge_zero sub neg eqb AB AM msg n m r rows1 rows2). Qed.
Print Assumptions C109_forgery.

(** ** Whoever has the private keys of one row can sign with zero values for key images, the same for
    every signer: the signature does not say whether a key was used before. *)
Theorem C109_unlinked R (OK : rist_ok R) V (VOK : raw_ok R V)
  (AB : forall p, radd R V p (rzero R V) = rzero R V) (AM : forall s, s <> f0 -> rsmul R V s (rzero R V) = rzero R V)
  sub neg eqb msg n xs nonces rows1 rows2 : 0 < n -> n <= length xs -> length nonces = length xs ->
  let L := raw_lib R V sub neg eqb in
  let J := repeat (rzero R V) n in
  let h := sderive R (msg ++ concat (map (fun a => pbytes R (smul R a (pbase R))) nonces) ++ concat (repeat (rbytes R V (rzero R V)) n)) in
  let c := ring_chain L msg J (rows2 ++ rows1) h in
  let rows := rows1 ++ (map (fun x => emb R V (smul R x (pbase R))) xs, zipw (fun a x => fsub a (fmul c x)) nonces xs) :: rows2 in
  Forall (row_ok L J) (rows1 ++ rows2) -> c <> f0 ->
  sig_Verify L (mkSig L (ring_chain L msg J rows2 h) (map snd rows) (map (fun row => mkPK L false (fst row)) rows) msg) J = Ok true.
Proof. exact (sign_zero sub neg eqb AB AM OK VOK msg n xs nonces rows1 rows2). Qed.
Print Assumptions C109_unlinked.

(** ** The private keys are needed all the same: if the keys of a row are group elements, two answers to
    different challenges that hash the same string give its private keys, whatever the key images are. *)
Theorem C109_keys R (OK : rist_ok R) V (VOK : raw_ok R V) sub neg eqb msg J K r r' c c' :
  length K <= length r -> length K <= length r' -> c <> c' ->
  let L := raw_lib R V sub neg eqb in
  let hashed r c := msg ++ concat (map (pbytes L) (row_points L J (map (emb R V) K) r c)) in
  hashed r c = hashed r' c' ->
  forall j k a b, nth_error K j = Some k -> nth_error r j = Some a -> nth_error r' j = Some b ->
  k = smul R (fmul (fsub a b) (finv (fsub c' c))) (pbase R).
Proof. exact (raw_keys sub neg eqb OK VOK msg J K r r' c c'). Qed.
Print Assumptions C109_keys.

(** ** Key images of accepted signatures need not be group elements. *)
Definition ex_lib (R : rist) : rist := raw_lib R (opt_raw R) (fun p _ => p) (fun p => p) (fun _ _ => false).
Lemma ex_accepted R (H : sderive R (repeat x00 64) <> f0) :
  sig_Verify (ex_lib R) (mkSig (ex_lib R) (sderive R (repeat x00 64)) [[f1]] [mkPK (ex_lib R) false [None]] []) [None] = Ok true.
Proof.
  apply (C109_forgery R (opt_raw R) (proj1 (opt_absorbs R)) (proj2 (opt_absorbs R)) (fun p _ => p) (fun p => p) (fun _ _ => false) [] 1 1 [f1] [] []).
  - lia.
  - lia.
  - cbn. lia.
  - constructor.
  - exact H.
Qed.
Theorem C109_images_refuted : ~ forall R (OK : rist_ok R) V (VOK : raw_ok R V) sub neg eqb s J,
  let L := raw_lib R V sub neg eqb in sig_Verify L s J = Ok true -> Forall (fun i => exists p, i = emb R V p) J.
Proof.
  intros H. assert (N : sderive tiny (repeat x00 64) <> f0) by exact f1_neq_f0.
  pose proof (H tiny (fin_rist_ok _) (opt_raw tiny) (opt_raw_ok tiny) _ _ _ _ _ (ex_accepted tiny N)) as X.
  apply Forall_inv in X. destruct X as [p X]. discriminate.
Qed.
Print Assumptions C109_images_refuted.

(** a signature with the private key 2 between two decoys and a zero-value key image, and a forged one *)
Example C109_ex : let L := ex_lib tiny in let J : list (pt L) := [None] in
  let rows1 : list (list (pt L) * list F) := [([Some (of_Z 5 : pt tiny)], [of_Z 7])] in
  let rows2 : list (list (pt L) * list F) := [([Some (of_Z 6 : pt tiny)], [of_Z 8])] in
  Forall (row_ok L J) (rows1 ++ rows2) /\ ring_chain L [x05] J (rows2 ++ rows1) f1 <> f0 /\
  sig_Verify L (mkSig L f1 [[of_Z 7]; [fsub (of_Z 9) (fmul f1 (of_Z 2))]; [of_Z 8]]
    [mkPK L false [Some (of_Z 5 : pt tiny)]; mkPK L false [Some (smul tiny (of_Z 2) (pbase tiny))]; mkPK L false [Some (of_Z 6 : pt tiny)]] [x05]) J = Ok true /\
  sig_Verify L (mkSig L f1 [[f1]] [mkPK L false [None]] []) J = Ok true.
Proof.
  cbv zeta. split; [repeat constructor; cbn; lia|]. split; [exact f1_neq_f0|]. split.
  - exact (C109_unlinked tiny (fin_rist_ok _) (opt_raw tiny) (opt_raw_ok tiny) (proj1 (opt_absorbs tiny)) (proj2 (opt_absorbs tiny))
      (fun p _ => p) (fun p => p) (fun _ _ => false) [x05] 1 [of_Z 2] [of_Z 9] [([Some (of_Z 5 : pt tiny)], [of_Z 7])] [([Some (of_Z 6 : pt tiny)], [of_Z 8])]
      ltac:(lia) ltac:(cbn; lia) eq_refl ltac:(repeat constructor; cbn; lia) f1_neq_f0).
  - exact (ex_accepted tiny f1_neq_f0).
Qed.
(** two answers for the key 2 with a zero-value key image *)
Example C109_ex_keys : let L := ex_lib tiny in let J : list (pt L) := [None] in f1 <> of_Z 2 /\
  concat (map (pbytes L) (row_points L J [Some (of_Z 2 : pt tiny)] [of_Z 7] f1)) = concat (map (pbytes L) (row_points L J [Some (of_Z 2 : pt tiny)] [of_Z 5] (of_Z 2))).
Proof. cbv zeta. split; [intros X; apply feqb_eq in X; vm_compute in X; discriminate|]. vm_compute. reflexivity. Qed.
