(** Properties C54-C60 *)
From Coq Require Import String ZArith List Lia Bool Arith Znumtheory Permutation.
From Coq Require Import Init.Byte.
From Verif Require Import GoModel GoFacts HashModel Bn BnInst BlsModel SpecBls BlsSessions BlsFacts BlsOps BlsProps BlsMore.
Import ListNotations.
Local Open Scope nat_scope.
Local Notation zero1 B := (mul1 B 0 (gen1 B)).
Local Notation pub B x := (mul2 B x (gen2 B)).

(** ** Example values: key pairs 2, 3, 4 in one memory *)
Definition ex_rd (b : byte) : reader := [RChunk [b]].
Definition ex_gen : M B5 (list (ptr * Z)) := mmap (GenKeyPair B5) [ex_rd x01; ex_rd x02; ex_rd x03].
Definition ex_m : mem B5 := snd (ex_gen mem0).
Definition ex_k (i : nat) : ptr := Some i.
Definition ex_msg : bytes := [x61; x62].
Example ex_keys : fst (ex_gen mem0) = Ok [(ex_k 0, 2%Z); (ex_k 1, 3%Z); (ex_k 2, 4%Z)].
Proof. reflexivity. Qed.
Lemma ex_pk0 : pk_is ex_m (ex_k 0) (pub B5 2). Proof. exists 0, 0. repeat split. Qed.
Lemma ex_pk1 : pk_is ex_m (ex_k 1) (pub B5 3). Proof. exists 1, 1. repeat split. Qed.
Lemma ex_pk2 : pk_is ex_m (ex_k 2) (pub B5 4). Proof. exists 2, 2. repeat split. Qed.
Definition result {A} (x : M B5 A) (m : mem B5) : res A := fst (x m).

(** ** C54.  Signatures verify. *)
Theorem C54_generate B r m :
  match rand_k B r with
  | Ok x => exists pk m', GenKeyPair B r m = (Ok (pk, x), m') /\ ext m m' /\ pk_is m' pk (pub B x)
  | Err e => GenKeyPair B r m = (Err e, m)
  | Panic => GenKeyPair B r m = (Panic, m)
  end.
Proof.
  destruct (rand_k B r) as [x|e|] eqn:E; [exact (GenKeyPair_ok r m x E)|exact (GenKeyPair_err r m e E)|]. unfold GenKeyPair, mbind, lift. rewrite E. reflexivity.
Qed.
Print Assumptions C54_generate.
Theorem C54_unsafe_sign_verify B (OK : bn_ok B) m x pk msg : pk_is m pk (pub B x) ->
  exists m', (do u <- UnsafeSign B x msg; VerifyUnsafe B pk msg u) m = (Ok tt, m') /\ ext m m'.
Proof. exact (sign_verify_unsafe OK m x pk msg). Qed.
Print Assumptions C54_unsafe_sign_verify.
Theorem C54_sign_verify B (OK : bn_ok B) m x pk msg : pk_is m pk (pub B x) ->
  exists m', (do apk <- NewApk B pk; do s <- Sign B x pk msg; Verify B apk msg s) m = (Ok tt, m') /\ ext m m'.
Proof. exact (sign_verify OK m x pk msg). Qed.
Print Assumptions C54_sign_verify.
Example C54_ex : result (do u <- UnsafeSign B5 2 ex_msg; VerifyUnsafe B5 (ex_k 0) ex_msg u) ex_m = Ok tt /\
  result (do apk <- NewApk B5 (ex_k 0); do s <- Sign B5 2 (ex_k 0) ex_msg; Verify B5 apk ex_msg s) ex_m = Ok tt /\
  result (do u <- UnsafeSign B5 2 ex_msg; VerifyUnsafe B5 (ex_k 1) ex_msg u) ex_m = Err "bls apk: Invalid Signature.".
Proof. repeat split; vm_compute; reflexivity. Qed.

(** ** C55.  Multi-signatures verify; the aggregates do not depend on order or manner. *)
Theorem C55_multisig_verifies B (OK : bn_ok B) m x pk l flags msg : pk_is m pk (pub B x) -> Forall (signer m msg) l -> length flags = length l ->
  (exists m', (do apk <- multikey pk (combine (map (fun s => snd (fst s)) l) flags); do s <- multisign x pk l msg; Verify B apk msg s) m = (Ok tt, m') /\ ext m m') /\
  (exists m', (do apk <- AggregateApk B (pk :: map (fun s => snd (fst s)) l); do s <- multisign x pk l msg; Verify B apk msg s) m = (Ok tt, m') /\ ext m m').
Proof.
  intros HP F L. pose proof (signer_keys _ _ _ F) as K. split; eapply (multisig_verify OK); try eassumption; try reflexivity.
  - apply (multikey_ok OK); [exact HP|]. replace (map fst (combine (map (fun s => snd (fst s)) l) flags)) with (map (fun s : Z * ptr * how => snd (fst s)) l); [exact K|].
    clear - L. revert flags L. induction l as [|s l IH]; intros [|f flags] L; try discriminate; [reflexivity|]. cbn [map combine fst]. f_equal. apply IH. injection L as L. exact L.
  - apply (AggregateApk_ok OK); assumption.
Qed.
Print Assumptions C55_multisig_verifies.
(** the aggregated key: the same point for every order and manner of aggregation, in any memory *)
Theorem C55_key_order B (OK : bn_ok B) m pk P l Ps m' pk' P' l' Ps' :
  pk_is m pk P -> Forall2 (pk_is m) (map fst l) Ps -> pk_is m' pk' P' -> Forall2 (pk_is m') (map fst l') Ps' -> Permutation (P :: Ps) (P' :: Ps') ->
  exists A, A = apk_of (P :: Ps) /\ (exists apk n, multikey pk l m = (Ok apk, n) /\ ext m n /\ apk_is n apk A) /\
    (exists apk n, AggregateApk B (pk :: map fst l) m = (Ok apk, n) /\ ext m n /\ apk_is n apk A) /\
    (exists apk n, multikey pk' l' m' = (Ok apk, n) /\ ext m' n /\ apk_is n apk A).
Proof.
  intros H1 H2 H3 H4 Pm. exists (apk_of (P :: Ps)). split; [reflexivity|]. split; [exact (multikey_ok OK m pk P l Ps H1 H2)|]. split; [exact (AggregateApk_ok OK m pk (map fst l) P Ps H1 H2)|].
  rewrite (apk_of_perm OK _ _ Pm). exact (multikey_ok OK m' pk' P' l' Ps' H3 H4).
Qed.
Print Assumptions C55_key_order.
(** the same for the signature *)
Theorem C55_sig_order B (OK : bn_ok B) m x pk l m' x' pk' l' msg :
  pk_is m pk (pub B x) -> Forall (signer m msg) l -> pk_is m' pk' (pub B x') -> Forall (signer m' msg) l' ->
  Permutation (x :: map (fun s => fst (fst s)) l) (x' :: map (fun s => fst (fst s)) l') ->
  exists S, S = sum1 (map (fun y => sig_of y (pub B y) msg) (x :: map (fun s => fst (fst s)) l)) /\
    (exists s n, multisign x pk l msg m = (Ok s, n) /\ ext m n /\ sig_is n s S) /\ (exists s n, multisign x' pk' l' msg m' = (Ok s, n) /\ ext m' n /\ sig_is n s S).
Proof.
  intros H1 H2 H3 H4 Pm. eexists. split; [reflexivity|].
  assert (E : forall x l, map (fun y => sig_of y (pub B y) msg) (x :: map (fun s : Z * ptr * how => fst (fst s)) l) = parts ((x, pub B x) :: map xP l) msg).
  { intros y k. unfold parts. cbn [map fst snd]. rewrite !map_map. reflexivity. }
  split.
  - rewrite E. exact (multisign_ok OK m x pk (pub B x) l (map xP l) msg H1 (signers_ok _ _ _ H2)).
  - rewrite (sum1_perm OK _ _ (Permutation_map (fun y => sig_of y (pub B y) msg) Pm)), E. exact (multisign_ok OK m' x' pk' (pub B x') l' (map xP l') msg H3 (signers_ok _ _ _ H4)).
Qed.
Print Assumptions C55_sig_order.
(** no keys at all, or a nil key: nil or a panic *)
Theorem C55_nil B (OK : bn_ok B) m pk P pks : pk_is m pk P ->
  AggregateApk B [] m = (Ok None, m) /\ NewApk B None m = (Ok None, m) /\ AggregateApk B [None] m = (Ok None, m) /\
  (exists m', AggregateApk B (None :: pk :: pks) m = (Panic, m')) /\ (exists m', AggregateApk B (pk :: None :: pks) m = (Panic, m')).
Proof.
  intros H. split; [reflexivity|]. split; [reflexivity|]. split; [reflexivity|]. split.
  - cbn [AggregateApk NewApk]. unfold mbind at 1, ret. cbn [agg_loop]. unfold apk_Aggregate. destruct (pkt_ok OK _ _ _ H) as [ma [Ea _]]. exists ma.
    unfold mbind at 1. rewrite (mbind_ok _ _ _ _ _ Ea). reflexivity.
  - cbn [AggregateApk]. destruct (NewApk_ok OK m pk P H) as [apk [ma [b [Ea _]]]]. rewrite (mbind_ok _ _ _ _ _ Ea). exists ma. reflexivity.
Qed.
Print Assumptions C55_nil.
Definition ex_signers : list (Z * ptr * how) := [(3%Z, ex_k 1, HAdd); (4%Z, ex_k 2, HCompressed); (2%Z, ex_k 0, HBytes); (3%Z, ex_k 1, HAggregate)].
Lemma ex_signers_ok : Forall (signer ex_m ex_msg) ex_signers.
Proof. repeat constructor; try apply ex_pk0; try apply ex_pk1; try apply ex_pk2; try discriminate. Qed.
Example C55_ex : result (do apk <- multikey (ex_k 0) [(ex_k 1, true); (ex_k 2, false); (ex_k 0, true); (ex_k 1, false)];
    do s <- multisign 2 (ex_k 0) ex_signers ex_msg; do _ <- Verify B5 apk ex_msg s; sig_Marshal B5 s) ex_m =
  result (do apk <- AggregateApk B5 [ex_k 1; ex_k 1; ex_k 0; ex_k 2; ex_k 0];
    do s <- multisign 3 (ex_k 1) [(4%Z, ex_k 2, HAggregate); (2%Z, ex_k 0, HAdd); (3%Z, ex_k 1, HAdd); (2%Z, ex_k 0, HAdd)] ex_msg; do _ <- Verify B5 apk ex_msg s; sig_Marshal B5 s) ex_m.
Proof. vm_compute. reflexivity. Qed.

(** ** C56.  Exactly one signature is accepted. *)
Theorem C56_one_signature B (OK : bn_ok B) P msg : exists S,
  (forall m apk s S', apk_is m apk P -> sig_is m s S' -> (S' = S /\ Verify B apk msg s m = (Ok tt, m)) \/ (S' <> S /\ Verify B apk msg s m = (Err "bls apk: Invalid Signature."%string, m))) /\
  (forall m pk u S', pk_is m pk P -> usig_is m u S' -> (S' = S /\ VerifyUnsafe B pk msg u m = (Ok tt, m)) \/ (S' <> S /\ VerifyUnsafe B pk msg u m = (Err "bls apk: Invalid Signature."%string, m))).
Proof.
  destruct (valid_exists OK P msg) as [S HS]. exists S. split; intros m k s S' H1 H2.
  - destruct (Verify_spec OK m k P msg s S' H1 H2) as [r [E [[-> V]|[-> V]]]]; [left|right]; rewrite E; (split; [|eauto]).
    + exact (valid_unique OK P msg _ _ V HS).
    + intros ->. contradiction.
  - destruct (VerifyUnsafe_spec OK m k P msg s S' H1 H2) as [r [E [[-> V]|[-> V]]]]; [left|right]; rewrite E; (split; [|eauto]).
    + exact (valid_unique OK P msg _ _ V HS).
    + intros ->. contradiction.
Qed.
Print Assumptions C56_one_signature.
Theorem C56_one_key B (OK : bn_ok B) m apk P apk' P' msg s S : apk_is m apk P -> apk_is m apk' P' -> sig_is m s S -> ~ (ord B | hm (B := B) msg)%Z ->
  Verify B apk msg s m = (Ok tt, m) -> Verify B apk' msg s m = (Ok tt, m) -> P = P'.
Proof.
  intros H1 H2 H3 N E1 E2. apply (valid_key OK P P' msg S N); [apply (Verify_ok_iff OK m apk P msg s S H1 H3), E1|apply (Verify_ok_iff OK m apk' P' msg s S H2 H3), E2].
Qed.
Print Assumptions C56_one_key.
(** the condition on the message hash is needed: otherwise the point at infinity is a signature for all keys *)
Theorem C56_zero_hash B (OK : bn_ok B) m apk P msg s : apk_is m apk P -> sig_is m s (zero1 B) -> (ord B | hm (B := B) msg)%Z -> Verify B apk msg s m = (Ok tt, m).
Proof.
  intros H1 H2 D. apply (Verify_ok_iff OK m apk P msg s _ H1 H2). destruct (cyc2 B OK P) as [a ->]. apply (valid_exp OK). rewrite Z.sub_0_r. apply Z.divide_mul_l. exact D.
Qed.
Print Assumptions C56_zero_hash.
Example C56_ex : (hm (B := B5) ex_msg mod 5)%Z = 2%Z /\
  result (do apk <- NewApk B5 (ex_k 0); do t <- NewApk B5 (ex_k 1); do s <- Sign B5 2 (ex_k 0) ex_msg; Verify B5 t ex_msg s) ex_m = Err "bls apk: Invalid Signature.".
Proof. split; vm_compute; reflexivity. Qed.
Example C56_ex_zero : result (do apk <- NewApk B5 (ex_k 0); do s <- Sign B5 0 (ex_k 1) [x03]; Verify B5 apk [x03] s) ex_m = Ok tt.
Proof. vm_compute. reflexivity. Qed.

(** ** C57.  Batch verification. *)
Theorem C57_lengths B m apks msgs s : length msgs <> length apks ->
  VerifyBatch B apks msgs s m = (Err ("BLS Verify APK Batch: the nr of Public Keys (" ++ dec (length apks) ++ ") and the nr. of messages (" ++ dec (length msgs) ++ ") do not match")%string, m).
Proof. exact (VerifyBatch_len m apks msgs s). Qed.
Print Assumptions C57_lengths.
Theorem C57_repeated_digest B m apks Ps msgs s S : Forall2 (apk_is (B := B) m) apks Ps -> sig_is m s S -> length msgs = length apks -> ~ NoDup (map (sha3 B) msgs) ->
  VerifyBatch B apks msgs s m = (Err "bls: Messages are not distinct"%string, m).
Proof. exact (VerifyBatch_dup m apks Ps msgs s S). Qed.
Print Assumptions C57_repeated_digest.
Theorem C57_decides B (OK : bn_ok B) m apks Ps msgs s S : Forall2 (apk_is m) apks Ps -> sig_is m s S -> length msgs = length apks -> msgs <> [] -> NoDup (map (sha3 B) msgs) ->
  exists r, VerifyBatch B apks msgs s m = (r, m) /\ (r = Ok tt /\ batch_valid Ps msgs S \/ r = Err "bls: Invalid Signature"%string /\ ~ batch_valid Ps msgs S).
Proof. exact (VerifyBatch_spec OK m apks Ps msgs s S). Qed.
Print Assumptions C57_decides.
(** a batch is valid for exactly one signature, the sum of the valid ones *)
Theorem C57_batch_valid B (OK : bn_ok B) Ps msgs Ts : length Ts = length msgs -> length msgs = length Ps ->
  (forall i P msg T, nth_error Ps i = Some P -> nth_error msgs i = Some msg -> nth_error Ts i = Some T -> valid P msg T) ->
  forall S, batch_valid (B := B) Ps msgs S <-> S = sum1 Ts.
Proof.
  intros L1 L2 V S. pose proof (batch_valid_sum Ps msgs Ts L1 L2 V) as K. split; [intros X; exact (batch_valid_unique OK msgs Ps S _ X K)|intros ->; exact K].
Qed.
Print Assumptions C57_batch_valid.
Theorem C57_unsafe_batch B (OK : bn_ok B) m l pks : l <> [] -> Forall2 (pk_is m) pks (map (fun xm => pub B (fst xm)) l) -> NoDup (map (sha3 B) (map snd l)) ->
  exists m', (do us <- mmap (fun xm => UnsafeSign B (fst xm) (snd xm)) l; do u <- UnsafeBatch B us; VerifyUnsafeBatch B pks (map snd l) u) m = (Ok tt, m') /\ ext m m'.
Proof. exact (unsafe_batch_verify OK m l pks). Qed.
Print Assumptions C57_unsafe_batch.
Theorem C57_empty_panics B (OK : bn_ok B) m s S : sig_is m s S -> VerifyBatch B [] [] s m = (Panic, m).
Proof. exact (VerifyBatch_empty OK m s S). Qed.
Print Assumptions C57_empty_panics.
Definition ex_batch : list (Z * bytes) := [(2%Z, [x61]); (3%Z, [x61; x62]); (4%Z, [x61; x62; x64])].
Example C57_ex : result (do us <- mmap (fun xm => UnsafeSign B5 (fst xm) (snd xm)) ex_batch; do u <- UnsafeBatch B5 us; VerifyUnsafeBatch B5 [ex_k 0; ex_k 1; ex_k 2] (map snd ex_batch) u) ex_m = Ok tt /\
  result (do us <- mmap (fun xm => UnsafeSign B5 (fst xm) (snd xm)) ex_batch; do u <- UnsafeBatch B5 us; VerifyUnsafeBatch B5 [ex_k 1; ex_k 0; ex_k 2] (map snd ex_batch) u) ex_m = Err "bls: Invalid Signature".
Proof. split; vm_compute; reflexivity. Qed.
Example C57_ex_batch : result (do a <- NewApk B5 (ex_k 0); do b <- NewApk B5 (ex_k 1); do s <- Sign B5 2 (ex_k 0) [x61]; do t <- Sign B5 3 (ex_k 1) [x61; x62]; do s <- sig_Aggregate B5 s t;
    VerifyBatch B5 [a; b] [[x61]; [x61; x62]] s) ex_m = Ok tt /\
  result (do a <- NewApk B5 (ex_k 0); do b <- NewApk B5 (ex_k 1); do s <- Sign B5 2 (ex_k 0) [x61]; VerifyBatch B5 [a; b] [[x61]; [x61]] s) ex_m = Err "bls: Messages are not distinct".
Proof. split; vm_compute; reflexivity. Qed.

(** ** C58.  Surplus keys are ignored, missing keys panic. *)
Theorem C58_surplus_unsafe_batch B m pks extra msgs u : Forall (fun p => exists a, p = Some a /\ a < length (mpk (B := B) m)) (pks ++ extra) -> length msgs <= length pks ->
  VerifyUnsafeBatch B (pks ++ extra) msgs u m = VerifyUnsafeBatch B pks msgs u m.
Proof. exact (VerifyUnsafeBatch_surplus m pks extra msgs u). Qed.
Print Assumptions C58_surplus_unsafe_batch.
Theorem C58_surplus_compressed B (m : mem B) g2s extra msgs c allow : length msgs <= length g2s -> VerifyCompressed B (g2s ++ extra) msgs c allow m = VerifyCompressed B g2s msgs c allow m.
Proof. exact (VerifyCompressed_surplus m g2s extra msgs c allow). Qed.
Print Assumptions C58_surplus_compressed.
Theorem C58_missing_key_panics B (OK : bn_ok B) m pks Ps msgs u S : Forall2 (pk_is m) pks Ps -> usig_is m u S -> length pks < length msgs -> NoDup (map (sha3 B) msgs) ->
  VerifyUnsafeBatch B pks msgs u m = (Panic, m).
Proof. exact (VerifyUnsafeBatch_few OK m pks Ps msgs u S). Qed.
Print Assumptions C58_missing_key_panics.
Theorem C58_missing_key_panics_compressed B (OK : bn_ok B) m g2s Ps msgs c S allow : Forall2 (g2_is m) g2s Ps -> decompress B c = Some S -> length g2s < length msgs ->
  (allow = true \/ NoDup (map (sha3 B) msgs)) -> fst (VerifyCompressed B g2s msgs c allow m) = Panic.
Proof. exact (VerifyCompressed_few OK m g2s Ps msgs c S allow). Qed.
Print Assumptions C58_missing_key_panics_compressed.
(** what VerifyCompressed decides otherwise, and VerifyUnsafeBatch *)
Theorem C58_compressed_decides B (OK : bn_ok B) m g2s Ps msgs c S allow : Forall2 (g2_is m) g2s Ps -> decompress B c = Some S -> length msgs <= length g2s -> msgs <> [] ->
  (allow = true \/ NoDup (map (sha3 B) msgs)) ->
  exists r m', VerifyCompressed B g2s msgs c allow m = (r, m') /\ ext m m' /\ (r = Ok tt /\ batch_valid Ps msgs S \/ r = Err "bls: Invalid Signature"%string /\ ~ batch_valid Ps msgs S).
Proof. exact (VerifyCompressed_spec OK m g2s Ps msgs c S allow). Qed.
Print Assumptions C58_compressed_decides.
Theorem C58_compressed_errors B (m : mem B) g2s msgs c allow : (decompress B c = None -> VerifyCompressed B g2s msgs c allow m = (Err "bn256: malformed point", m)) /\
  (decompress B c <> None -> ~ NoDup (map (sha3 B) msgs) -> fst (VerifyCompressed B g2s msgs c false m) = Err "bls: Messages are not distinct"%string).
Proof.
  split; [exact (VerifyCompressed_malformed m g2s msgs c allow)|]. intros N D. destruct (decompress B c) as [S|] eqn:E; [|contradiction]. exact (VerifyCompressed_dup m g2s msgs c S E D).
Qed.
Print Assumptions C58_compressed_errors.
Theorem C58_unsafe_batch_decides B (OK : bn_ok B) m pks Ps msgs u S : Forall2 (pk_is m) pks Ps -> usig_is m u S -> length msgs <= length pks -> msgs <> [] -> NoDup (map (sha3 B) msgs) ->
  exists r, VerifyUnsafeBatch B pks msgs u m = (r, m) /\ (r = Ok tt /\ batch_valid Ps msgs S \/ r = Err "bls: Invalid Signature"%string /\ ~ batch_valid Ps msgs S).
Proof. exact (VerifyUnsafeBatch_spec OK m pks Ps msgs u S). Qed.
Print Assumptions C58_unsafe_batch_decides.
Example C58_ex : result (do u <- UnsafeSign B5 2 ex_msg; VerifyUnsafeBatch B5 [ex_k 0; ex_k 1; ex_k 2] [ex_msg] u) ex_m = Ok tt /\
  result (do u <- UnsafeSign B5 2 ex_msg; VerifyUnsafeBatch B5 [ex_k 0] [ex_msg; [x01]] u) ex_m = Panic /\
  result (do u <- UnsafeSign B5 2 ex_msg; do c <- usig_Compress B5 u; VerifyCompressed B5 [Some 0; None; Some 77] [ex_msg] c true) ex_m = Ok tt.
Proof. repeat split; vm_compute; reflexivity. Qed.

(** ** C59.  From one signature a signature on every message can be computed. *)
Theorem C59_forgery B (OK : bn_ok B) msg : ~ (ord B | hm (B := B) msg)%Z -> exists k,
  (forall m apk P s S msg' m' s', apk_is m apk P -> sig_is m s S -> Verify B apk msg s m = (Ok tt, m) ->
     apk_is m' apk P -> sig_is m' s' (mul1 B (hm (B := B) msg' * k) S) -> Verify B apk msg' s' m' = (Ok tt, m')) /\
  (forall m pk P u U msg' m' u', pk_is m pk P -> usig_is m u U -> VerifyUnsafe B pk msg u m = (Ok tt, m) ->
     pk_is m' pk P -> usig_is m' u' (mul1 B (hm (B := B) msg' * k) U) -> VerifyUnsafe B pk msg' u' m' = (Ok tt, m')).
Proof.
  intros N. destruct (inverse_exists OK _ N) as [k K]. exists k. split.
  - intros m apk P s S msg' m' s' H1 H2 E H3 H4. apply (Verify_ok_iff OK m' apk P msg' s' _ H3 H4). apply (forge_valid OK P msg); [|exact K]. apply (Verify_ok_iff OK m apk P msg s S H1 H2), E.
  - intros m pk P u U msg' m' u' H1 H2 E H3 H4. apply (VerifyUnsafe_ok_iff OK m' pk P msg' u' _ H3 H4). apply (forge_valid OK P msg); [|exact K]. apply (VerifyUnsafe_ok_iff OK m pk P msg u U H1 H2), E.
Qed.
Print Assumptions C59_forgery.
(** the signature on ex_msg (hash 2, inverse 3) gives one on the message x (hash 2) *)
Example C59_ex : result (do u <- UnsafeSign B5 4 ex_msg; do b <- usig_Marshal B5 u;
    match unm1 B5 b with Some (T, _) => do e <- new1 B5 (mul1 B5 (2 * 3) T); do u' <- newusig B5 e; VerifyUnsafe B5 (ex_k 2) [x78] u' | None => panic end) ex_m = Ok tt.
Proof. vm_compute. reflexivity. Qed.

(** ** C60.  Rogue keys. *)
Theorem C60_rogue_key B (OK : bn_ok B) P x' : let P' := add2 B (pub B x') (mul2 B (ord B - 1) P) in forall m pk pk' msg, pk_is m pk P -> pk_is m pk' P' ->
  (exists m', (do agg <- pk_Aggregate B pk pk'; do u <- UnsafeSign B x' msg; VerifyUnsafe B agg msg u) m = (Ok tt, m') /\ ext m m') /\
  (usig_of x' msg <> zero1 B -> forall g g', g2_is m g P -> g2_is m g' P' ->
     exists m', VerifyCompressed B [g; g'] [msg; msg] (compress B (usig_of x' msg)) true m = (Ok tt, m') /\ ext m m').
Proof.
  intros P' m pk pk' msg H1 H2. pose proof (rogue_key OK P x') as HP. fold P' in HP. split.
  - destruct (pk_Aggregate_ok OK m pk pk' P P' H1 H2) as [agg [ma [Ea [Xa Ia]]]]. rewrite (mbind_ok _ _ _ _ _ Ea). rewrite HP in Ia.
    destruct (sign_verify_unsafe OK ma x' agg msg Ia) as [mb [Eb Xb]]. exists mb. split; [exact Eb|eapply ext_trans; eassumption].
  - intros N g g' G G'. destruct (VerifyCompressed_spec OK m [g; g'] [P; P'] [msg; msg] (compress B (usig_of x' msg)) (usig_of x' msg) true) as [r [m' [E [X [[-> _]|[_ V]]]]]].
    + repeat constructor; assumption.
    + apply (decompress_compress B OK). exact N.
    + apply Nat.le_refl.
    + discriminate.
    + left. reflexivity.
    + exists m'. auto.
    + exfalso. apply V. apply (rogue_batch OK). exact HP.
Qed.
Print Assumptions C60_rogue_key.
Theorem C60_repeats_rejected B m pks Ps msgs u S i j : Forall2 (pk_is (B := B) m) pks Ps -> usig_is m u S -> i < j < length msgs -> nth_error msgs i = nth_error msgs j ->
  VerifyUnsafeBatch B pks msgs u m = (Err "bls: Messages are not distinct"%string, m).
Proof.
  intros F H [I J] E. apply (VerifyUnsafeBatch_dup m pks Ps msgs u S F H). intros N. rewrite NoDup_nth_error in N. assert (X : i = j); [|lia].
  apply N; [rewrite map_length; lia|]. rewrite !nth_error_map, E. reflexivity.
Qed.
Print Assumptions C60_repeats_rejected.
(** key 2 is honest, the attacker has x' = 1 and publishes the point 4 = 1 - 2 of the example group, here the third key *)
Example C60_ex : result (do agg <- pk_Aggregate B5 (ex_k 0) (ex_k 2); do u <- UnsafeSign B5 1 ex_msg; VerifyUnsafe B5 agg ex_msg u) ex_m = Ok tt /\
  result (VerifyCompressed B5 [Some 0; Some 2] [ex_msg; ex_msg] (compress B5 (usig_of (B := B5) 1 ex_msg)) true) ex_m = Ok tt.
Proof. split; vm_compute; reflexivity. Qed.
