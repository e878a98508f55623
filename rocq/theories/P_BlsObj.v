(** Properties C61, C63, C64 *)
From Coq Require Import String ZArith List Lia Bool Arith.
From Coq Require Import Init.Byte.
From Verif Require Import GoModel GoFacts Base64Model Bn BnInst BlsModel SpecBls BlsSessions BlsFacts BlsOps BlsProps BlsHeapFacts BlsSep BlsMore BlsObj P_Bls.
Import ListNotations.
Local Open Scope nat_scope.
Local Notation zero1 B := (mul1 B 0 (gen1 B)).

(** ** C61.  Codecs round-trip. *)
(** bytes after the encoding are ignored; only the receiver changes *)
Theorem C61_public_key B (OK : bn_ok B) m pk P a tail : pk_is m pk P -> a < length (mpk m) ->
  (exists m', (do b <- pk_Marshal B pk; pk_Unmarshal B (Some a) (b ++ tail)) m = (Ok tt, m') /\ frame none none (only a) none none m m' /\ pk_is m' (Some a) P) /\
  (exists q m', (do b <- pk_Marshal B pk; UnmarshalPk B (b ++ tail)) m = (Ok q, m') /\ ext m m' /\ pk_is m' q P).
Proof.
  intros H L. rewrite !(mbind_ok _ _ _ _ _ (pk_Marshal_ok OK m pk P H)). split; [exact (pk_Unmarshal_marshal OK m a P tail L)|].
  exact (UnmarshalPk_ok m _ P tail (unm2_marshal B OK P tail)).
Qed.
Print Assumptions C61_public_key.
Theorem C61_text B (OK : bn_ok B) m pk P a : pk_is m pk P -> a < length (mpk m) ->
  exists m', (do t <- pk_MarshalText B pk; pk_UnmarshalText B (Some a) t) m = (Ok tt, m') /\ frame none none (only a) none none m m' /\ pk_is m' (Some a) P.
Proof. exact (text_round_trip OK m pk P a). Qed.
Print Assumptions C61_text.
Theorem C61_apk B (OK : bn_ok B) m apk P a c tail : apk_is m apk P -> nth_error (mapk m) a = Some (Some c) -> c < length (mpk m) ->
  (exists m', (do b <- apk_Marshal B apk; apk_Unmarshal B (Some a) (b ++ tail)) m = (Ok tt, m') /\ frame none none (only c) none none m m' /\ apk_is m' (Some a) P) /\
  (exists m', (do t <- apk_MarshalText B apk; apk_UnmarshalText B (Some a) t) m = (Ok tt, m') /\ frame none none (only c) none none m m' /\ apk_is m' (Some a) P) /\
  (exists q m', (do b <- apk_Marshal B apk; UnmarshalApk B (b ++ tail)) m = (Ok q, m') /\ ext m m' /\ apk_is m' q P).
Proof. exact (apk_round_trip OK m apk P a c tail). Qed.
Print Assumptions C61_apk.
Theorem C61_signature B (OK : bn_ok B) m s S a tail : sig_is m s S -> a < length (msig m) ->
  (exists m', (do b <- sig_Marshal B s; sig_Unmarshal B (Some a) (b ++ tail)) m = (Ok tt, m') /\ frame none none none (only a) none m m' /\ sig_is m' (Some a) S) /\
  (exists q m', (do b <- sig_Marshal B s; UnmarshalSignature B (b ++ tail)) m = (Ok q, m') /\ ext m m' /\ sig_is m' q S) /\
  (S <> zero1 B ->
   (exists m', (do b <- sig_Compress B s; sig_Decompress B (Some a) b) m = (Ok tt, m') /\ frame none none none (only a) none m m' /\ sig_is m' (Some a) S) /\
   (exists m', (do b <- sig_Compress B s; sig_Unmarshal B (Some a) b) m = (Ok tt, m') /\ frame none none none (only a) none m m' /\ sig_is m' (Some a) S) /\
   (exists q m', (do b <- sig_Compress B s; UnmarshalSignature B b) m = (Ok q, m') /\ ext m m' /\ sig_is m' q S)).
Proof. exact (sig_round_trip OK m s S a tail). Qed.
Print Assumptions C61_signature.
Theorem C61_unsafe_signature B (OK : bn_ok B) m s S a tail : usig_is m s S -> a < length (musig m) ->
  (exists m', (do b <- usig_Marshal B s; usig_Unmarshal B (Some a) (b ++ tail)) m = (Ok tt, m') /\ frame none none none none (only a) m m' /\ usig_is m' (Some a) S) /\
  (S <> zero1 B -> exists m', (do b <- usig_Compress B s; usig_Decompress B (Some a) b) m = (Ok tt, m') /\ frame none none none none (only a) m m' /\ usig_is m' (Some a) S).
Proof. exact (usig_round_trip OK m s S a tail). Qed.
Print Assumptions C61_unsafe_signature.
(** equal encodings mean equal keys and signatures *)
Theorem C61_injective B (OK : bn_ok B) m :
  (forall pk P pk' P', pk_is m pk P -> pk_is m pk' P' -> fst (pk_Marshal B pk m) = fst (pk_Marshal B pk' m) -> P = P') /\
  (forall s S s' S', sig_is m s S -> sig_is m s' S' -> fst (sig_Marshal B s m) = fst (sig_Marshal B s' m) -> S = S') /\
  (forall s S s' S', sig_is m s S -> sig_is m s' S' -> S <> zero1 B -> S' <> zero1 B -> fst (sig_Compress B s m) = fst (sig_Compress B s' m) -> S = S').
Proof. exact (encodings_inj OK m). Qed.
Print Assumptions C61_injective.
Example C61_ex : result (do s <- Sign B5 2 (ex_k 0) ex_msg; do c <- sig_Compress B5 s; do t <- UnmarshalSignature B5 c; do b <- sig_Marshal B5 t; do b' <- sig_Marshal B5 s; ret (bytes_eqb b b', length c, length b)) ex_m = Ok (true, 33, 64) /\
  result (do t <- pk_MarshalText B5 (ex_k 0); do _ <- pk_UnmarshalText B5 (ex_k 1) t; do b <- pk_Marshal B5 (ex_k 0); do b' <- pk_Marshal B5 (ex_k 1); ret (bytes_eqb b b')) ex_m = Ok true.
Proof. split; vm_compute; reflexivity. Qed.

(** ** C63.  Failed unmarshalling. *)
Theorem C63_signatures_intact B (m : mem B) s b e m' :
  (sig_Unmarshal B s b m = (Err e, m') -> m' = m) /\ (sig_Decompress B s b m = (Err e, m') -> m' = m) /\
  (usig_Unmarshal B s b m = (Err e, m') -> m' = m) /\ (usig_Decompress B s b m = (Err e, m') -> m' = m).
Proof. repeat split; [apply sig_Unmarshal_same|apply sig_Decompress_same|apply usig_Unmarshal_same|apply usig_Decompress_same]. Qed.
Print Assumptions C63_signatures_intact.
Theorem C63_aggregate_bytes B (m : mem B) p b e m' :
  (sig_AggregateBytes B p b m = (Err e, m') -> ext m m') /\ (apk_AggregateBytes B p b m = (Err e, m') -> ext m m').
Proof. split; [apply sig_AggregateBytes_ferr|apply apk_AggregateBytes_ferr]. Qed.
Print Assumptions C63_aggregate_bytes.
(** exactly the byte strings that cannot be decoded make them fail *)
Theorem C63_errors B (m : mem B) a b : a < length (msig m) ->
  (sig_Unmarshal B (Some a) b m = (Err err_unm, m) /\ (if length b =? 33 then decompress B b = None else unm1 B b = None)) \/
  (exists m', sig_Unmarshal B (Some a) b m = (Ok tt, m')) /\ (if length b =? 33 then decompress B b <> None else unm1 B b <> None).
Proof. exact (sig_Unmarshal_cases m a b). Qed.
Print Assumptions C63_errors.
(** a public key is replaced all the same *)
Theorem C63_keys_destroyed B (m : mem B) a b : a < length (mpk m) -> unm2 B b = None ->
  (exists m', pk_Unmarshal B (Some a) b m = (Err err_unm, m') /\ frame none none (only a) none none m m' /\ pk_val m' a (junk2 B b)) /\
  (exists m', pk_UnmarshalText B (Some a) (encodeToText b) m = (Err err_unm, m') /\ frame none none (only a) none none m m' /\ pk_val m' a (junk2 B b)).
Proof. exact (pk_destroyed m a b). Qed.
Print Assumptions C63_keys_destroyed.
Theorem C63_apk_destroyed B (m : mem B) a c b : nth_error (mapk m) a = Some (Some c) -> c < length (mpk m) -> unm2 B b = None ->
  (exists m', apk_Unmarshal B (Some a) b m = (Err err_unm, m') /\ frame none none (only c) none none m m' /\ apk_val m' (Some a) (junk2 B b)) /\
  (exists m', apk_UnmarshalText B (Some a) (encodeToText b) m = (Err err_unm, m') /\ frame none none (only c) none none m m' /\ apk_val m' (Some a) (junk2 B b)).
Proof. exact (apk_destroyed m a c b). Qed.
Print Assumptions C63_apk_destroyed.
(** not so when already the text is malformed *)
Theorem C63_text_errors B (m : mem B) pk t e : decodeText t = Err e -> pk_UnmarshalText B pk t m = (Err e, m).
Proof. intros E. unfold pk_UnmarshalText, mbind, lift. rewrite E. reflexivity. Qed.
Print Assumptions C63_text_errors.
Example C63_ex : result (do b <- pk_Marshal B5 (ex_k 0); fun m => let '(r, m') := pk_Unmarshal B5 (ex_k 0) [xff] m in pk_Marshal B5 (ex_k 0) m') ex_m <> result (pk_Marshal B5 (ex_k 0)) ex_m /\
  result (pk_Unmarshal B5 (ex_k 0) [xff]) ex_m = Err err_unm /\ result (pk_UnmarshalText B5 (ex_k 0) [x2b]) ex_m = Err "illegal base64 data" /\
  result (do s <- Sign B5 2 (ex_k 0) ex_msg; sig_AggregateBytes B5 s [xff]) ex_m = Err err_unm.
Proof. split; [vm_compute; discriminate|]. repeat split; vm_compute; reflexivity. Qed.

(** ** C64.  Only receivers change; copies are independent. *)
(** every call: only the parts of the receiver listed in changes1 ... may change *)
Theorem C64_frame B (o : op) (m : mem B) : frame (changes1 o m) (changes2 o m) (changespk o m) (changessig o) (changesusig o) m (after o m).
Proof. exact (after_frame o m). Qed.
Print Assumptions C64_frame.
(** the calls that change no existing object *)
Theorem C64_pure B (o : op) (m : mem B) : apk_receiver o = None -> pk_receiver o = None -> sig_receiver o = None -> usig_receiver o = None -> ext m (after o m).
Proof. exact (after_pure o m). Qed.
Print Assumptions C64_pure.
(** objects made by the API never share parts *)
Theorem C64_unshared B (l : list op) : unshared (history (B := B) l mem0).
Proof. exact (history_unshared l mem0 mem0_unshared). Qed.
Print Assumptions C64_unshared.
(** so an object keeps its value through every history without a call on it *)
Theorem C64_values_persist B (l0 l : list op) : let m := history (B := B) l0 mem0 in
  (forall apk P, apk_is m apk P -> (forall o, In o l -> apk_receiver o <> apk /\ forall c, pk_of_apk m apk c -> pk_receiver o <> Some c) -> apk_is (history l m) apk P) /\
  (forall a P, pk_is m (Some a) P -> (forall apk, ~ pk_of_apk m apk a) -> (forall o, In o l -> pk_receiver o <> Some a) -> pk_is (history l m) (Some a) P) /\
  (forall s S, sig_is m s S -> (forall o, In o l -> sig_receiver o <> s) -> sig_is (history l m) s S) /\
  (forall u S, usig_is m u S -> (forall o, In o l -> usig_receiver o <> u) -> usig_is (history l m) u S).
Proof. intros m. exact (values_persist l m (history_unshared l0 mem0 mem0_unshared)). Qed.
Print Assumptions C64_values_persist.
(** a copy is a new object with the same value; it keeps it whatever is done to others, and so does the original *)
Theorem C64_copy B (OK : bn_ok B) (l0 : list op) : let m := history (B := B) l0 mem0 in
  (forall s S, sig_is m s S -> exists c m', sig_Copy B s m = (Ok c, m') /\ ext m m' /\ c <> s /\
     forall l, ((forall o, In o l -> sig_receiver o <> c) -> sig_is (history l m') c S) /\ ((forall o, In o l -> sig_receiver o <> s) -> sig_is (history l m') s S)) /\
  (forall apk P, apk_is m apk P -> exists c m', apk_Copy B apk m = (Ok c, m') /\ ext m m' /\ c <> apk /\
     forall l, (forall o, In o l -> pk_receiver o = None) ->
       ((forall o, In o l -> apk_receiver o <> c) -> apk_is (history l m') c P) /\ ((forall o, In o l -> apk_receiver o <> apk) -> apk_is (history l m') apk P)).
Proof. intros m. exact (copy_independent OK m (history_unshared l0 mem0 mem0_unshared)). Qed.
Print Assumptions C64_copy.
(** the receiver's new value *)
Theorem C64_aggregate B (OK : bn_ok B) m :
  (forall s S o T, sig_is m s S -> sig_is m o T -> exists m' b, sig_Aggregate B s o m = (Ok s, m') /\ e_of_sig m s b /\ frame (only b) none none none none m m' /\ sig_is m' s (add1 B S T)) /\
  (forall s S pk P u T, sig_is m s S -> pk_is m pk P -> usig_is m u T -> exists m' b, sig_Add B s pk u m = (Ok tt, m') /\ e_of_sig m s b /\ frame (only b) none none none none m m' /\ sig_is m' s (add1 B S (mul1 B (ht P) T))) /\
  (forall apk A pk P, apk_is m apk A -> pk_is m pk P -> exists m' b, apk_Aggregate B apk pk m = (Ok tt, m') /\ gx_of_apk m apk b /\ frame none (only b) none none none m m' /\ apk_is m' apk (add2 B A (mul2 B (ht P) P))).
Proof. exact (aggregate_values OK m). Qed.
Print Assumptions C64_aggregate.
(** UnsafeBatch of one signature is that very object, of more a new one *)
Theorem C64_unsafe_batch B (OK : bn_ok B) m u T v V l Ts : 
  UnsafeBatch B [u] m = (Ok u, m) /\ UnsafeBatch B [] m = (Ok None, m) /\
  (usig_is m u T -> usig_is m v V -> Forall2 (usig_is m) l Ts ->
   exists w m', UnsafeBatch B (u :: v :: l) m = (Ok w, m') /\ ext m m' /\ usig_is m' w (sum1 (T :: V :: Ts)) /\ forall a, w = Some a -> length (musig m) <= a).
Proof. exact (unsafe_batch_objects OK m u T v V l Ts). Qed.
Print Assumptions C64_unsafe_batch.
(** a signature aggregated with itself *)
Example C64_ex : result (do s <- Sign B5 2 (ex_k 0) ex_msg; do c <- sig_Copy B5 s; do _ <- sig_Aggregate B5 s s; do b <- sig_Marshal B5 s; do b' <- sig_Marshal B5 c;
    ret (option_map (fun x => (sum1 (B := B5) [fst x; fst x])) (unm1 B5 b'), option_map fst (unm1 B5 b))) ex_m =
  result (do s <- Sign B5 2 (ex_k 0) ex_msg; do b <- sig_Marshal B5 s; ret (option_map (fun x => sum1 (B := B5) [fst x; fst x]) (unm1 B5 b), option_map (fun x => sum1 (B := B5) [fst x; fst x]) (unm1 B5 b))) ex_m.
Proof. vm_compute. reflexivity. Qed.
