(** Properties C40-C50 and the mlsag part of C28; C68, C80 *)
From Coq Require Import String ZArith List Lia Bool Arith Permutation.
From Coq Require Import Init.Byte.
From Verif Require Import GoModel GoFacts ReadModel ReadFacts Fld Rist RistFacts RistInst SpecVector SpecMlsag
  MlsagModel MlsagSessions MlsagHeap MlsagFacts MlsagProve MlsagProps MlsagHeapFacts NoKeysFacts.
Import ListNotations.
Local Open Scope nat_scope.

(** ** Example values: two keys per member, one decoy *)
Definition ex_decoy : pubkeys tiny := mkPK tiny false [of_Z 7; of_Z 9].
Definition ex_js (i : nat) : nat := i.
Definition ex_rs (i : nat) : F := of_Z (Z.of_nat i + 5).
Definition ex_bops : list (bop (R := tiny)) := [BOp ex_decoy; BMsg [x01]; BSecret (of_Z 3); BSecret (of_Z 4); BSub (of_Z 2 : pt tiny)].
Definition ex_p : mproof tiny := match session ex_bops [] with Ok p => p | _ => mp_new end.
Definition ex_sig : option (sig tiny * list (pt tiny)) := match fst (prove tiny ex_p true ex_js ex_rs) with Ok x => Some x | _ => None end.

(** ** C40.  Whatever a prove returns in any session verifies with the key images it returns. *)
Theorem C40_verifies R (OK : rist_ok R) bops ops p skipLast js rs sg J p' :
  session bops ops = Ok p -> prove R p skipLast js rs = (Ok (sg, J), p') -> J <> [] -> sig_Verify R sg J = Ok true.
Proof. intros HS. exact (prove_verifies OK p skipLast js rs sg J p' (session_inv bops ops p HS)). Qed.
Print Assumptions C40_verifies.
(** It carries the message and the shuffled ring, and one row of responses per member. *)
Theorem C40_content R (OK : rist_ok R) bops ops p skipLast js rs sg J p' :
  session bops ops = Ok p -> prove R p skipLast js rs = (Ok (sg, J), p') -> J <> [] ->
  sg_msg R sg = mp_msg R p /\ Permutation (mp_matrix R p ++ [mkPK R false (map (fun x => smul R x (pbase R)) (mp_priv R p))]) (sg_pub R sg) /\
  length (sg_r R sg) = length (sg_pub R sg).
Proof. intros HS. exact (prove_content OK p skipLast js rs sg J p' (session_inv bops ops p HS)). Qed.
Print Assumptions C40_content.
Example C40_ex : match fst (prove tiny ex_p true ex_js ex_rs) with
  | Ok (sg, J) => (length J, length (sg_pub tiny sg), sig_Verify tiny sg J) = (1, 2, Ok true) | _ => False end.
Proof. vm_compute. reflexivity. Qed.
Example C40_ex_later : match session ex_bops [OProve true ex_js ex_rs; OProve false ex_js ex_rs; OMsg [x02]; ODecoy ex_decoy] with
  | Ok p => match fst (prove tiny p false ex_js ex_rs) with Ok (sg, J) => (length J, length (sg_pub tiny sg), sig_Verify tiny sg J) = (2, 5, Ok true) | _ => False end
  | _ => False end.
Proof. vm_compute. reflexivity. Qed.

(** ** C41.  No decoys. *)
Theorem C41_alone_panics R bops ops p skipLast js rs :
  session bops ops = Ok p -> mp_matrix R p = [] -> mp_priv R p <> [] -> fst (prove R p skipLast js rs) = Panic.
Proof. intros HS. exact (prove_alone p skipLast js rs (session_inv bops ops p HS)). Qed.
Print Assumptions C41_alone_panics.
Example C41_ex : match session [BSecret (of_Z 3)] [] with
  | Ok p => (length (mp_matrix tiny p), length (mp_priv tiny p)) = (0, 1) /\ match fst (prove tiny p false ex_js ex_rs) with Panic => True | _ => False end | _ => False end.
Proof. vm_compute. split; [reflexivity|exact I]. Qed.

(** ** C42.  Ragged rings. *)
Theorem C42_error_iff_ragged R (OK : rist_ok R) bops ops p skipLast js rs :
  session bops ops = Ok p -> mp_priv R p <> [] -> mp_matrix R p <> [] ->
  ((exists e, fst (prove R p skipLast js rs) = Err e) <-> Exists (fun row => length (pk_keys R row) <> length (mp_priv R p)) (mp_matrix R p)) /\
  ((exists sg J, fst (prove R p skipLast js rs) = Ok (sg, J)) <-> Forall (fun row => length (pk_keys R row) = length (mp_priv R p)) (mp_matrix R p)).
Proof. intros HS. exact (prove_iff OK p skipLast js rs (session_inv bops ops p HS)). Qed.
Print Assumptions C42_error_iff_ragged.
Theorem C42_text R bops ops p skipLast js rs : session bops ops = Ok p ->
  Exists (fun row => length (pk_keys R row) <> length (mp_priv R p)) (mp_matrix R p) ->
  fst (prove R p skipLast js rs) = Err "all vectors in the pubkey matrix must be the same size"%string.
Proof.
  intros HS HX. apply (prove_irregular p skipLast js rs (session_inv bops ops p HS)). unfold regular. intros F. rewrite Forall_forall in F.
  apply Exists_exists in HX. destruct HX as (row & Hin & Hl). apply Hl, F, Hin.
Qed.
Print Assumptions C42_text.
Example C42_ex_ragged : match session [BOp ex_decoy; BSecret (of_Z 3)] [] with
  | Ok p => (length (mp_priv tiny p), length (mp_matrix tiny p)) = (1, 1) /\ match fst (prove tiny p false ex_js ex_rs) with Err _ => True | _ => False end | _ => False end.
Proof. vm_compute. split; [reflexivity|exact I]. Qed.

(** Without private keys: decoys that have keys are refused; otherwise the prove panics if the last
    key image is to be left out, and else returns a signature without key images, which no list of
    key images verifies. *)
Theorem C42_no_keys R (OK : rist_ok R) bops ops p js rs : session bops ops = Ok p -> mp_priv R p = [] ->
  (Exists (fun row => pk_keys R row <> []) (mp_matrix R p) -> forall skipLast,
     fst (prove R p skipLast js rs) = Err "all vectors in the pubkey matrix must be the same size"%string) /\
  (Forall (fun row => pk_keys R row = []) (mp_matrix R p) ->
     fst (prove R p true js rs) = Panic /\ exists sg, fst (prove R p false js rs) = Ok (sg, [])).
Proof.
  intros HS HP. pose proof (session_inv bops ops p HS) as I0. split.
  - intros HX sk. exact (no_keys_ragged p sk js rs I0 HP HX).
  - intros HF. split; [exact (no_keys_panics p js rs I0 HP HF)|exact (no_keys_signs OK p js rs I0 HP HF)].
Qed.
Print Assumptions C42_no_keys.
Theorem C42_no_keys_useless R bops ops p skipLast js rs sg J p' : session bops ops = Ok p -> mp_priv R p = [] ->
  prove R p skipLast js rs = (Ok (sg, J), p') ->
  J = [] /\ sig_Verify R sg [] = Err "cannot have zero length for responses, pubkeys or key images"%string /\
  forall J', J' <> [] -> sig_Verify R sg J' = Panic.
Proof. intros HS. exact (no_keys_result p skipLast js rs sg J p' (session_inv bops ops p HS)). Qed.
Print Assumptions C42_no_keys_useless.
Example C42_ex_no_keys : match session (R := tiny) [BOp (mkPK tiny true []); BMsg [x01]] [] with
  | Ok p => mp_priv tiny p = [] /\ Forall (fun row => pk_keys tiny row = []) (mp_matrix tiny p) | _ => False end.
Proof. cbn. split; [reflexivity|]. repeat constructor. Qed.

(** ** C43.  Key images. *)
Theorem C43_images R bops ops p skipLast js rs sg J p' :
  session bops ops = Ok p -> prove R p skipLast js rs = (Ok (sg, J), p') ->
  J = (if skipLast then removelast (map (key_image R) (mp_priv R p)) else map (key_image R) (mp_priv R p)).
Proof. intros HS. exact (prove_images p skipLast js rs sg J p' (session_inv bops ops p HS)). Qed.
Print Assumptions C43_images.
(** two sessions with the same private key at the same place *)
Theorem C43_linkable R b1 o1 p1 s1 js1 rs1 sg1 J1 q1 b2 o2 p2 s2 js2 rs2 sg2 J2 q2 i j x I1 I2 :
  session b1 o1 = Ok p1 -> prove R p1 s1 js1 rs1 = (Ok (sg1, J1), q1) -> nth_error (mp_priv R p1) i = Some x -> nth_error J1 i = Some I1 ->
  session b2 o2 = Ok p2 -> prove R p2 s2 js2 rs2 = (Ok (sg2, J2), q2) -> nth_error (mp_priv R p2) j = Some x -> nth_error J2 j = Some I2 ->
  I1 = I2.
Proof.
  intros A1 A2 A3 A4 B1 B2 B3 B4.
  rewrite (image_at p1 s1 js1 rs1 sg1 J1 q1 i x I1 (session_inv b1 o1 p1 A1) A2 A3 A4).
  exact (eq_sym (image_at p2 s2 js2 rs2 sg2 J2 q2 j x I2 (session_inv b2 o2 p2 B1) B2 B3 B4)).
Qed.
Print Assumptions C43_linkable.
(** different keys with the same image give a relation between the hash points of two different
    strings: a known discrete logarithm, or a collision at the identity *)
Theorem C43_unlinked R (OK : rist_ok R) x y : x <> y -> key_image R x = key_image R y ->
  let Kx := smul R x (pbase R) in let Ky := smul R y (pbase R) in
  pbytes R Kx <> pbytes R Ky /\
  smul R x (pderive R (pbytes R Kx)) = smul R y (pderive R (pbytes R Ky)) /\
  (pderive R (pbytes R Kx) = pderive R (pbytes R Ky) -> pderive R (pbytes R Kx) = pt0 R).
Proof. exact (key_image_relation OK x y). Qed.
Print Assumptions C43_unlinked.
Example C43_ex :
  match fst (prove tiny ex_p true ex_js ex_rs) with Ok (_, J) => map to_Z J = [to_Z (key_image tiny (of_Z 3))] | _ => False end.
Proof. vm_compute. reflexivity. Qed.
Definition null : rist := fin_rist (fun _ => f0).
Example C43_ex_unlinked : of_Z 1 <> of_Z 2 /\ key_image null (of_Z 1) = key_image null (of_Z 2).
Proof. split; [intros C; apply (f_equal to_Z) in C; vm_compute in C; discriminate|apply feqb_eq; vm_compute; reflexivity]. Qed.

(** ** C44.  Verify is the closure of the ring. *)
Theorem C44_verification_equation R s J : sg_pub R s <> [] -> 2 <= length (sg_r R s) -> J <> [] ->
  length (sg_r R s) <= length (sg_pub R s) ->
  Forall (row_ok R J) (combine (map (pk_keys R) (sg_pub R s)) (sg_r R s)) ->
  sig_Verify R s J =
  if feqb (ring_chain R (sg_msg R s) J (combine (map (pk_keys R) (sg_pub R s)) (sg_r R s)) (sg_c R s)) (sg_c R s)
  then Ok true else Err "c'0 does not equal c0"%string.
Proof. exact (Verify_two s J). Qed.
Print Assumptions C44_verification_equation.
(** with a single row the chain is run twice *)
Theorem C44_single_row R c r k msg J : J <> [] -> length J <= length (pk_keys R k) <= length r ->
  let f := ring_chal R msg J (pk_keys R k) r in
  sig_Verify R (mkSig R c [r] [k] msg) J = if feqb (f (f c)) c then Ok true else Err "c'0 does not equal c0"%string.
Proof. exact (Verify_one c r k msg J). Qed.
Print Assumptions C44_single_row.
Definition ex_s (c : F) : sig tiny := mkSig tiny c [[f0]; [f0]] [mkPK tiny false [of_Z 7]; mkPK tiny false [of_Z 9]] [].
Example C44_ex : Forall (row_ok tiny [f1]) (combine (map (pk_keys tiny) (sg_pub tiny (ex_s f1))) (sg_r tiny (ex_s f1))) /\
  sig_Verify tiny (ex_s f1) [f1] = Ok true /\ sig_Verify tiny (ex_s f0) [f1] = Err "c'0 does not equal c0"%string.
Proof. split; [repeat constructor; cbn; lia|]. split; vm_compute; reflexivity. Qed.

(** ** C45.  Special soundness.  If two different challenges for one row lead to the same next challenge,
    then the two strings hashed for it are a collision, or the private keys of the row can be computed. *)
Theorem C45_extract R (OK : rist_ok R) msg J K r r' c c' :
  length J <= length K -> length K <= length r -> length K <= length r' -> c <> c' ->
  let hashed r c := msg ++ concat (map (pbytes R) (row_points R J K r c)) in
  sderive R (hashed r c) = sderive R (hashed r' c') ->
  hashed r c <> hashed r' c' \/
  forall j k a b, nth_error K j = Some k -> nth_error r j = Some a -> nth_error r' j = Some b ->
  let x := fmul (fsub a b) (finv (fsub c' c)) in
  k = smul R x (pbase R) /\ forall im, nth_error J j = Some im -> im = key_image R x.
Proof. exact (extract_key OK msg J K r r' c c'). Qed.
Print Assumptions C45_extract.
(** the same from equal points, without a hash *)
Theorem C45_extract_points R (OK : rist_ok R) J K r r' c c' :
  length J <= length K -> length K <= length r -> length K <= length r' -> c <> c' ->
  row_points R J K r c = row_points R J K r' c' ->
  forall j k a b, nth_error K j = Some k -> nth_error r j = Some a -> nth_error r' j = Some b ->
  let x := fmul (fsub a b) (finv (fsub c' c)) in
  k = smul R x (pbase R) /\ forall im, nth_error J j = Some im -> im = smul R x (pderive R (pbytes R k)).
Proof. exact (extract OK K J r r' c c'). Qed.
Print Assumptions C45_extract_points.
Example C45_ex : of_Z 1 <> of_Z 2 /\ map to_Z (row_points tiny [of_Z 7] [of_Z 7] [of_Z 14] (of_Z 1)) = map to_Z (row_points tiny [of_Z 7] [of_Z 7] [of_Z 7] (of_Z 2)).
Proof. split; [intros C; apply (f_equal to_Z) in C; vm_compute in C; discriminate|vm_compute; reflexivity]. Qed.

(** ** C46.  Shuffling. *)
Theorem C46_shuffle R p js : exists p', shuffleSet R js (addSignerPubKey R p) = (Ok tt, p') /\
  mp_priv R p' = mp_priv R p /\ mp_msg R p' = mp_msg R p /\ pk_keys R (mp_signer R p') = pk_keys R (mp_signer R p) /\
  Permutation (mp_matrix R p ++ [mkPK R false (pk_keys R (mp_signer R p))]) (mp_matrix R p') /\
  (Forall (fun row => pk_decoy R row = true) (mp_matrix R p) ->
   nth_error (mp_matrix R p') (mp_index R p') = Some (mkPK R false (pk_keys R (mp_signer R p)))).
Proof. exact (shuffle_spec p js). Qed.
Print Assumptions C46_shuffle.
(** a ring of decoys only is shuffled and then refused *)
Theorem C46_no_signer R p js : Forall (fun row => pk_decoy R row = true) (mp_matrix R p) ->
  exists m', Permutation (mp_matrix R p) m' /\
    shuffleSet R js p = (Err "could not find the index of the non-decoy vector of pubkeys"%string, mkMP R (mp_index R p) (mp_priv R p) (mp_signer R p) m' (mp_msg R p)).
Proof.
  intros F. destruct (shuffle_ok js (mp_matrix R p)) as [m' [E P]]. exists m'. split; [exact P|]. unfold shuffleSet. rewrite E.
  rewrite (proj2 (find_signer_none m' 0)); [reflexivity|]. rewrite Forall_forall in *. intros x H. apply F. apply (Permutation_in _ (Permutation_sym P)). exact H.
Qed.
Print Assumptions C46_no_signer.
(** every order of the ring is reached by some outcome of the random source *)
Theorem C46_every_order R (m m' : list (pubkeys R)) : Permutation m m' -> exists js, shuffle R js m = Ok m'.
Proof. exact (shuffle_onto m m'). Qed.
Print Assumptions C46_every_order.
Example C46_ex : Forall (fun row => pk_decoy tiny row = true) (mp_matrix tiny ex_p) /\
  map (fun js => mp_index tiny (snd (shuffleSet tiny js (addSignerPubKey tiny ex_p)))) [(fun _ => 0); (fun _ => 1)] = [0; 1].
Proof. split; [repeat constructor|vm_compute; reflexivity]. Qed.
Example C46_ex_no_signer : mp_matrix tiny ex_p <> [] /\ match fst (shuffleSet tiny ex_js ex_p) with Err _ => True | _ => False end.
Proof. split; [discriminate|vm_compute; exact I]. Qed.

(** ** C47.  Codec. *)
Theorem C47_roundtrip R (OK : rist_ok R) s b k s0 :
  sg_r R s <> [] -> (Z.of_nat (length (sg_r R s)) < 2 ^ 32)%Z -> (Z.of_nat k < 2 ^ 32)%Z ->
  Forall (fun a => length a = k) (sg_r R s) ->
  (b = true -> length (sg_pub R s) = length (sg_r R s) /\ Forall (fun a => length (pk_keys R a) = k) (sg_pub R s)) ->
  exists enc, sig_Encode R s b w_fresh = (Ok tt, mkW enc []) /\
    length enc = 40 + 32 * k * length (sg_r R s) + (if b then 32 * k * length (sg_r R s) else 0) /\
    forall r rest, fault_free r -> rbytes r = enc ++ rest ->
    exists r', exec (sig_Decode R s0 b) r = (Ok (mkSig R (sg_c R s) (sg_r R s)
        (if b then map (fun k => mkPK R false (pk_keys R k)) (sg_pub R s) else sg_pub R s0) (sg_msg R s0)), r') /\
      rbytes r' = rest /\ fault_free r'.
Proof. exact (sig_roundtrip OK s b k s0). Qed.
Print Assumptions C47_roundtrip.
Theorem C47_no_rows R (OK : rist_ok R) s b b' s0 : sg_r R s = [] ->
  exists enc, sig_Encode R s b w_fresh = (Ok tt, mkW enc []) /\ length enc = 36 /\
    forall r, fault_free r -> rbytes r = enc -> exists e, fst (exec (sig_Decode R s0 b') r) = Err e.
Proof. exact (sig_no_rows OK s b b' s0). Qed.
Print Assumptions C47_no_rows.
Example C47_ex : let s := ex_s f1 in sg_r tiny s <> [] /\ Forall (fun a => length a = 1) (sg_r tiny s) /\
  length (sg_pub tiny s) = length (sg_r tiny s) /\ Forall (fun a => length (pk_keys tiny a) = 1) (sg_pub tiny s) /\
  (let enc := w_out (snd (sig_Encode tiny s true w_fresh)) in
   length enc = 168 /\ match fst (exec (sig_Decode tiny (mkSig tiny f0 [] [] [x07]) true) [RChunk enc]) with
     | Ok s' => (to_Z (sg_c tiny s'), map (map to_Z) (sg_r tiny s'), map (fun k => map to_Z (pk_keys tiny k)) (sg_pub tiny s'), sg_msg tiny s') = (1, [[0]; [0]], [[7]; [9]], [x07])%Z
     | _ => False end).
Proof. split; [discriminate|]. split; [repeat constructor|]. split; [reflexivity|]. split; [repeat constructor|]. vm_compute. split; reflexivity. Qed.

(** ** C48.  Shapes: error, panic or the closure test; surplus is ignored. *)
Theorem C48_outcomes R s J :
  (sg_pub R s = [] \/ sg_r R s = [] \/ J = [] -> exists e, sig_Verify R s J = Err e) /\
  (sg_pub R s <> [] -> sg_r R s <> [] -> J <> [] ->
   (sig_Verify R s J = Panic <->
    length (sg_pub R s) < length (sg_r R s) \/
    Exists (fun row => length (snd row) < length (fst row) \/ length (fst row) < length J) (combine (map (pk_keys R) (sg_pub R s)) (sg_r R s)))).
Proof. exact (Verify_outcomes s J). Qed.
Print Assumptions C48_outcomes.
Theorem C48_empty R s J : sg_pub R s = [] \/ sg_r R s = [] \/ J = [] ->
  sig_Verify R s J = Err "cannot have zero length for responses, pubkeys or key images"%string.
Proof.
  intros H. unfold sig_Verify. replace (orb _ _) with true; [reflexivity|]. symmetry.
  destruct H as [-> | [-> | ->]]; cbn [length Nat.eqb]; rewrite ?orb_true_r; reflexivity.
Qed.
Print Assumptions C48_empty.
Theorem C48_surplus R s s' extra J : sg_c R s' = sg_c R s -> sg_msg R s' = sg_msg R s -> sg_pub R s' = sg_pub R s ++ extra ->
  length (sg_r R s) <= length (sg_pub R s) -> Forall2 (fun r r' => exists e, r' = r ++ e) (sg_r R s) (sg_r R s') ->
  Forall2 (fun k r => length (pk_keys R k) <= length r) (firstn (length (sg_r R s)) (sg_pub R s)) (sg_r R s) ->
  sig_Verify R s' J = sig_Verify R s J.
Proof. exact (surplus s s' extra J). Qed.
Print Assumptions C48_surplus.
Example C48_ex_panic : sig_Verify tiny (mkSig tiny f1 [[f0]; []] (sg_pub tiny (ex_s f1)) []) [f1] = Panic /\
  sig_Verify tiny (ex_s f1) [f1; f1] = Panic /\ sig_Verify tiny (mkSig tiny f1 [[f0]; [f0]; [f0]] (sg_pub tiny (ex_s f1)) []) [f1] = Panic.
Proof. vm_compute. repeat split. Qed.
Example C48_ex_surplus : let s' := mkSig tiny f1 [[f0; f1]; [f0]] (sg_pub tiny (ex_s f1) ++ [ex_decoy]) [] in
  Forall2 (fun r r' => exists e, r' = r ++ e) (sg_r tiny (ex_s f1)) (sg_r tiny s') /\ sig_Verify tiny s' [f1] = Ok true.
Proof. split; [constructor; [exists [f1]; reflexivity|constructor; [exists []; reflexivity|constructor]]|vm_compute; reflexivity]. Qed.

(** ** C49.  DualKey. *)
Theorem C49_zero_key R d k0 k1 js rs : dk_keys R d = [k0; k1] -> k0 = f0 \/ k1 = f0 ->
  dk_Prove R d js rs = (Err "primary key or commitment to zero cannot be zero"%string, d).
Proof. exact (dk_zero d k0 k1 [] js rs). Qed.
Print Assumptions C49_zero_key.
Theorem C49_verifies R (OK : rist_ok R) ops d k0 k1 js rs :
  run_all run_dop ops (NewDualKey R) = Ok d -> Forall setup ops ->
  dk_keys R d = [k0; k1] -> k0 <> f0 -> k1 <> f0 -> mp_matrix R (dk_proof R d) <> [] ->
  Forall (fun row => length (pk_keys R row) = 2) (mp_matrix R (dk_proof R d)) ->
  exists sg d', dk_Prove R d js rs = (Ok (sg, key_image R k0), d') /\ sg_msg R sg = mp_msg R (dk_proof R d) /\
    Permutation (mp_matrix R (dk_proof R d) ++ [mkPK R false [smul R k0 (pbase R); smul R k1 (pbase R)]]) (sg_pub R sg) /\
    sig_Verify R sg [key_image R k0] = Ok true.
Proof.
  intros E HS. exact (dk_ok OK d k0 k1 [] js rs (dk_fresh_run ops _ d dk_fresh_new dk_shape_new HS E)).
Qed.
Print Assumptions C49_verifies.
(** the other outcomes of a first Prove with both keys set *)
Theorem C49_alone_panics R ops d k0 k1 js rs :
  run_all run_dop ops (NewDualKey R) = Ok d -> Forall setup ops ->
  dk_keys R d = [k0; k1] -> k0 <> f0 -> k1 <> f0 -> mp_matrix R (dk_proof R d) = [] -> fst (dk_Prove R d js rs) = Panic.
Proof. intros E HS. exact (dk_alone d k0 k1 [] js rs (dk_fresh_run ops _ d dk_fresh_new dk_shape_new HS E)). Qed.
Print Assumptions C49_alone_panics.
Theorem C49_uneven_decoys R ops d k0 k1 js rs :
  run_all run_dop ops (NewDualKey R) = Ok d -> Forall setup ops ->
  dk_keys R d = [k0; k1] -> k0 <> f0 -> k1 <> f0 ->
  Exists (fun row => length (pk_keys R row) <> 2) (mp_matrix R (dk_proof R d)) ->
  fst (dk_Prove R d js rs) = Err "all vectors in the pubkey matrix must be the same size"%string.
Proof. intros E HS. exact (dk_uneven d k0 k1 [] js rs (dk_fresh_run ops _ d dk_fresh_new dk_shape_new HS E)). Qed.
Print Assumptions C49_uneven_decoys.
Example C49_ex_outcomes :
  match run_all run_dop [DPrimary (of_Z 3); DComm (of_Z 4)] (NewDualKey tiny),
        run_all run_dop [DPrimary (of_Z 3); DComm (of_Z 4); DDecoy (mkPK tiny false [f1])] (NewDualKey tiny) with
  | Ok d, Ok d' => (match fst (dk_Prove tiny d ex_js ex_rs) with Panic => True | _ => False end) /\
                   match fst (dk_Prove tiny d' ex_js ex_rs) with Err _ => True | _ => False end
  | _, _ => False end.
Proof. vm_compute. split; exact I. Qed.
(** secrets added with AddSecret, which DualKey takes over from Proof, never help: Prove fails in one of three ways *)
Theorem C49_extra_secrets R (OK : rist_ok R) ops d k0 k1 js rs :
  run_all run_dop ops (NewDualKey R) = Ok d -> Forall quiet ops -> secrets ops <> [] ->
  dk_keys R d = [k0; k1] -> k0 <> f0 -> k1 <> f0 ->
  let m := mp_matrix R (dk_proof R d) in let r := fst (dk_Prove R d js rs) in let n := length (secrets ops) + 2 in
  (m = [] -> r = Panic) /\
  (Exists (fun row => length (pk_keys R row) <> n) m -> r = Err "all vectors in the pubkey matrix must be the same size"%string) /\
  (m <> [] -> Forall (fun row => length (pk_keys R row) = n) m -> r = Err "dual key mlsag must only contain one key image"%string).
Proof. intros E HS NS. exact (dk_more OK d _ k0 k1 [] js rs (dk_with_run ops _ d [] dk_with_new dk_shape_new HS E) NS). Qed.
Print Assumptions C49_extra_secrets.
Example C49_ex_secrets : let ops := [DDecoy (mkPK tiny false [f1; f1; f1]); DSecret (of_Z 2); DPrimary (of_Z 3); DComm (of_Z 4)] in
  Forall quiet ops /\ secrets ops = [of_Z 2] /\
  match run_all run_dop ops (NewDualKey tiny) with
  | Ok d => match fst (dk_Prove tiny d ex_js ex_rs) with Err _ => True | _ => False end | _ => False end.
Proof. cbv zeta. split; [repeat constructor|]. split; [reflexivity|]. vm_compute. exact I. Qed.
(** a second Prove fails, whatever happened before and in between; the lengths that decide
    this are not affected by shared memory *)
Theorem C49_second_fails R ops d k0 k1 js rs ops' d' js' rs' :
  run_all run_dop ops (NewDualKey R) = Ok d -> dk_keys R d = [k0; k1] -> k0 <> f0 -> k1 <> f0 ->
  run_all run_dop ops' (snd (dk_Prove R d js rs)) = Ok d' -> exists a b l, dk_keys R d' = a :: b :: l /\
  fst (dk_Prove R d' js' rs') = Err (if orb (feqb a f0) (feqb b f0) then "primary key or commitment to zero cannot be zero" else "all vectors in the pubkey matrix must be the same size")%string.
Proof. exact (dk_second ops d k0 k1 js rs ops' d' js' rs'). Qed.
Print Assumptions C49_second_fails.
Definition ex_dops : list (dop (R := tiny)) := [DDecoy ex_decoy; DPrimary (of_Z 3); DMsg [x01]; DComm (of_Z 4); DSub (of_Z 1 : pt tiny)].
Definition ex_d : dualkey tiny := match run_all run_dop ex_dops (NewDualKey tiny) with Ok d => d | _ => NewDualKey tiny end.
Example C49_ex : run_all run_dop ex_dops (NewDualKey tiny) = Ok ex_d /\ Forall setup ex_dops /\
  match dk_Prove tiny ex_d ex_js ex_rs with
  | (Ok (sg, KI), d') => sig_Verify tiny sg [KI] = Ok true /\ match fst (dk_Prove tiny d' ex_js ex_rs) with Err _ => True | _ => False end
  | _ => False end.
Proof. split; [reflexivity|]. split; [repeat constructor|]. vm_compute. split; [reflexivity|exact I]. Qed.

(** ** C80.  Accessors. *)
(** The setters return the public keys and leave the rest of the session alone; the last value set counts. *)
Theorem C80_setters R (d : dualkey R) k0 k1 x : dk_keys R d = [k0; k1] ->
  SetPrimaryKey R d x = Ok (mkDK R (dk_proof R d) [x; k1], smul R x (pbase R)) /\
  SetCommToZero R d x = Ok (mkDK R (dk_proof R d) [k0; x], smul R x (pbase R)).
Proof. intros E. unfold SetPrimaryKey, SetCommToZero. rewrite E. split; reflexivity. Qed.
Print Assumptions C80_setters.
(** Every DualKey session has two keys. *)
Theorem C80_two_keys R ops (d : dualkey R) : run_all run_dop ops (NewDualKey R) = Ok d -> exists k0 k1, dk_keys R d = [k0; k1].
Proof. exact (two_keys ops (NewDualKey R) d dk_shape_new). Qed.
Print Assumptions C80_two_keys.
(** They are the last ones set, and zero if none was set; whatever else is called, Prove refuses to sign while one of
    them is zero. *)
Theorem C80_last_keys R ops (d : dualkey R) : run_all run_dop ops (NewDualKey R) = Ok d ->
  let k0 := last (flat_map (fun o => match o with DPrimary x => [x] | _ => [] end) ops) f0 in
  let k1 := last (flat_map (fun o => match o with DComm x => [x] | _ => [] end) ops) f0 in
  dk_keys R d = [k0; k1] /\
  (k0 = f0 \/ k1 = f0 -> forall js rs, dk_Prove R d js rs = (Err "primary key or commitment to zero cannot be zero"%string, d)).
Proof.
  intros E k0 k1. pose proof (keys_set ops (NewDualKey R) d f0 f0 eq_refl E) as K. split; [exact K|]. intros Z js rs. exact (dk_zero d k0 k1 [] js rs K Z).
Qed.
Print Assumptions C80_last_keys.
(** The keys returned by the setters are the signer's row of the signature made next. *)
Theorem C80_row R (OK : rist_ok R) ops d d1 d2 x0 x1 P0 P1 js rs sg KI d' :
  run_all run_dop ops (NewDualKey R) = Ok d -> Forall setup ops ->
  SetPrimaryKey R d x0 = Ok (d1, P0) -> SetCommToZero R d1 x1 = Ok (d2, P1) ->
  dk_Prove R d2 js rs = (Ok (sg, KI), d') -> In (mkPK R false [P0; P1]) (sg_pub R sg).
Proof. exact (setters_row OK ops d d1 d2 x0 x1 P0 P1 js rs sg KI d'). Qed.
Print Assumptions C80_row.
(** LenMembers counts the decoys and one row for every Prove, successful or not. *)
Definition adds_row {R} (o : mop (R := R)) : bool := match o with ODecoy _ => true | OProve _ _ _ => true | _ => false end.
Theorem C80_members R ops (p : mproof R) : LenMembers R (fold_left run_mop ops p) = LenMembers R p + length (filter adds_row ops).
Proof. exact (members_count adds_row (fun _ => eq_refl) (fun _ => eq_refl) (fun _ => eq_refl) (fun _ _ _ => eq_refl) ops p). Qed.
Print Assumptions C80_members.
(** Keys are kept in the order added; OutputKey is the first, and panics if there is none. *)
Theorem C80_keys R ks (p : pubkeys R) :
  let q := fold_left (AddPubKey R) ks p in
  pk_keys R q = pk_keys R p ++ ks /\ pk_decoy R q = pk_decoy R p /\ pk_Len R q = pk_Len R p + length ks /\
  OutputKey R q = match pk_keys R p ++ ks with k :: _ => Ok k | [] => Panic end.
Proof. exact (keys_added ks p). Qed.
Print Assumptions C80_keys.
Example C80_ex :
  map (fun r => match r with Ok (d, P) => (map to_Z (dk_keys tiny d), to_Z P) | _ => ([], 0%Z) end)
    [SetPrimaryKey tiny (NewDualKey tiny) (of_Z 3); SetCommToZero tiny (NewDualKey tiny) (of_Z 4)] = [([3; 0]%Z, 3%Z); ([0; 4]%Z, 4%Z)] /\
  LenMembers tiny (fold_left run_mop [ODecoy ex_decoy; OSecret f1; OProve false ex_js ex_rs] mp_new) = 2 /\
  match OutputKey tiny ex_decoy, OutputKey tiny (mkPK tiny false []) with Ok P, Panic => to_Z P = 7%Z | _, _ => False end.
Proof. vm_compute. repeat split. Qed.
Example C80_ex_unset : match run_all run_dop [DPrimary (of_Z 3); DMsg [x01]; DDecoy ex_decoy] (NewDualKey tiny) with
  | Ok d => match fst (dk_Prove tiny d ex_js ex_rs) with Err e => e | _ => ""%string end = "primary key or commitment to zero cannot be zero"%string
  | _ => False
  end.
Proof. vm_compute. reflexivity. Qed.
(** the hypotheses of C80_row *)
Example C80_ex_row : let ops := [DDecoy ex_decoy; DMsg [x01]] in
  Forall setup ops /\ exists d d1 d2 P0 P1, run_all run_dop ops (NewDualKey tiny) = Ok d /\
    SetPrimaryKey tiny d (of_Z 3) = Ok (d1, P0) /\ SetCommToZero tiny d1 (of_Z 4) = Ok (d2, P1) /\
    match dk_Prove tiny d2 ex_js ex_rs with (Ok (sg, _), _) => length (sg_pub tiny sg) = 2 | _ => False end.
Proof.
  cbv zeta. split; [repeat constructor|]. do 5 eexists. split; [reflexivity|]. split; [reflexivity|]. split; [reflexivity|]. vm_compute. reflexivity.
Qed.

(** ** C50.  SubCommToZero. *)
Theorem C50_second_column R d q :
  (Forall (fun row => 2 <= length (pk_keys R row)) (mp_matrix R (dk_proof R d)) ->
   exists d', SubCommToZero R d q = Ok d' /\ mp_matrix R (dk_proof R d') = map (sub_second q) (mp_matrix R (dk_proof R d)) /\
     dk_keys R d' = dk_keys R d /\ mp_priv R (dk_proof R d') = mp_priv R (dk_proof R d) /\
     mp_signer R (dk_proof R d') = mp_signer R (dk_proof R d) /\ mp_msg R (dk_proof R d') = mp_msg R (dk_proof R d) /\
     mp_index R (dk_proof R d') = mp_index R (dk_proof R d)) /\
  (Exists (fun row => length (pk_keys R row) < 2) (mp_matrix R (dk_proof R d)) -> SubCommToZero R d q = Panic).
Proof. exact (Sub_spec d q). Qed.
Print Assumptions C50_second_column.
(** In memory: every PubKeys value [w] anywhere (the caller's, a ring's, a signature's) is changed
    once for every row of the ring that uses the same array. *)
Theorem C50_shared R m rows q : Forall (row_in (R := R) m) rows -> Forall (fun w => 2 <= w_len w) rows ->
  exists m', hSubCommToZero R m rows q = Ok m' /\
    forall w, view R m' w = Nat.iter (count_occ Nat.eq_dec (map w_arr rows) (w_arr w)) (sub_second q) (view R m w).
Proof. exact (hsub_shared q rows m). Qed.
Print Assumptions C50_shared.
(** A value has the number of keys of its slice, and these are the keys of the array, whatever else the array holds after them *)
Theorem C50_view R m w : row_in (R := R) m w -> pk_decoy R (view R m w) = w_decoy w /\ pk_Len R (view R m w) = w_len w /\
  forall i, i < w_len w -> nth_error (pk_keys R (view R m w)) i = nth_error (karray R m (w_arr w)) i.
Proof. exact (view_keys m w). Qed.
Print Assumptions C50_view.
(** and with fewer than two keys in a row SubCommToZero panics, even if the array has a second key that belongs to another value *)
Theorem C50_shared_short R m rows q : Forall (row_in (R := R) m) rows -> Exists (fun w => w_len w < 2) rows -> hSubCommToZero R m rows q = Panic.
Proof. exact (hsub_short q rows m). Qed.
Print Assumptions C50_shared_short.
(** the caller's value that was handed over with AddDecoy *)
Theorem C50_caller R m rows w q m' : Forall (row_in (R := R) m) (hAddDecoy rows w) -> Forall (fun w => 2 <= w_len w) (hAddDecoy rows w) ->
  NoDup (map w_arr (hAddDecoy rows w)) -> hSubCommToZero R m (hAddDecoy rows w) q = Ok m' ->
  view R m' w = sub_second q (view R m w) /\
  map (view R m') (hAddDecoy rows w) = map (sub_second q) (map (view R m) (hAddDecoy rows w)).
Proof. exact (hsub_caller q rows m w m'). Qed.
Print Assumptions C50_caller.
(** AddDecoy itself only flags its copy of the keys: the ring gains the caller's keys as a decoy, and the caller's own flag is untouched. *)
Theorem C50_added R m rows w p : mp_matrix R p = map (view R m) rows ->
  mp_matrix R (AddDecoy R p (view R m w)) = map (view R m) (hAddDecoy rows w) /\
  map (view R m) (hAddDecoy rows w) = map (view R m) rows ++ [mkPK R true (pk_keys R (view R m w))].
Proof.
  intros E. unfold hAddDecoy. rewrite map_app, <- E. split; reflexivity.
Qed.
Print Assumptions C50_added.
Example C50_ex : let m := [[of_Z 7; of_Z 9]] in let w := mkRow false 0 2 in
  match hSubCommToZero tiny m (hAddDecoy [] w) (of_Z 2), hSubCommToZero tiny m (hAddDecoy (hAddDecoy [] w) w) (of_Z 2) with
  | Ok m1, Ok m2 => (map to_Z (pk_keys tiny (view tiny m1 w)), map to_Z (pk_keys tiny (view tiny m2 w))) = ([7; 7]%Z, [7; 5]%Z)
  | _, _ => False end.
Proof. vm_compute. reflexivity. Qed.
Example C50_ex_hyps : let m := [[of_Z 7; of_Z 9]] in let w := mkRow false 0 2 in
  Forall (row_in (R := tiny) m) (hAddDecoy [] w) /\ Forall (fun w => 2 <= w_len w) (hAddDecoy [] w) /\ NoDup (map w_arr (hAddDecoy [] w)).
Proof. split; [repeat constructor; cbn; lia|]. split; [repeat constructor|repeat constructor; intros []]. Qed.

(** ** C28, mlsag part: Signature.Equals. *)
Theorem C28_mlsag R (OK : rist_ok R) s o b : length (sg_r R s) <= length (sg_r R o) ->
  exists e, sig_Equals R s o b = Ok e /\
  (e = true <-> sg_c R s = sg_c R o /\ (exists tl, sg_r R o = sg_r R s ++ tl) /\
     (b = true -> map (pk_keys R) (sg_pub R s) = map (pk_keys R) (sg_pub R o))).
Proof. exact (sig_Equals_spec OK s o b). Qed.
Print Assumptions C28_mlsag.
Theorem C28_mlsag_shorter R s o b : sg_c R s = sg_c R o -> (exists tl, sg_r R s = sg_r R o ++ tl /\ tl <> []) -> sig_Equals R s o b = Panic.
Proof. exact (sig_Equals_panic s o b). Qed.
Print Assumptions C28_mlsag_shorter.
Theorem C28_mlsag_longer R s o b : length (sg_r R o) < length (sg_r R s) ->
  (sig_Equals R s o b = Panic /\ sg_c R s = sg_c R o /\ exists tl, sg_r R s = sg_r R o ++ tl) \/
  (sig_Equals R s o b = Ok false /\ ~ (sg_c R s = sg_c R o /\ exists tl, sg_r R s = sg_r R o ++ tl)).
Proof. exact (sig_Equals_longer s o b). Qed.
Print Assumptions C28_mlsag_longer.
Example C28_mlsag_ex : let o := mkSig tiny f1 [[f0]; [f0]; [f1]] (sg_pub tiny (ex_s f1)) [x07] in
  sig_Equals tiny (ex_s f1) o true = Ok true /\ sig_Equals tiny o (ex_s f1) true = Panic.
Proof. vm_compute. split; reflexivity. Qed.

(** ** C68.  A later Prove on the same object can destroy a signature returned earlier: the ring
    of the signature is the slice of the proof, and appending and shuffling work in place while
    there is spare capacity. *)
Theorem C68_in_place R zero slack m s (row : pubkeys R) js : rs_in m s ->
  exists l m' s', shuffle R js (ring m s ++ [row]) = Ok l /\ Permutation (ring m s ++ [row]) l /\
    hShuffle zero (shuffle R js) slack m s row = Ok (m', s') /\ ring m' s' = l /\
    (r_len s < r_cap s -> ring m' s = firstn (r_len s) l) /\ (r_len s = r_cap s -> ring m' s = ring m s).
Proof. exact (hshuffle_spec zero slack m s row js). Qed.
Print Assumptions C68_in_place.
Theorem C68_destroyed R zero slack m s (row : pubkeys R) js m' s' c r msg J : rs_in m s -> r_len s < r_cap s ->
  hShuffle zero (shuffle R js) slack m s row = Ok (m', s') ->
  length r = r_len s -> r <> [] -> J <> [] -> Forall (fun a => length a < length (pk_keys R row)) r ->
  nth_error (ring m' s') (r_len s) <> Some row ->
  sig_Verify R (mkSig R c r (ring m' s) msg) J = Panic.
Proof. exact (hshuffle_destroys zero slack m s row js m' s' c r msg J). Qed.
Print Assumptions C68_destroyed.
(** the verifying signature of a ring of three, in an array with room for four, before and after
    the next Prove *)
Definition ex_d3 : dualkey tiny := match run_all run_dop (DDecoy ex_decoy :: ex_dops) (NewDualKey tiny) with Ok d => d | _ => NewDualKey tiny end.
Example C68_ex : match dk_Prove tiny ex_d3 ex_js ex_rs with
  | (Ok (sg, KI), d') =>
    let z := mkPK tiny false [] in
    let m := [sg_pub tiny sg ++ [z]] in let s := mkRS 0 3 4 in
    let p := AddSecret tiny (AddSecret tiny (dk_proof tiny d') (of_Z 3)) (of_Z 4) in
    sig_Verify tiny sg [KI] = Ok true /\ length (ring m s) = length (sg_pub tiny sg) /\
    match hShuffle z (shuffle tiny (fun _ => 0)) 0 m s (mp_signer tiny p) with
    | Ok (m', s') => sig_Verify tiny (mkSig tiny (sg_c tiny sg) (sg_r tiny sg) (ring m' s) (sg_msg tiny sg)) [KI] = Panic
    | _ => False end
  | _ => False end.
Proof. vm_compute. repeat split. Qed.
