(** Properties C16-C21: generator.go, pedersen.go, fiatshamir.go *)
From Coq Require Import String ZArith List Lia Bool Arith Field.
From Coq Require Import Init.Byte Strings.Byte.
From Verif Require Import GoModel GoFacts ReadModel ReadFacts Fld Rist RistFacts RistInst SpecVector
  PedersenModel SpecPedersen PedersenFacts PedersenProps.
Import ListNotations.
Local Open Scope nat_scope.

(** C16.  After any history of Compute and Clear calls the generator holds the chain of
    as many points as were computed since the last Clear. *)
Theorem C16_history R data ops :
  gen_after R data ops = Ok (mkGen R data (chain R data (computed 0 ops))).
Proof. exact (gen_after_ok R data ops). Qed.
Print Assumptions C16_history.
Theorem C16_prefix_stable R data ops n g g' :
  gen_after R data ops = Ok g -> gen_Compute R n g = Ok g' ->
  firstn (length (g_bases R g)) (g_bases R g') = g_bases R g /\ length (g_bases R g') = length (g_bases R g) + n.
Proof.
  rewrite C16_history. intros H H'. injection H as <-. rewrite gen_Compute_ok in H'. injection H' as <-.
  cbn [g_bases]. rewrite !chain_length. split; [apply chain_prefix|reflexivity].
Qed.
Print Assumptions C16_prefix_stable.
Theorem C16_compute_adds R data ops a b g :
  gen_after R data ops = Ok g ->
  (let! g' := gen_Compute R a g in gen_Compute R b g') = gen_Compute R (a + b) g.
Proof.
  rewrite C16_history. intros H. injection H as <-. rewrite !gen_Compute_ok. cbn [bind].
  rewrite gen_Compute_ok, Nat.add_assoc. reflexivity.
Qed.
Print Assumptions C16_compute_adds.
(** The chain: the first point is derived from the data, each further one from the bytes of
    its predecessor. *)
Theorem C16_chain R data ops g k p q : gen_after R data ops = Ok g ->
  (0 < length (g_bases R g) -> nth_error (g_bases R g) 0 = Some (pderive R data)) /\
  (nth_error (g_bases R g) k = Some p -> nth_error (g_bases R g) (S k) = Some q -> q = pderive R (pbytes R p)).
Proof.
  rewrite C16_history. intros H. injection H as <-. cbn [g_bases]. rewrite chain_length. split.
  - apply chain_hd.
  - apply chain_nth.
Qed.
Print Assumptions C16_chain.
Example C16_ex : computed 0 [OpCompute 3; OpClear; OpCompute 1; OpCompute 1] = 2 /\
  chain toy [Byte.x01] 2 = [pderive toy [Byte.x01]; pderive toy (pbytes toy (pderive toy [Byte.x01]))].
Proof. split; reflexivity. Qed.

(** C17. *)
Theorem C17_opens R p v r :
  let c := CommitToScalar R p r v in
  c_blind R c = r /\ c_val R c = padd R (smul R v (p_base R p)) (smul R r (p_blind R p)).
Proof. exact (conj eq_refl eq_refl). Qed.
Print Assumptions C17_opens.
Theorem C17_homomorphic R (OK : rist_ok R) p v1 r1 v2 r2 :
  padd R (c_val R (CommitToScalar R p r1 v1)) (c_val R (CommitToScalar R p r2 v2)) =
  c_val R (CommitToScalar R p (fadd r1 r2) (fadd v1 v2)).
Proof. exact (commit_scalar_hom R OK p v1 r1 v2 r2). Qed.
Print Assumptions C17_homomorphic.
Theorem C17_binding R (OK : rist_ok R) data v1 r1 v2 r2 :
  let p := ped_New R data in
  c_val R (CommitToScalar R p r1 v1) = c_val R (CommitToScalar R p r2 v2) ->
  (v1, r1) <> (v2, r2) ->
  v1 <> v2 /\ p_base R p = smul R (fmul (fsub r2 r1) (finv (fsub v1 v2))) (p_blind R p).
Proof.
  exact (fun H D => commit_scalar_binding R OK (ped_New R data) v1 r1 v2 r2 H D (pbase_nz R OK)).
Qed.
Print Assumptions C17_binding.
Theorem C17_hiding R (OK : rist_ok R) p v r v' k : p_base R p = smul R k (p_blind R p) ->
  exists r', c_val R (CommitToScalar R p r' v') = c_val R (CommitToScalar R p r v).
Proof. exact (commit_scalar_hiding R OK p v r v' k). Qed.
Print Assumptions C17_hiding.
Example C17_ex : (* in the toy group logarithms are known, so a second opening exists *)
  let p := ped_New toy [] in
  let k := p_base toy p in
  c_val toy (CommitToScalar toy p k f0) = c_val toy (CommitToScalar toy p f0 f1) /\ (f0, k) <> (f1, f0).
Proof.
  cbv zeta. split.
  - unfold CommitToScalar, ped_New. cbn [c_val p_base p_blind].
    apply F_eq. vm_compute. reflexivity.
  - intros H. apply (f_equal fst) in H. cbn in H. apply f1_neq_f0. symmetry. exact H.
Qed.

(** C18.  [p] is any Pedersen struct obtained from New with any precomputation history. *)
Theorem C18_vector_commitment R (OK : rist_ok R) data p blind vs : ped_reached R data p -> small vs ->
  exists p', CommitToVectors R p blind vs = Ok (p', mkCom R (vec_commit R low_byte data blind vs) blind) /\
    ped_reached R data p'.
Proof. exact (commit_vectors R OK data p blind vs). Qed.
Print Assumptions C18_vector_commitment.
Theorem C18_no_vectors R p blind :
  CommitToVectors R p blind [] = Ok (p, mkCom R (pt0 R) blind).
Proof. exact eq_refl. Qed.
Print Assumptions C18_no_vectors.
Theorem C18_labels_distinct i j : i < 256 -> j < 256 -> low_byte i = low_byte j -> i = j.
Proof.
  unfold low_byte. intros Hi Hj H. apply (f_equal byte_Z) in H. rewrite !byte_Z_byte in H.
  rewrite !Z.mod_small in H by lia. lia.
Qed.
Print Assumptions C18_labels_distinct.
Example C18_ex : ped_reached toy [] (ped_New toy []) /\ small [[f1; f1]; [f1]] /\
  vec_commit toy low_byte [] f1 [[f1]; [f1]] =
   padd toy (padd toy (smul toy f1 (pbase toy)) (padd toy (smul toy f1 (pderive toy [])) (pt0 toy)))
     (padd toy (padd toy (smul toy f1 (pderive toy [Byte.x01])) (pt0 toy)) (pt0 toy)).
Proof.
  split; [apply ped_New_reached|]. split; [|reflexivity]. repeat constructor.
Qed.

(** C19. *)
Theorem C19_swap R (OK : rist_ok R) data p blind v0 pre v w mid post p1 c1 p2 c2 :
  ped_reached R data p -> small (v0 :: pre ++ v :: mid ++ w :: post) -> length mid = 255 ->
  CommitToVectors R p blind (v0 :: pre ++ v :: mid ++ w :: post) = Ok (p1, c1) ->
  CommitToVectors R p blind (v0 :: pre ++ w :: mid ++ v :: post) = Ok (p2, c2) ->
  c1 = c2.
Proof. exact (commit_swap R OK data p blind v0 pre v w mid post p1 c1 p2 c2). Qed.
Print Assumptions C19_swap.
Theorem C19_move R (OK : rist_ok R) data p blind v0 pre v w v' w' mid post p1 c1 p2 c2 :
  ped_reached R data p -> small (v0 :: pre ++ v :: mid ++ w :: post) -> length mid = 255 ->
  length v = length w -> length v' = length v -> length w' = length v -> vadd v w = vadd v' w' ->
  CommitToVectors R p blind (v0 :: pre ++ v :: mid ++ w :: post) = Ok (p1, c1) ->
  CommitToVectors R p blind (v0 :: pre ++ v' :: mid ++ w' :: post) = Ok (p2, c2) ->
  c1 = c2.
Proof. exact (commit_move R OK data p blind v0 pre v w v' w' mid post p1 c1 p2 c2). Qed.
Print Assumptions C19_move.
(** The example is built into the refutation: 258 vectors over any group. *)
Theorem C19_binding_refuted R (OK : rist_ok R) data :
  ~ (forall blind vs vs' p1 p2 c, small vs -> small vs' ->
      CommitToVectors R (ped_New R data) blind vs = Ok (p1, c) ->
      CommitToVectors R (ped_New R data) blind vs' = Ok (p2, c) -> vs = vs').
Proof. exact (commit_not_binding R OK data). Qed.
Print Assumptions C19_binding_refuted.
Example C19_ex : small ([] :: [] ++ [f1] :: repeat [] 255 ++ [] :: []) /\ length (repeat (@nil F) 255) = 255.
Proof. split; [repeat (constructor; [reflexivity|])|reflexivity]. constructor. Qed.

(** C20.  The bytes are delivered in any chunks [r], followed by any [rest]. *)
Theorem C20_roundtrip R (OK : rist_ok R) cs : (Z.of_nat (length cs) < 2 ^ 32)%Z ->
  exists w, EncodeCommitments R cs w_fresh = (Ok tt, w) /\
  forall r rest, fault_free r -> rbytes r = w_out w ++ rest ->
  exists r' cs', exec (DecodeCommitments R) r = (Ok cs', r') /\ rbytes r' = rest /\
    map (c_val R) cs' = map (c_val R) cs /\ Forall (fun c => c_blind R c = f0) cs'.
Proof. exact (coms_roundtrip R OK cs). Qed.
Print Assumptions C20_roundtrip.
Theorem C20_overlong_list_is_cut R (OK : rist_ok R) cs r : fault_free r -> rbytes r = concat (coms_chunks R cs) ->
  let k := Z.to_nat (Z.of_nat (length cs) mod 2 ^ 32) in
  exists r', exec (DecodeCommitments R) r = (Ok (map (fun c => mkCom R (c_val R c) f0) (firstn k cs)), r') /\
   rbytes r' = concat (map (fun c => pbytes R (c_val R c)) (skipn k cs)).
Proof. exact (coms_overlong R OK cs r). Qed.
Print Assumptions C20_overlong_list_is_cut.
Theorem C20_equality R (OK : rist_ok R) c d :
  (EqualValue R c d = true <-> c_val R c = c_val R d) /\ (com_Equals R c d = true <-> c = d).
Proof. exact (com_equals_spec R OK c d). Qed.
Print Assumptions C20_equality.
Example C20_ex : (Z.of_nat (length [mkCom toy (pbase toy) f1]) < 2 ^ 32)%Z /\
  fault_free [RChunk [Byte.x00]; RChunk [Byte.x00; Byte.x00; Byte.x00]] /\
  fst (exec (DecodeCommitments toy) [RChunk [Byte.x00]; RChunk [Byte.x00; Byte.x00; Byte.x00]]) = Ok [].
Proof. split; [reflexivity|]. split; [|reflexivity]. intros e [H|[H|[]]]; discriminate. Qed.

(** C21. *)
Theorem C21_concatenation R ops :
  hc_Result (hc_after ops) = concat (since [] ops) /\ hc_Derive R (hc_after ops) = sderive R (concat (since [] ops)).
Proof.
  unfold hc_Derive, hc_Result. rewrite hc_after_ok. split; reflexivity.
Qed.
Print Assumptions C21_concatenation.
Theorem C21_fixed_width_injective n ops ops' : n <> 0 ->
  Forall (fun x => length x = n) (since [] ops) -> Forall (fun x => length x = n) (since [] ops') ->
  hc_Result (hc_after ops) = hc_Result (hc_after ops') -> since [] ops = since [] ops'.
Proof.
  unfold hc_Result. rewrite !hc_after_ok. exact (fun Hn Ha Hb E => concat_fixed_inj n _ _ Hn Ha Hb E).
Qed.
Print Assumptions C21_fixed_width_injective.
Theorem C21_framing_refuted :
  ~ (forall vs vs', hc_Result (hc_Append [] vs) = hc_Result (hc_Append [] vs') -> vs = vs').
Proof.
  intros H. specialize (H [[Byte.x01]; [Byte.x02]] [[Byte.x01; Byte.x02]] eq_refl). discriminate H.
Qed.
Print Assumptions C21_framing_refuted.
Example C21_ex : since [] [HAppend [[Byte.x01]]; HClear; HAppend [[Byte.x02]; [Byte.x03]]; HAppend [[Byte.x04]]]
  = [[Byte.x02]; [Byte.x03]; [Byte.x04]].
Proof. reflexivity. Qed.
