(** Properties C93-C96: amounts behind dual keys, simulation, content and rotation of ring signatures
    (mlsag/mlsag.go, mlsag/dualkey.go, rangeproof/pedersen/pedersen.go, ringsig/blsag/blsag.go) *)
From Coq Require Import String ZArith List Lia Bool Arith Permutation.
From Coq Require Import Init.Byte.
From Verif Require Import GoModel GoFacts Fld Rist RistFacts RistInst SpecVector SpecMlsag PedersenModel MlsagModel MlsagSessions BlsagModel SpecBlsag
  SpecRewind SpecFork ForkFacts ForkAttack SpecBlFork BlForkFacts SpecRing RingMore P_Blsag P_Fork.
Import ListNotations.
Local Open Scope nat_scope.

(** ** C93.  A dual key signature over Pedersen commitments shows that the amounts are equal. *)
(** the commitments of Pedersen objects *)
Theorem C93_commitment R data b v : c_val R (CommitToScalar R (ped_New R data) b v) = com R v b.
Proof. reflexivity. Qed.
Print Assumptions C93_commitment.
(** The owner of a key xG with a commitment to v signs with a second commitment to v: the session succeeds, the ring consists
    of the decoys and the own output with the second commitment subtracted, and the signature is accepted. *)
Theorem C93_spend R (OK : rist_ok R) decoys msg x v b b' js rs : decoys <> [] -> x <> f0 -> b <> b' -> let D := com R v b' in
  exists d sg d', run_all run_dop (spend_ops R decoys D msg x (fsub b b')) (NewDualKey R) = Ok d /\
    dk_Prove R d js rs = (Ok (sg, key_image R x), d') /\ sg_msg R sg = msg /\
    Permutation (map (spend_row R D) (decoys ++ [(smul R x (pbase R), com R v b)])) (map (pk_keys R) (sg_pub R sg)) /\
    sig_Verify R sg [key_image R x] = Ok true.
Proof. exact (spend OK decoys msg x v b b' js rs). Qed.
Print Assumptions C93_spend.
(** the difference of blinding factors is a private key of the difference of commitments only if the values are equal *)
Theorem C93_mismatch R (OK : rist_ok R) v b v' b' :
  smul R (fsub b b') (pbase R) = psub R (com R v b) (com R v' b') <-> v = v' \/ value_point R = pt0 R.
Proof. exact (zero_comm OK v b v' b'). Qed.
Print Assumptions C93_mismatch.
(** Soundness, for outputs (key, value, blinding factor) and a commitment com v' b' fixed in advance, with the runs of C88:
    the private key of an output is found, with its key image, and its value is v'; or else a discrete logarithm of the
    generator of values; or all rows hashed the same string, and this holds for all outputs except for the key image. *)
Theorem C93_amounts R (OK : rist_ok R) outs v' b' k A (hs : list (bytes -> F)) : let ring := map (spend_row R (com R v' b')) (outputs R outs) in
  (forall h, In h hs -> accepted R ring 1 h (answer h A) /\ list_max (places R ring h A) = k /\
     forall s, In s (hashed R ring h (answer h A)) -> h s <> f0) ->
  (forall h h' q, In h hs -> In h' hs -> In q (firstn k (queries R ring h A)) -> h q = h' q) ->
  NoDup (map (fun h => h (nth k (queries R ring h A) [])) hs) ->
  Nat.max 2 (length outs) * k * (k + 1) + 1 < length hs ->
  exists h h', In h hs /\ In h' hs /\
   let f := answer h A in let f' := answer h' A in
   ((exists i o r r' c c' x z, nth_error outs (i mod length outs) = Some o /\
      nth_error (passed R ring f) i = Some r /\ nth_error (passed R ring f') i = Some r' /\
      nth_error (entering R ring h f) i = Some c /\ nth_error (entering R ring h' f') i = Some c' /\ c <> c' /\
      amount_found R o v' b' (snd r) (snd r') c c' x z /\ fg_images R f = [key_image R x] /\ fg_images R f' = [key_image R x]) \/
    (exists q, Forall (eq q) (hashed R ring h f) /\ Forall (eq q) (hashed R ring h' f') /\ h q <> h' q /\
      forall i o r r', nth_error outs (i mod length outs) = Some o ->
        nth_error (passed R ring f) i = Some r -> nth_error (passed R ring f') i = Some r' ->
        exists x z, amount_found R o v' b' (snd r) (snd r') (h q) (h' q) x z)).
Proof. exact (amounts OK outs v' b' k A hs). Qed.
Print Assumptions C93_amounts.

Example C93_ex_spend : exists d sg d', run_all run_dop (spend_ops tiny [(of_Z 5, of_Z 6)] (com tiny (of_Z 9) f0) [x01] f1 (fsub f1 f0)) (NewDualKey tiny) = Ok d /\
  dk_Prove tiny d (fun _ => 0) (fun _ => f1) = (Ok (sg, key_image tiny f1), d') /\ sig_Verify tiny sg [key_image tiny f1] = Ok true.
Proof.
  destruct (C93_spend tiny tiny_ok [(of_Z 5, of_Z 6)] [x01] f1 (of_Z 9) f1 f0 (fun _ => 0) (fun _ => f1) ltac:(discriminate) f1_neq_f0 f1_neq_f0)
    as (d & sg & d' & H1 & H2 & _ & _ & H3). exists d, sg, d'. auto.
Qed.
Example C93_ex_mismatch : smul tiny (fsub (of_Z 4) f1) (pbase tiny) <> psub tiny (com tiny (of_Z 2) (of_Z 4)) (com tiny (of_Z 3) f1).
Proof. intros C. apply (f_equal to_Z) in C. vm_compute in C. discriminate. Qed.
(** a spender against the runs of C93_amounts *)
Definition gx_z : F := fsub (of_Z 4) (of_Z 1).
Definition gx_outs : list (pt tiny * F * F) := [(of_Z 2, of_Z 7, of_Z 4); (of_Z 5, of_Z 8, of_Z 6)].
Definition gx_ring : list (list F) := map (spend_row tiny (com tiny (of_Z 7) (of_Z 1))) (outputs tiny gx_outs).
Definition gx_J : list F := [key_image tiny (of_Z 2)].
Definition gx_ss : list F := [of_Z 1; of_Z 3].
Definition gx_row (c : F) : list F := [fsub (of_Z 3) (fmul c (of_Z 2)); fsub (of_Z 5) (fmul c gx_z)].
Definition gx_q : bytes := concat (map (pbytes tiny) [of_Z 3; of_Z 5; fmul (of_Z 3) (pderive tiny (pbytes tiny (of_Z 2)))]).
Definition gx_q1 : bytes := input tiny [] gx_J (nth 1 gx_ring [], gx_ss) f1.
Definition gx_A : oracle (forgery tiny) :=
  Ask gx_q (fun c => Ask (input tiny [] gx_J (nth 1 gx_ring [], gx_ss) c) (fun c => Give (mkForgery tiny [] c [gx_row c; gx_ss] gx_J))).
Definition gx_h (v : F) (q : bytes) : F := if list_eq_dec Byte.byte_eq_dec q gx_q then f1 else v.
Definition gx_hs : list (bytes -> F) := map gx_h (map of_Z [1; 2; 3; 4; 5; 6]%Z).
Lemma gx_first c : input tiny [] gx_J (nth 0 gx_ring [], gx_row c) c = gx_q.
Proof.
  unfold input, gx_q, gx_ring, gx_J, gx_row. cbn [nth map outputs gx_outs spend_row fst snd row_points zipw combine app concat].
  assert (E1 : psub tiny (com tiny (of_Z 7) (of_Z 4)) (com tiny (of_Z 7) (of_Z 1)) = smul tiny gx_z (pbase tiny)) by (symmetry; apply (zero_comm tiny_ok); left; reflexivity).
  rewrite E1.
  assert (E2 : of_Z 2 = smul tiny (of_Z 2) (pbase tiny)) by (apply to_Z_inj; reflexivity).
  assert (E3 : of_Z 3 = smul tiny (of_Z 3) (pbase tiny)) by (apply to_Z_inj; reflexivity).
  assert (E5 : of_Z 5 = smul tiny (of_Z 5) (pbase tiny)) by (apply to_Z_inj; reflexivity).
  assert (A1 : forall a x, padd tiny (smul tiny (fsub a (fmul c x)) (pbase tiny)) (smul tiny c (smul tiny x (pbase tiny))) = smul tiny a (pbase tiny)) by (intros; lin tiny_ok).
  assert (A2 : forall a x P, padd tiny (smul tiny (fsub a (fmul c x)) P) (smul tiny c (smul tiny x P)) = smul tiny a P) by (intros; lin tiny_ok).
  rewrite (A1 (of_Z 5) gx_z). unfold key_image. rewrite <- E2. rewrite E2 at 2. rewrite A1, A2, <- E3, <- E5. reflexivity.
Qed.
Example C93_ex_amounts : (forall h, In h gx_hs -> accepted tiny gx_ring 1 h (answer h gx_A) /\ list_max (places tiny gx_ring h gx_A) = 1 /\
     forall s, In s (hashed tiny gx_ring h (answer h gx_A)) -> h s <> f0) /\
  (forall h h' q, In h gx_hs -> In h' gx_hs -> In q (firstn 1 (queries tiny gx_ring h gx_A)) -> h q = h' q) /\
  NoDup (map (fun h => h (nth 1 (queries tiny gx_ring h gx_A) [])) gx_hs) /\
  Nat.max 2 (length gx_outs) * 1 * (1 + 1) + 1 < length gx_hs.
Proof.
  assert (NQ : gx_q1 <> gx_q). { intros C. apply (f_equal (fun b => bytes_eqb b gx_q)) in C. vm_compute in C. discriminate. }
  assert (H0 : forall v, gx_h v gx_q = f1) by (intros v; unfold gx_h; destruct (list_eq_dec _ _ _); congruence).
  assert (H1 : forall v, gx_h v gx_q1 = v) by (intros v; unfold gx_h; destruct (list_eq_dec _ _ _); congruence).
  assert (EA : forall v, answer (gx_h v) gx_A = mkForgery tiny [] v [gx_row v; gx_ss] gx_J).
  { intros v. unfold gx_A. cbn [answer]. rewrite H0. fold gx_q1. rewrite H1. reflexivity. }
  assert (EH : forall v, hashed tiny gx_ring (gx_h v) (answer (gx_h v) gx_A) = [gx_q; gx_q1]).
  { intros v. rewrite EA. unfold hashed. cbn [fg_msg fg_images fg_c].
    change (passed tiny gx_ring _) with [(nth 0 gx_ring [], gx_row v); (nth 1 gx_ring [], gx_ss)].
    cbn [inputs]. rewrite gx_first, H0. reflexivity. }
  assert (QS : forall v, queries tiny gx_ring (gx_h v) gx_A = [gx_q; gx_q1; gx_q; gx_q1]).
  { intros v. unfold queries. rewrite EH. unfold gx_A. cbn [asked]. rewrite H0. reflexivity. }
  assert (NZ : forall z, (0 < z < 7)%Z -> of_Z z <> f0).
  { intros z Hz E. apply (f_equal to_Z) in E. rewrite to_Z_of_Z, Z.mod_small in E by (assert (7 < Prime.ell)%Z by reflexivity; lia). change (to_Z f0) with 0%Z in E. lia. }
  assert (V : forall h, In h gx_hs -> exists v, h = gx_h v /\ v <> f0).
  { intros h I. apply in_map_iff in I. destruct I as (v & <- & I). exists v. split; [reflexivity|].
    apply in_map_iff in I. destruct I as (z & <- & I). apply NZ. cbn in I. lia. }
  split; [|split; [|split]].
  - intros h I. destruct (V h I) as (v & -> & Nv). split; [|split].
    + apply accepted_intro; rewrite ?EA; [discriminate|lia|reflexivity|reflexivity|repeat constructor|].
      rewrite closing_last by discriminate. fold (hashed tiny gx_ring (gx_h v) (mkForgery tiny [] v [gx_row v; gx_ss] gx_J)).
      rewrite <- EA, EH, EA. exact (H1 v).
    + unfold places. rewrite QS, EH. cbn [map first_of].
      destruct (list_eq_dec _ gx_q gx_q) as [_|N]; [|congruence]. destruct (list_eq_dec _ gx_q gx_q1) as [E|_]; [congruence|].
      destruct (list_eq_dec _ gx_q1 gx_q1) as [_|N]; [reflexivity|congruence].
    + rewrite EH. intros s [<-|[<-|[]]]; [rewrite H0; apply f1_neq_f0|rewrite H1; exact Nv].
  - intros h h' q I I'. destruct (V h I) as (v & -> & Nv). destruct (V h' I') as (v' & -> & _). rewrite QS.
    intros [<-|[]]. rewrite !H0. reflexivity.
  - assert (EM : map (fun h => h (nth 1 (queries tiny gx_ring h gx_A) [])) gx_hs = map of_Z [1; 2; 3; 4; 5; 6]%Z).
    { unfold gx_hs. etransitivity; [apply map_map|]. etransitivity; [|apply map_id]. apply map_ext. intros v. rewrite QS. exact (H1 v). }
    rewrite EM. assert (IJ : forall a b, (0 < a < 7)%Z -> (0 < b < 7)%Z -> of_Z a = of_Z b -> a = b).
      { intros a b Ha Hb E. apply (f_equal to_Z) in E. rewrite !to_Z_of_Z, !Z.mod_small in E by (assert (7 < Prime.ell)%Z by reflexivity; lia). exact E. }
      assert (ND : NoDup [1; 2; 3; 4; 5; 6]%Z). { repeat constructor; cbn; intuition discriminate. }
      assert (B : Forall (fun a => 0 < a < 7)%Z [1; 2; 3; 4; 5; 6]%Z) by (repeat constructor).
      revert B ND. generalize [1; 2; 3; 4; 5; 6]%Z. induction l as [|a l IH]; intros B ND; [constructor|].
      inversion B as [|? ? Ba Bl]; subst. inversion ND; subst. cbn [map]. constructor; [|apply IH; assumption].
      intros C2. apply in_map_iff in C2. destruct C2 as (b & E & Ib). apply IJ in E; [congruence| |assumption].
      exact (proj1 (Forall_forall _ _) Bl b Ib).
  - cbn. lia.
Qed.

(** ** C94.  Signatures can be made without private keys by whoever chooses one hash value, and honest signers make all of them. *)
(** any challenge, responses and key images are accepted when the last string hashed, which is none of the others, has the challenge as hash *)
Theorem C94_simulate R ring m h f : ring <> [] -> 0 < m -> length (fg_r R f) = length ring -> length (fg_images R f) = m ->
  Forall (row_ok R (fg_images R f)) (combine ring (fg_r R f)) ->
  let q := last (hashed R ring h f) [] in ~ In q (removelast (hashed R ring h f)) -> accepted R ring m (reprogram h q (fg_c R f)) f.
Proof. exact (simulate ring m h f). Qed.
Print Assumptions C94_simulate.
(** for signatures accepted before this changes nothing *)
Theorem C94_real R ring m h f : accepted R ring m h f -> forall s, reprogram h (last (hashed R ring h f) []) (fg_c R f) s = h s.
Proof. exact (simulated ring m h f). Qed.
Print Assumptions C94_real.
(** a signer who knows the private keys xs makes each accepted signature with their key images with exactly one choice of nonces *)
Theorem C94_signer R (OK : rist_ok R) h msg c r xs decoys : length r = length xs -> decoys <> [] ->
  accepted R (keys_of R xs :: map fst decoys) (length xs) h (mkForgery R msg c (r :: map snd decoys) (map (key_image R) xs)) ->
  forall ns, length ns = length xs ->
    (answer h (signer R msg ns xs decoys) = mkForgery R msg c (r :: map snd decoys) (map (key_image R) xs) <-> ns = nonces_for c r xs).
Proof. exact (signer_unique OK h msg c r xs decoys). Qed.
Print Assumptions C94_signer.
(** the same for bLSAG *)
Theorem C94_blsag R V (VOK : raw_ok R V) ring h f : ring <> [] -> length ring <= length (bf_s R f) ->
  let qs := inputs R h (bf_msg R f) [bf_image R f] (map (fun x => ([fst x], [snd x])) (combine ring (bf_s R f))) (bf_c R f) in
  let q := last qs [] in ~ In q (removelast qs) -> bl_accepted R V ring (reprogram h q (bf_c R f)) f.
Proof. exact (simulate_bl VOK ring h f). Qed.
Print Assumptions C94_blsag.
(** no private keys: keys 7 and 5, key image 6, responses 1 and 2, challenge 3 *)
Definition sx_f : forgery tiny := mkForgery tiny [] (of_Z 3) [[of_Z 1]; [of_Z 2]] [of_Z 6].
Definition sx_ring : list (list F) := [[of_Z 7]; [of_Z 5]].
Lemma sx_new : ~ In (last (hashed tiny sx_ring (fun _ => f1) sx_f) []) (removelast (hashed tiny sx_ring (fun _ => f1) sx_f)).
Proof.
  assert (E : existsb (bytes_eqb (last (hashed tiny sx_ring (fun _ => f1) sx_f) [])) (removelast (hashed tiny sx_ring (fun _ => f1) sx_f)) = false) by (vm_compute; reflexivity).
  intros C. rewrite <- Bool.not_true_iff_false in E. apply E. apply existsb_exists. eexists. split; [exact C|]. apply bytes_eqb_refl.
Qed.
Example C94_ex : exists h, accepted tiny sx_ring 1 h sx_f.
Proof. eexists. apply C94_simulate; [discriminate|lia|reflexivity|reflexivity|repeat constructor|exact sx_new]. Qed.
Example C94_ex_blsag : exists h, bl_accepted tiny (opt_raw tiny) [of_Z 7; of_Z 5] h (mkBlForgery tiny [] (of_Z 3) [of_Z 1; of_Z 2] (of_Z 6)).
Proof. eexists. apply (C94_blsag tiny (opt_raw tiny) (opt_raw_ok tiny)); [discriminate|cbn; lia|exact sx_new]. Qed.
Example C94_ex_signer : exists c r, length r = 1 /\
  accepted tiny (keys_of tiny [of_Z 2] :: map fst fx_decoys) 1 (fx_h f1) (mkForgery tiny [] c (r :: map snd fx_decoys) (map (key_image tiny) [of_Z 2])).
Proof.
  destruct C88_ex as (H & _). destruct (H (fx_h f1)) as (A & _); [left; reflexivity|].
  eexists _, _. split; [|exact A]. reflexivity.
Qed.

(** ** C95.  Signatures bind their content. *)
(** the same challenge with another message: two strings with the same hash *)
Theorem C95_message R (OK : rist_ok R) ring m h f f' : accepted R ring m h f -> accepted R ring m h f' -> fg_c R f = fg_c R f' -> fg_msg R f <> fg_msg R f' ->
  let q := last (hashed R ring h f) [] in let q' := last (hashed R ring h f') [] in q <> q' /\ h q = fg_c R f /\ h q' = fg_c R f.
Proof. exact (message_bound OK ring m h f f'). Qed.
Print Assumptions C95_message.
(** the same challenge and other strings: two strings hashed at the same place with the same hash, or the private keys of a row *)
Theorem C95_change R (OK : rist_ok R) ring m h f f' : accepted R ring m h f -> accepted R ring m h f' -> fg_c R f = fg_c R f' ->
  hashed R ring h f <> hashed R ring h f' ->
  exists i q q' r r' c c', nth_error (hashed R ring h f) i = Some q /\ nth_error (hashed R ring h f') i = Some q' /\
    nth_error (passed R ring f) i = Some r /\ nth_error (passed R ring f') i = Some r' /\
    nth_error (entering R ring h f) i = Some c /\ nth_error (entering R ring h f') i = Some c' /\
    (q <> q' /\ h q = h q' \/ q = q' /\ keys_found R r r' c c').
Proof. exact (content_bound OK ring m h f f'). Qed.
Print Assumptions C95_change.
(** the same challenge and the same strings: the same message, responses and key images *)
Theorem C95_same R (OK : rist_ok R) ring m h f f' : accepted R ring m h f -> accepted R ring m h f' -> fg_c R f = fg_c R f' ->
  hashed R ring h f = hashed R ring h f' ->
  fg_msg R f = fg_msg R f' /\
  (forall i r r', nth_error (passed R ring f) i = Some r -> nth_error (passed R ring f') i = Some r' ->
     firstn (length (fst r)) (snd r) = firstn (length (fst r)) (snd r')) /\
  (fg_c R f <> f0 -> fg_images R f = fg_images R f').
Proof. exact (content_same OK ring m h f f'). Qed.
Print Assumptions C95_same.
(** two messages accepted with the same challenge under a hash that is constant; more responses than keys *)
Definition cx (msg : bytes) (r : list (list F)) : forgery tiny := mkForgery tiny msg f1 r [of_Z 6].
Lemma cx_ok msg r : Forall (row_ok tiny [of_Z 6]) (combine sx_ring r) -> length r = 2 -> accepted tiny sx_ring 1 (fun _ => f1) (cx msg r).
Proof.
  intros F L. apply accepted_intro; [discriminate|lia|exact L|reflexivity|exact F|]. 
  destruct r as [|a [|b [|c r]]]; try discriminate. reflexivity.
Qed.
Example C95_ex : accepted tiny sx_ring 1 (fun _ => f1) (cx [] [[of_Z 1]; [of_Z 2]]) /\
  accepted tiny sx_ring 1 (fun _ => f1) (cx [x01] [[of_Z 1]; [of_Z 2]]) /\
  accepted tiny sx_ring 1 (fun _ => f1) (cx [] [[of_Z 1]; [of_Z 2; of_Z 3]]).
Proof. repeat split; apply cx_ok; repeat constructor. Qed.

(** ** C96 (defect).  A signature turned by one place is a signature again. *)
Theorem C96_mlsag R m c r pub J k r0 : sig_Verify R (mkSig R c r pub m) J = Ok true -> length pub = length r ->
  nth_error pub 0 = Some k -> nth_error r 0 = Some r0 ->
  sig_Verify R (mkSig R (ring_chal R m J (pk_keys R k) r0 c) (rotate r) (rotate pub) m) J = Ok true.
Proof. intros H1 H2 H3 H4. exact (rotate_verify m c r pub J _ k r0 H1 H2 H3 H4 eq_refl). Qed.
Print Assumptions C96_mlsag.
Theorem C96_blsag R V m (sg : rsig R V) P s : Verify R V m sg = Ok true -> length (rs_pub R V sg) = length (rs_S R V sg) ->
  nth_error (rs_pub R V sg) 0 = Some P -> nth_error (rs_S R V sg) 0 = Some s ->
  Verify R V m (mkRS R V (rs_I R V sg) (bl_chal R V m (rs_I R V sg) (P, s) (rs_C R V sg)) (rotate (rs_S R V sg)) (rotate (rs_pub R V sg))) = Ok true.
Proof. exact (rotate_bl m sg P s). Qed.
Print Assumptions C96_blsag.
Example C96_ex : sig_Verify tiny (mkSig tiny f1 [[of_Z 1]; [of_Z 2]] [mkPK tiny true [of_Z 7]; mkPK tiny true [of_Z 5]] []) [of_Z 6] = Ok true /\
  Verify tiny (opt_raw tiny) [] (mkRS tiny (opt_raw tiny) (Some (of_Z 6)) f1 [of_Z 1; of_Z 2] [Some (of_Z 7); Some (of_Z 5)]) = Ok true.
Proof. split; vm_compute; reflexivity. Qed.
