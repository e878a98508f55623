(** The lemmas behind P_Pedersen.v *)
From Coq Require Import String ZArith List Lia Bool Arith Field.
From Coq Require Import Init.Byte Strings.Byte.
From Verif Require Import GoModel GoFacts ReadModel ReadFacts Fld Rist RistFacts SpecVector VectorModel VectorFacts
  PedersenModel SpecPedersen PedersenFacts.
Import ListNotations.
Local Open Scope nat_scope.

(** a generator / Pedersen struct reached from New by Compute and Clear calls *)
Definition gen_after (R : rist) (data : bytes) (ops : list gen_op) : res (generator R) :=
  fold_left (fun r op => let! g := r in
     match op with OpCompute n => gen_Compute R n g | OpClear => Ok (gen_Clear R g) end) ops (Ok (gen_New R data)).

Section Props.
Context (R : rist) (OK : rist_ok R).

Lemma gen_after_ok data ops :
  gen_after R data ops = Ok (mkGen R data (chain R data (computed 0 ops))).
Proof. exact (gen_history data ops 0). Qed.

Lemma chain_prefix seed a b : firstn a (chain R seed (a + b)) = chain R seed a.
Proof.
  rewrite chain_app, firstn_app, chain_length, Nat.sub_diag. cbn [firstn]. rewrite app_nil_r.
  apply firstn_all2. rewrite chain_length. lia.
Qed.

Lemma chain_nth seed n k p q : nth_error (chain R seed n) k = Some p -> nth_error (chain R seed n) (S k) = Some q ->
  q = pderive R (pbytes R p).
Proof.
  revert seed k. induction n as [|n IH]; intros seed k; [destruct k; discriminate|].
  cbn [chain]. destruct k as [|k]; cbn [nth_error].
  - intros H1 H2. injection H1 as <-. destruct n; [discriminate|]. cbn in H2. congruence.
  - apply IH.
Qed.

Lemma chain_hd seed n : 0 < n -> nth_error (chain R seed n) 0 = Some (pderive R seed).
Proof. intros H. destruct n; [lia|]. reflexivity. Qed.

(** ** scalar commitments *)
Lemma commit_scalar_hom p v1 r1 v2 r2 :
  padd R (c_val R (CommitToScalar R p r1 v1)) (c_val R (CommitToScalar R p r2 v2)) =
  c_val R (CommitToScalar R p (fadd r1 r2) (fadd v1 v2)).
Proof. unfold CommitToScalar. cbn [c_val]. lin OK. Qed.

Lemma commit_scalar_binding p v1 r1 v2 r2 :
  c_val R (CommitToScalar R p r1 v1) = c_val R (CommitToScalar R p r2 v2) ->
  (v1, r1) <> (v2, r2) ->
  p_blind R p <> pt0 R ->
  v1 <> v2 /\ p_base R p = smul R (fmul (fsub r2 r1) (finv (fsub v1 v2))) (p_blind R p).
Proof.
  unfold CommitToScalar. cbn [c_val]. intros H D NB.
  assert (E : smul R (fsub v1 v2) (p_base R p) = smul R (fsub r2 r1) (p_blind R p)).
  { apply (padd_cancel_r OK (padd R (smul R v2 (p_base R p)) (smul R r1 (p_blind R p)))).
    transitivity (padd R (smul R v1 (p_base R p)) (smul R r1 (p_blind R p))); [lin OK|].
    rewrite H. lin OK. }
  assert (NV : v1 <> v2).
  { intros ->. apply D. f_equal. apply (smul_inj_l OK r1 r2 (p_blind R p) NB).
    apply (padd_cancel_l OK (smul R v2 (p_base R p))). exact H. }
  split; [exact NV|].
  assert (NZ : fsub v1 v2 <> f0).
  { intros Z. apply NV. replace v1 with (fadd (fsub v1 v2) v2) by ring. rewrite Z. ring. }
  apply (smul_inj_r OK (fsub v1 v2) _ _ NZ). rewrite E. rewrite <- (smul_mul R OK). f_equal. field. exact NZ.
Qed.

(** perfect hiding: for every value there is a blinding factor giving the same point,
    provided BasePoint is a multiple of BlindPoint *)
Lemma commit_scalar_hiding p v r v' k : p_base R p = smul R k (p_blind R p) ->
  exists r', c_val R (CommitToScalar R p r' v') = c_val R (CommitToScalar R p r v).
Proof.
  intros H. exists (fadd r (fmul k (fsub v v'))). unfold CommitToScalar. cbn [c_val]. rewrite H. lin OK.
Qed.

(** ** vector commitments *)
Lemma vec_terms_app label data k a b :
  vec_terms R label data k (a ++ b) = padd R (vec_terms R label data k a) (vec_terms R label data (k + length a) b).
Proof.
  revert k. induction a as [|v a IH]; intros k; cbn [app vec_terms length].
  - rewrite Nat.add_0_r, (padd_0_l R OK). reflexivity.
  - rewrite IH. rewrite Nat.add_succ_r. apply (padd_assoc R OK).
Qed.

Lemma low_byte_256 j : low_byte (j + 256) = low_byte j.
Proof.
  unfold low_byte, Z_byte. rewrite Nat2Z.inj_add. change (Z.of_nat 256) with 256%Z.
  replace (Z.of_nat j + 256)%Z with (Z.of_nat j + 1 * 256)%Z by lia. rewrite Z_mod_plus_full. reflexivity.
Qed.

Lemma vec_commit_swap data r v0 pre v w v' w' mid post :
  length mid = 255 ->
  (forall seed, padd R (vec_term R seed v) (vec_term R seed w) = padd R (vec_term R seed v') (vec_term R seed w')) ->
  vec_commit R low_byte data r (v0 :: pre ++ v :: mid ++ w :: post) =
  vec_commit R low_byte data r (v0 :: pre ++ v' :: mid ++ w' :: post).
Proof.
  intros L H. cbn [vec_commit]. f_equal. rewrite !vec_terms_app. f_equal.
  cbn [vec_terms]. rewrite !vec_terms_app. cbn [vec_terms]. rewrite L.
  replace (S (1 + length pre) + 255) with (1 + length pre + 256) by lia. rewrite low_byte_256.
  set (T := vec_terms R low_byte data (S (1 + length pre)) mid).
  set (U := vec_terms R low_byte data (S (1 + length pre + 256)) post).
  specialize (H (data ++ [low_byte (1 + length pre)])).
  set (A := vec_term R (data ++ [low_byte (1 + length pre)]) v) in *.
  set (B := vec_term R (data ++ [low_byte (1 + length pre)]) w) in *.
  set (A' := vec_term R (data ++ [low_byte (1 + length pre)]) v') in *.
  set (B' := vec_term R (data ++ [low_byte (1 + length pre)]) w') in *.
  transitivity (padd R (padd R A B) (padd R T U)); [lin OK|]. rewrite H. lin OK.
Qed.

Lemma vec_term_vadd seed v w : length v = length w ->
  padd R (vec_term R seed v) (vec_term R seed w) = vec_term R seed (vadd v w).
Proof.
  intros L. unfold vec_term. rewrite vadd_length by exact L. rewrite (msm_vadd OK) by exact L.
  rewrite <- L. reflexivity.
Qed.

Definition small (vs : list (list F)) : Prop := Forall (fun v => (Z.of_nat (length v) < 2 ^ 32)%Z) vs.
(** Pedersen structs reached from New: any number of generators already computed *)
Definition ped_reached (data : bytes) (p : pedersen R) : Prop :=
  p_data R p = data /\ p_blind R p = pbase R /\ p_base R p = pderive R (str_bytes "blindPoint") /\
  (exists ops, gen_after R data ops = Ok (p_gens R p)).

Lemma ped_reached_ok data p : ped_reached data p -> ped_ok data p.
Proof.
  intros [A [B [_ [ops E]]]]. split; [exact A|]. split; [exact B|].
  rewrite gen_after_ok in E. injection E as E. eexists. symmetry. exact E.
Qed.
Lemma ped_ok_reached data p p' : ped_ok data p' -> p_base R p' = p_base R p -> ped_reached data p -> ped_reached data p'.
Proof.
  intros [A [B [k G]]] C [_ [_ [D _]]]. split; [exact A|]. split; [exact B|]. split; [congruence|].
  exists [OpCompute k]. rewrite gen_after_ok. cbn [computed Nat.add]. rewrite G. reflexivity.
Qed.

Lemma commit_vectors data p blind vs : ped_reached data p -> small vs ->
  exists p', CommitToVectors R p blind vs = Ok (p', mkCom R (vec_commit R low_byte data blind vs) blind) /\
    ped_reached data p'.
Proof.
  intros HP HF. destruct (CommitToVectors_ok OK data p blind vs (ped_reached_ok data p HP) HF) as [p' [E [P1 P2]]].
  exists p'. split; [exact E|]. eapply ped_ok_reached; eassumption.
Qed.

Lemma ped_New_reached data : ped_reached data (ped_New R data).
Proof. repeat split. exists []. reflexivity. Qed.

Lemma commit_swap data p blind v0 pre v w mid post p1 c1 p2 c2 :
  ped_reached data p -> small (v0 :: pre ++ v :: mid ++ w :: post) -> length mid = 255 ->
  CommitToVectors R p blind (v0 :: pre ++ v :: mid ++ w :: post) = Ok (p1, c1) ->
  CommitToVectors R p blind (v0 :: pre ++ w :: mid ++ v :: post) = Ok (p2, c2) ->
  c1 = c2.
Proof.
  intros HP HS HL H1 H2.
  assert (HS2 : small (v0 :: pre ++ w :: mid ++ v :: post)).
  { unfold small in *. rewrite Forall_forall in *. intros x Hx. apply HS.
    cbn in *. rewrite !in_app_iff in *. cbn in *. rewrite !in_app_iff in *. cbn in *. tauto. }
  destruct (commit_vectors data p blind _ HP HS) as [q1 [E1 _]].
  destruct (commit_vectors data p blind _ HP HS2) as [q2 [E2 _]].
  rewrite E1 in H1. rewrite E2 in H2. injection H1 as <- <-. injection H2 as <- <-. f_equal.
  apply vec_commit_swap; [exact HL|]. intros seed. apply (padd_comm R OK).
Qed.

Lemma commit_move data p blind v0 pre v w v' w' mid post p1 c1 p2 c2 :
  ped_reached data p -> small (v0 :: pre ++ v :: mid ++ w :: post) -> length mid = 255 ->
  length v = length w -> length v' = length v -> length w' = length v -> vadd v w = vadd v' w' ->
  CommitToVectors R p blind (v0 :: pre ++ v :: mid ++ w :: post) = Ok (p1, c1) ->
  CommitToVectors R p blind (v0 :: pre ++ v' :: mid ++ w' :: post) = Ok (p2, c2) ->
  c1 = c2.
Proof.
  intros HP HS HL L1 L2 L3 HV H1 H2.
  assert (HS2 : small (v0 :: pre ++ v' :: mid ++ w' :: post)).
  { unfold small in *. rewrite Forall_forall in *. intros x Hx.
    cbn in Hx. rewrite !in_app_iff in Hx. cbn in Hx. rewrite !in_app_iff in Hx. cbn in Hx.
    assert (Hv : (Z.of_nat (length v) < 2 ^ 32)%Z).
    { apply HS. cbn. right. rewrite in_app_iff. right. left. reflexivity. }
    destruct Hx as [<-|[Hx|[<-|[Hx|[<-|Hx]]]]]; rewrite ?L2, ?L3; try exact Hv;
      apply HS; cbn; rewrite ?in_app_iff; cbn; rewrite ?in_app_iff; cbn; tauto. }
  destruct (commit_vectors data p blind _ HP HS) as [q1 [E1 _]].
  destruct (commit_vectors data p blind _ HP HS2) as [q2 [E2 _]].
  rewrite E1 in H1. rewrite E2 in H2. injection H1 as <- <-. injection H2 as <- <-. f_equal.
  apply vec_commit_swap; [exact HL|]. intros seed.
  rewrite !vec_term_vadd by congruence. rewrite HV. reflexivity.
Qed.

Lemma commit_not_binding data : 
  ~ (forall blind vs vs' p1 p2 c, small vs -> small vs' ->
      CommitToVectors R (ped_New R data) blind vs = Ok (p1, c) ->
      CommitToVectors R (ped_New R data) blind vs' = Ok (p2, c) -> vs = vs').
Proof.
  intros H.
  set (mid := repeat (@nil F) 255).
  assert (S1 : small ([] :: [] ++ [f1] :: mid ++ [] :: [])).
  { unfold small. rewrite Forall_forall. intros x Hx. cbn [app] in Hx.
    destruct Hx as [<-|[<-|Hx]]; [cbn; lia|cbn; lia|]. apply in_app_or in Hx. destruct Hx as [Hx|[<-|[]]]; [|cbn; lia].
    apply repeat_spec in Hx. subst x. cbn. lia. }
  assert (S2 : small ([] :: [] ++ [] :: mid ++ [f1] :: [])).
  { unfold small. rewrite Forall_forall. intros x Hx. cbn [app] in Hx.
    destruct Hx as [<-|[<-|Hx]]; [cbn; lia|cbn; lia|]. apply in_app_or in Hx. destruct Hx as [Hx|[<-|[]]]; [|cbn; lia].
    apply repeat_spec in Hx. subst x. cbn. lia. }
  destruct (commit_vectors data _ f0 _ (ped_New_reached data) S1) as [q1 [E1 _]].
  destruct (commit_vectors data _ f0 _ (ped_New_reached data) S2) as [q2 [E2 _]].
  assert (C : mkCom R (vec_commit R low_byte data f0 ([] :: [] ++ [f1] :: mid ++ [] :: [])) f0 =
              mkCom R (vec_commit R low_byte data f0 ([] :: [] ++ [] :: mid ++ [f1] :: [])) f0).
  { eapply (commit_swap data (ped_New R data) f0 [] [] [f1] [] mid []); try eassumption.
    - apply ped_New_reached.
    - reflexivity. }
  rewrite C in E1. specialize (H _ _ _ _ _ _ S1 S2 E1 E2). discriminate H.
Qed.

(** ** codec *)
Lemma coms_roundtrip cs : (Z.of_nat (length cs) < 2 ^ 32)%Z ->
  exists w, EncodeCommitments R cs w_fresh = (Ok tt, w) /\
  forall r rest, fault_free r -> rbytes r = w_out w ++ rest ->
  exists r' cs', exec (DecodeCommitments R) r = (Ok cs', r') /\ rbytes r' = rest /\
    map (c_val R) cs' = map (c_val R) cs /\ Forall (fun c => c_blind R c = f0) cs'.
Proof.
  intros L. unfold EncodeCommitments. change (w_each w_write (coms_chunks R cs)) with (write_chunks (coms_chunks R cs)).
  destruct (write_chunks_ok (coms_chunks R cs) w_fresh) as [W1 W2]; [intros k []|].
  destruct (write_chunks_spec (coms_chunks R cs) w_fresh) as [pre [P1 [_ [P3 _]]]].
  rewrite (P3 W1) in P1. destruct (write_chunks (coms_chunks R cs) w_fresh) as [rr w]. cbn [fst snd] in *. subst rr.
  exists w. split; [reflexivity|]. intros r rest F E. rewrite P1 in E. cbn [w_fresh w_out app] in E.
  destruct (reads_coms OK cs L r rest F E) as [r' [A [B _]]].
  exists r', (map strip_blind cs). split; [exact A|]. split; [exact B|]. split.
  - rewrite map_map. reflexivity.
  - apply Forall_forall. intros c Hc. apply in_map_iff in Hc. destruct Hc as [x [<- _]]. reflexivity.
Qed.

Lemma com_equals_spec c d : (EqualValue R c d = true <-> c_val R c = c_val R d) /\
  (com_Equals R c d = true <-> c = d).
Proof.
  unfold com_Equals, EqualValue. split; [apply (peqb_ok R OK)|].
  rewrite andb_true_iff, (peqb_ok R OK), feqb_eq. destruct c, d. cbn. split.
  - intros [-> ->]. reflexivity.
  - intros H. injection H as -> ->. auto.
Qed.

(** an over-long list is silently cut modulo 2^32 by the length prefix *)
Lemma coms_overlong cs r : fault_free r -> rbytes r = coms_enc cs ->
  let k := Z.to_nat (Z.of_nat (length cs) mod 2 ^ 32) in
  exists r', exec (DecodeCommitments R) r = (Ok (map strip_blind (firstn k cs)), r') /\
   rbytes r' = concat (map (fun c => pbytes R (c_val R c)) (skipn k cs)).
Proof.
  intros F E k.
  assert (K : k <= length cs).
  { unfold k. pose proof (Z.mod_le (Z.of_nat (length cs)) (2 ^ 32)). lia. }
  assert (KL : length (firstn k cs) = k) by (rewrite firstn_length; lia).
  assert (KZ : Z.of_nat k = (Z.of_nat (length cs) mod 2 ^ 32)%Z).
  { unfold k. rewrite Z2Nat.id; [reflexivity|]. apply Z.mod_pos_bound. lia. }
  assert (KB : (Z.of_nat k < 2 ^ 32)%Z) by (rewrite KZ; apply Z.mod_pos_bound; lia).
  assert (ES : coms_enc cs = coms_enc (firstn k cs) ++ concat (map (fun c => pbytes R (c_val R c)) (skipn k cs))).
  { rewrite !coms_enc_eq, KL. unfold u32. rewrite <- app_assoc. f_equal.
    - rewrite KZ, Z.mod_mod by lia. reflexivity.
    - rewrite <- concat_app, <- map_app, firstn_skipn. reflexivity. }
  rewrite ES in E. destruct (reads_coms OK (firstn k cs) ltac:(rewrite KL; lia) r _ F E) as [r' [A [B _]]].
  exists r'. auto.
Qed.
End Props.

(** ** transcripts *)
Definition hc_after (ops : list hc_op) : cacher :=
  fold_left (fun h op => match op with HAppend vs => hc_Append h vs | HClear => hc_Clear h end) ops [].
Lemma hc_after_ok ops : hc_after ops = concat (since [] ops).
Proof. exact (hc_history ops []). Qed.
