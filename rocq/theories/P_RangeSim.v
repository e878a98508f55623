(** Properties C97, C98: the final scalars of a range proof are bound by its points; and range proofs can
    be made without knowing the values when the challenges are known in advance. *)
From Coq Require Import String ZArith List Lia Bool Arith Field.
From Coq Require Import Init.Byte.
From Verif Require Import GoModel GoFacts Fld Rist RistFacts RistInst SpecVector SpecIPP SpecRange SpecSound VectorModel VectorFacts PedersenModel PedersenFacts SpecPedersen
  InnerProductModel InnerProductFacts GlobModel GlobFacts RangeProofModel SpecHonest RangeFacts RangeRun RangeProps P_RangeProof Poly IPSound RangeSound SoundPoints
  SpecRewind RewindIP P_Rewind SpecRing RingMore SpecRangeSim RangeSim P_Fork.
Import ListNotations.
Local Open Scope nat_scope.

(** C97.  Two proofs with the same points. *)
Definition same_points R (p p' : proof R) (ip ip' : ipproof R) : Prop :=
  vals (pf_V R p') = vals (pf_V R p) /\ pf_A R p' = pf_A R p /\ pf_S R p' = pf_S R p /\ pf_T1 R p' = pf_T1 R p /\ pf_T2 R p' = pf_T2 R p /\
  ip_L R ip' = ip_L R ip /\ ip_R R ip' = ip_R R ip.
Definition chal_y R (p : proof R) : F := rp_y R (vals (pf_V R p)) (pf_A R p) (pf_S R p).
Definition chal_x R (p : proof R) : F :=
  rp_x R (vals (pf_V R p)) (pf_A R p) (pf_S R p) (rp_z R (chal_y R p)) (pf_T1 R p) (pf_T2 R p).
Definition chal_w R (p : proof R) : F :=
  rp_w R (vals (pf_V R p)) (pf_A R p) (pf_S R p) (rp_z R (chal_y R p)) (pf_T1 R p) (pf_T2 R p) (chal_x R p) (pf_taux R p) (pf_mu R p) (pf_t R p).
Definition proofs_ip (m : nat) R (p p' : proof R) (ip ip' : ipproof R) : rep :=
  diff_ip m (challenges R [] (ip_L R ip) (ip_R R ip)) (chal_y R p) (chal_w R p) (chal_w R p') (ip_A R ip) (ip_A R ip') (ip_B R ip) (ip_B R ip')
    (pf_mu R p) (pf_mu R p') (pf_t R p) (pf_t R p').
Definition proofs_poly R (p p' : proof R) : rep := diff_poly (pf_t R p) (pf_t R p') (pf_taux R p) (pf_taux R p').
Lemma proofs_E R (OK : rist_ok R) m p p' ip ip' : ip_size m R ip -> same_points R p p' ip ip' ->
  reval R (64 * m) (proofs_ip m R p p' ip ip') = psub R (rp_E1 R m p ip) (rp_E1 R m p' ip') /\
  reval R (64 * m) (proofs_poly R p p') = psub R (rp_E2 R m p) (rp_E2 R m p').
Proof.
  intros (S1 & S2 & S3) (EV & EA & ES & ET1 & ET2 & EL & ER). unfold proofs_ip, proofs_poly, rp_E1, rp_E2. cbv zeta. split.
  - rewrite (diff_ip_eval OK m (ip_L R ip) (ip_R R ip) _ _ _ _ (pf_A R p) (pf_S R p) (chal_x R p) (chal_y R p) (rp_z R (chal_y R p))) by assumption.
    unfold chal_w, chal_x, chal_y. rewrite EV, EA, ES, ET1, ET2, EL, ER. reflexivity.
  - rewrite (diff_poly_eval OK). rewrite EV, EA, ES, ET1, ET2. lin OK.
Qed.
(** Accepted with the same factor c of the verifier: a linear relation among the generators, *)
Theorem C97_relation R (OK : rist_ok R) c p p' ip ip' m : pf_ip R p = Some ip -> pf_ip R p' = Some ip' -> 0 < m -> (64 * Z.of_nat m < 2 ^ 32)%Z ->
  ip_size m R ip -> m <= length (pf_V R p) -> same_points R p p' ip ip' ->
  fst (grun (Verify R c p) (Z.of_nat m)) = Ok true -> fst (grun (Verify R c p') (Z.of_nat m)) = Ok true ->
  reval R (64 * m) (radd (rscale c (proofs_ip m R p p' ip ip')) (proofs_poly R p p')) = pt0 R.
Proof.
  intros HI HI' HM HB HS HV SP V1 V2. destruct (proofs_E R OK m p p' ip ip' HS SP) as [E1 E2].
  assert (HS' : ip_size m R ip') by (destruct SP as (_ & _ & _ & _ & _ & EL & ER); unfold ip_size; rewrite EL, ER; exact HS).
  assert (HV' : m <= length (pf_V R p')) by (destruct SP as (EV & _); apply (f_equal (@length _)) in EV; unfold vals in EV; rewrite !map_length in EV; lia).
  apply (C33_verify_iff R OK c p ip m HI HM HB HS HV) in V1. apply (C33_verify_iff R OK c p' ip' m HI' HM HB HS' HV') in V2.
  rewrite (reval_add OK), (reval_scale OK), E1, E2. transitivity (psub R (pt0 R) (pt0 R)); [|lin OK].
  rewrite <- V1 at 1. rewrite <- V2. lin OK.
Qed.
Print Assumptions C97_relation.
(** with two factors two relations, *)
Theorem C97_relations R (OK : rist_ok R) c c' p p' ip ip' m : pf_ip R p = Some ip -> pf_ip R p' = Some ip' -> 0 < m -> (64 * Z.of_nat m < 2 ^ 32)%Z ->
  ip_size m R ip -> m <= length (pf_V R p) -> same_points R p p' ip ip' -> c <> c' ->
  fst (grun (Verify R c p) (Z.of_nat m)) = Ok true -> fst (grun (Verify R c' p) (Z.of_nat m)) = Ok true ->
  fst (grun (Verify R c p') (Z.of_nat m)) = Ok true -> fst (grun (Verify R c' p') (Z.of_nat m)) = Ok true ->
  reval R (64 * m) (proofs_ip m R p p' ip ip') = pt0 R /\ reval R (64 * m) (proofs_poly R p p') = pt0 R.
Proof.
  intros HI HI' HM HB HS HV SP NC V1 V2 V3 V4. destruct (proofs_E R OK m p p' ip ip' HS SP) as [E1 E2].
  assert (HS' : ip_size m R ip') by (destruct SP as (_ & _ & _ & _ & _ & EL & ER); unfold ip_size; rewrite EL, ER; exact HS).
  assert (HV' : m <= length (pf_V R p')) by (destruct SP as (EV & _); apply (f_equal (@length _)) in EV; unfold vals in EV; rewrite !map_length in EV; lia).
  destruct (C33_two_c R OK c c' p ip m HI HM HB HS HV NC V1 V2) as [A1 A2]. destruct (C33_two_c R OK c c' p' ip' m HI' HM HB HS' HV' NC V3 V4) as [B1 B2].
  rewrite E1, E2, A1, A2, B1, B2. split; lin OK.
Qed.
Print Assumptions C97_relations.
(** which are trivial only if the final scalars are the same. *)
Theorem C97_trivial R p p' ip ip' m : 0 < m -> chal_y R p <> f0 -> Forall (fun u => u <> f0) (challenges R [] (ip_L R ip) (ip_R R ip)) ->
  vanishes (64 * m) (proofs_ip m R p p' ip ip') /\ vanishes (64 * m) (proofs_poly R p p') ->
  ip_A R ip = ip_A R ip' /\ ip_B R ip = ip_B R ip' /\ pf_mu R p = pf_mu R p' /\ pf_t R p = pf_t R p' /\ pf_taux R p = pf_taux R p'.
Proof.
  intros HM Y NZ [V1 (_ & _ & Vt & Vx)]. destruct (diff_ip_equal m _ _ _ _ _ _ _ _ _ _ _ _ HM Y NZ V1) as (Ea & Eb & Em).
  split; [exact Ea|]. split; [exact Eb|]. split; [exact Em|]. cbn [proofs_poly diff_poly rb rl] in Vt, Vx. split; apply fsub_eq; assumption.
Qed.
Print Assumptions C97_trivial.

(** C98.  Proofs without witness.  With a challenge x <> 0, a proof is accepted exactly if S and T1 are
    these functions of the rest and of the challenges. *)
Theorem C98_form R (OK : rist_ok R) p ip m : pf_ip R p = Some ip -> 0 < m -> (64 * Z.of_nat m < 2 ^ 32)%Z ->
  ip_size m R ip -> m <= length (pf_V R p) ->
  let V := vals (pf_V R p) in let y := chal_y R p in let z := rp_z R y in let x := chal_x R p in let w := chal_w R p in
  let us := challenges R [] (ip_L R ip) (ip_R R ip) in
  x <> f0 ->
  ((forall c, fst (grun (Verify R c p) (Z.of_nat m)) = Ok true) <->
   pf_S R p = sim_S R m (ip_L R ip) (ip_R R ip) us (ip_A R ip) (ip_B R ip) (pf_A R p) x y z w (pf_mu R p) (pf_t R p) /\
   pf_T1 R p = sim_T1 R m V (pf_T2 R p) x y z (pf_t R p) (pf_taux R p)).
Proof.
  intros HI HM HB HS HV V y z x w us X. unfold us.
  rewrite <- (sim_S_ok OK m (ip_L R ip) (ip_R R ip) (ip_A R ip) (ip_B R ip) (pf_A R p) (pf_S R p) x y z w (pf_mu R p) (pf_t R p) X).
  rewrite <- (sim_T1_ok OK m V (pf_T1 R p) (pf_T2 R p) x y z (pf_t R p) (pf_taux R p) X). split.
  - intros H. exact (C33_two_c R OK f0 f1 p ip m HI HM HB HS HV (fun E => f1_neq_f0 (eq_sym E)) (H f0) (H f1)).
  - intros [E1 E2] c. apply (C33_verify_iff R OK c p ip m HI HM HB HS HV).
    change (padd R (smul R c (rp_ip_defect R m (ip_L R ip) (ip_R R ip) (ip_A R ip) (ip_B R ip) (pf_A R p) (pf_S R p) x y z w (pf_mu R p) (pf_t R p)))
      (psub R (rp_poly_lhs R (pf_t R p) (pf_taux R p)) (rp_poly_rhs R m V (pf_T1 R p) (pf_T2 R p) x y z)) = pt0 R).
    rewrite E1, E2. lin OK.
Qed.
Print Assumptions C98_form.

(** the proof with these points, for any commitments V *)
Definition sim_proof R' (V : list (pt R')) (A S T1 T2 : pt R') (taux mu t : F) (L Rs : list (pt R')) (a b : F) : proof R' :=
  mkProof R' (map (fun v => mkCom R' v f0) V) A S T1 T2 taux mu t (Some (mkIPP R' L Rs a b)).
(** Simulation: everything but S and T1 is chosen freely, and so are the challenges y, z, x, w; then the
    proof is accepted under the hash function changed at the four strings that give y, z, x and w. *)
Theorem C98_simulate R (OK : rist_ok R) m V A T2 L Rs a b mu t taux y z x w :
  0 < m -> (64 * Z.of_nat m < 2 ^ 32)%Z -> m <= length V -> length L = length Rs -> length L < 32 -> 2 ^ length L = 64 * m -> x <> f0 ->
  let us := challenges R [] L Rs in
  let S := sim_S R m L Rs us a b A x y z w mu t in
  let T1 := sim_T1 R m V T2 x y z t taux in
  ~ In (y_string R V A S) (round_strings R [] L Rs) ->
  ~ In (x_string R V A S z T1 T2) (round_strings R [] L Rs) ->
  ~ In (w_string R V A S z T1 T2 x taux mu t) (round_strings R [] L Rs) ->
  let h := reprogram (reprogram (reprogram (reprogram (sderive R) (y_string R V A S) y) (sbytes R y) z) (x_string R V A S z T1 T2) x)
             (w_string R V A S z T1 T2 x taux mu t) w in
  forall c, fst (grun (Verify (with_hash R h) c (sim_proof (with_hash R h) V A S T1 T2 taux mu t L Rs a b)) (Z.of_nat m)) = Ok true.
Proof.
  intros HM HB HV LR L32 HK X us S T1 NY NX NW h. set (p := sim_proof _ _ _ _ _ _ _ _ _ _ _ _ _). pose proof (with_hash_ok R h OK) as OK'.
  set (ys := y_string R V A S) in *. set (xs := x_string R V A S z T1 T2) in *. set (ws := w_string R V A S z T1 T2 x taux mu t) in *.
  assert (Ly : length ys = 32 * length V + 64) by apply (y_len OK). assert (Lx : length xs = 32 * length V + 160) by apply (x_len OK).
  assert (Lw : length ws = 32 * length V + 288) by apply (w_len OK). assert (Lz : length (sbytes R y) = 32) by apply (sbytes_len R OK).
  assert (NE : forall s s' : bytes, length s <> length s' -> s <> s') by (intros s s' N E; apply N; rewrite E; reflexivity).
  assert (VV : vals (pf_V (with_hash R h) p) = V).
  { unfold p, sim_proof, vals. cbn [pf_V]. rewrite map_map. cbn [c_val]. apply map_id. }
  assert (Hy : h ys = y) by (unfold h; rewrite !reprogram_other by (apply NE; lia); apply reprogram_at).
  assert (Hz : h (sbytes R y) = z) by (unfold h; rewrite !reprogram_other by (apply NE; lia); apply reprogram_at).
  assert (Hx : h xs = x) by (unfold h; rewrite !reprogram_other by (apply NE; lia); apply reprogram_at).
  assert (Hw : h ws = w) by (unfold h; apply reprogram_at).
  assert (Hu : challenges (with_hash R h) [] L Rs = us).
  { rewrite challenges_strings. transitivity (map (sderive R) (round_strings R [] L Rs)).
    - apply map_ext_in. intros s Hs. pose proof (round_strings_len OK L Rs [] s Hs) as Ls. cbn [length] in Ls. unfold h.
      rewrite !reprogram_other; [reflexivity| | | |]; try (intros ->; contradiction). apply NE. lia.
    - unfold us. clear. generalize (@nil byte) as hs. revert Rs. induction L as [|l L IH]; intros [|r Rs] hs; try reflexivity.
      cbn [challenges round_strings map]. f_equal. apply IH. }
  assert (Cy : chal_y (with_hash R h) p = y) by (unfold chal_y; rewrite VV; exact Hy).
  assert (Cz : rp_z (with_hash R h) y = z) by exact Hz.
  assert (Cx : chal_x (with_hash R h) p = x).
  { unfold chal_x. rewrite VV, Cy, Cz. rewrite <- Hx. unfold xs, x_string, y_string. rewrite <- !app_assoc. reflexivity. }
  assert (Cw : chal_w (with_hash R h) p = w).
  { unfold chal_w. rewrite VV, Cx, Cy, Cz. rewrite <- Hw. unfold ws, w_string, x_string, y_string. rewrite <- !app_assoc. reflexivity. }
  apply (C98_form (with_hash R h) OK' p (mkIPP (with_hash R h) L Rs a b) m); try assumption.
  - reflexivity.
  - split; [exact LR|]. split; [exact L32|exact HK].
  - unfold p, sim_proof. cbn [pf_V]. rewrite map_length. exact HV.
  - rewrite Cx. exact X.
  - rewrite Cx, Cy, Cw, Cz, VV. cbn [ip_L ip_R ip_A ip_B]. rewrite Hu. split; reflexivity.
Qed.
Print Assumptions C98_simulate.

(** Examples: the instance in which all derived points and scalars are 1, where relations are known. *)
Definition ex_us : list F := challenges tiny [] (repeat f0 6) (repeat f0 6).
Definition ex_S (mu : F) : F := sim_S tiny 1 (repeat f0 6) (repeat f0 6) ex_us f1 f1 f0 f1 f1 f1 f1 mu mu.
Definition ex_T1 (t taux : F) : F := sim_T1 tiny 1 [f0] f0 f1 f1 f1 t taux.
Definition ex_proof (t : F) : proof tiny := sim_proof tiny [f0] f0 (ex_S f0) (ex_T1 f0 f0) f0 (fneg t) t t (repeat f0 6) (repeat f0 6) f1 f1.
Lemma sim_S_shift R (OK : rist_ok R) m L Rs us a b A x y z w mu : smul R w (rp_Base R) = rp_Blind R ->
  sim_S R m L Rs us a b A x y z w mu mu = sim_S R m L Rs us a b A x y z w f0 f0.
Proof. intros E. unfold sim_S, rp_P. cbv zeta. rewrite E. lin OK. Qed.
Lemma sim_T1_shift R (OK : rist_ok R) m V T2 x y z t : rp_Base R = rp_Blind R -> sim_T1 R m V T2 x y z t (fneg t) = sim_T1 R m V T2 x y z f0 f0.
Proof. intros E. unfold sim_T1, rp_poly_lhs, rp_poly_rhs. rewrite E. lin OK. Qed.
Lemma ex_S_same mu : ex_S mu = ex_S f0.
Proof. unfold ex_S. apply (sim_S_shift tiny tiny_ok). apply (smul_1 tiny tiny_ok). Qed.
Lemma ex_T1_same t : ex_T1 t (fneg t) = ex_T1 f0 f0.
Proof. unfold ex_T1. apply (sim_T1_shift tiny tiny_ok). reflexivity. Qed.
Lemma ex_accepted t c : fst (grun (Verify tiny c (ex_proof t)) (Z.of_nat 1)) = Ok true.
Proof.
  apply (C98_form tiny tiny_ok (ex_proof t) (mkIPP tiny (repeat f0 6) (repeat f0 6) f1 f1) 1).
  - reflexivity.
  - lia.
  - lia.
  - repeat split. cbn. lia.
  - cbn. lia.
  - exact f1_neq_f0.
  - split; [symmetry; exact (ex_S_same t)|symmetry; exact (ex_T1_same t)].
Qed.
Example C97_ex : same_points tiny (ex_proof f0) (ex_proof f1) (mkIPP tiny (repeat f0 6) (repeat f0 6) f1 f1) (mkIPP tiny (repeat f0 6) (repeat f0 6) f1 f1) /\
  (forall c, fst (grun (Verify tiny c (ex_proof f0)) 1) = Ok true /\ fst (grun (Verify tiny c (ex_proof f1)) 1) = Ok true) /\
  pf_t tiny (ex_proof f0) <> pf_t tiny (ex_proof f1) /\ chal_y tiny (ex_proof f0) <> f0 /\ Forall (fun u => u <> f0) ex_us.
Proof.
  split; [repeat split|]. split; [intros c; split; apply (ex_accepted _ c)|]. split; [intros E; exact (f1_neq_f0 (eq_sym E))|].
  split; [exact f1_neq_f0|]. repeat constructor; exact f1_neq_f0.
Qed.
(** For C98_simulate: commitments that are not among the first 32 bytes hashed for the rounds. *)
Lemma round_strings_first R hs Ls Rs s : In s (round_strings R hs Ls Rs) -> exists r, s = hs ++ r.
Proof.
  revert hs Rs. induction Ls as [|l Ls IH]; intros hs [|r Rs]; cbn [round_strings In]; try contradiction. intros [<-|H]; [eexists; reflexivity|].
  destruct (IH _ _ H) as [r' ->]. rewrite <- !app_assoc. eexists. reflexivity.
Qed.
Lemma round_strings_head R (OK : rist_ok R) l Ls Rs v s : v <> l -> ~ In (pbytes R v ++ s) (round_strings R [] (l :: Ls) Rs).
Proof.
  intros N H. destruct Rs as [|r Rs]; cbn [round_strings In] in H; [exact H|].
  assert (E : exists r', pbytes R v ++ s = pbytes R l ++ r').
  { destruct H as [H|H]; [eexists; symmetry; exact H|]. destruct (round_strings_first _ _ _ _ _ H) as [r' ->]. cbn [app]. rewrite <- app_assoc. eexists. reflexivity. }
  destruct E as [r' E]. apply (f_equal (firstn 32)) in E. rewrite !firstn_app, !(pbytes_len R OK), !(firstn_all2 (n := 32)) in E by (rewrite (pbytes_len R OK); lia).
  cbn [Nat.sub firstn] in E. rewrite !app_nil_r in E. apply N. exact (pbytes_inj OK _ _ E).
Qed.
(** in every instance there is such a hash function, for one commitment that is not the first L *)
Theorem C98_exists R (OK : rist_ok R) v A T2 l Ls Rs a b mu t taux y z x w : v <> l -> length Ls = 5 -> length Rs = 6 -> x <> f0 ->
  let L := l :: Ls in let us := challenges R [] L Rs in
  let S := sim_S R 1 L Rs us a b A x y z w mu t in let T1 := sim_T1 R 1 [v] T2 x y z t taux in
  exists h, forall c, fst (grun (Verify (with_hash R h) c (sim_proof (with_hash R h) [v] A S T1 T2 taux mu t L Rs a b)) 1) = Ok true.
Proof.
  intros NV LL LR X L us S T1.
  assert (HL : length L = 6) by (unfold L; cbn [length]; rewrite LL; reflexivity).
  assert (N1 : ~ In (y_string R [v] A S) (round_strings R [] L Rs)).
  { unfold y_string. cbn [map concat]. rewrite <- app_assoc. apply (round_strings_head R OK). exact NV. }
  assert (N2 : ~ In (x_string R [v] A S z T1 T2) (round_strings R [] L Rs)).
  { unfold x_string, y_string. cbn [map concat]. rewrite <- !app_assoc. apply (round_strings_head R OK). exact NV. }
  assert (N3 : ~ In (w_string R [v] A S z T1 T2 x taux mu t) (round_strings R [] L Rs)).
  { unfold w_string, x_string, y_string. cbn [map concat]. rewrite <- !app_assoc. apply (round_strings_head R OK). exact NV. }
  pose proof (C98_simulate R OK 1 [v] A T2 L Rs a b mu t taux y z x w (le_n 1) eq_refl (le_n 1)) as H.
  rewrite HL in H. specialize (H (eq_sym LR) ltac:(lia) eq_refl X N1 N2 N3). eexists. exact H.
Qed.
Print Assumptions C98_exists.
Example C98_ex : f1 <> f0 /\ length (repeat f0 5) = 5 /\ length (repeat f0 6) = 6.
Proof. split; [exact f1_neq_f0|]. split; reflexivity. Qed.
