(** Property C87: soundness of range proofs by rewinding.  Nothing is assumed about how the prover makes
    the points it sends.  If it can answer enough challenges at every point where one is drawn, then
    representations of all its points can be computed from its scalar answers alone; the accepted
    equations are linear relations among the generators, given by these coefficients; and if those
    relations are trivial, the commitments are to 64-bit numbers. *)
From Coq Require Import String ZArith List Lia Bool Arith Field.
From Verif Require Import GoModel GoFacts Prime Fld Rist RistFacts RistInst SpecVector SpecIPP SpecRange SpecSound VectorModel VectorFacts PedersenModel PedersenFacts SpecPedersen
  InnerProductModel InnerProductFacts GlobModel GlobFacts RangeProofModel SpecHonest RangeFacts RangeRun RangeProps P_RangeProof Poly IPSound RangeSound SoundPoints
  P_Sound SpecRewind RewindIP RewindRange RewindHonest GenericFacts.
Import ListNotations.
Local Open Scope nat_scope.

(** C87.  The extraction.  The coefficients e depend only on the challenges and the scalar answers: they
    are the same for every group and for every choice of points for which the equations hold. *)
Theorem C87_extract m k q an : 0 < m -> 2 ^ k = 64 * m -> wide m k q ->
  exists e : script rep, forall R (OK : rist_ok R) (s : script (pt R)),
    (forall y z x w us, asked q k y z x w us -> accepts R m s an y z x w us) ->
    represents R m k q e s /\
    (forall y z x w us, asked q k y z x w us ->
       reval R (64 * m) (ip_gap m e an y z x w us) = pt0 R /\ reval R (64 * m) (poly_gap m e an y z x) = pt0 R) /\
    ((forall y z x w us, asked q k y z x w us ->
        vanishes (64 * m) (ip_gap m e an y z x w us) /\ vanishes (64 * m) (poly_gap m e an y z x)) ->
     forall j, j < m -> exists v : Z, (0 <= v < 2 ^ 64)%Z /\
       s_V s j = padd R (smul R (of_Z v) (rp_Base R)) (smul R (rl (s_V e j)) (rp_Blind R))).
Proof.
  intros HM HK W. exists (extract m k q an). intros R OK s ACC.
  pose proof (extract_represents m k q an HM HK W OK s ACC) as RP. split; [exact RP|]. split; [exact (gaps_zero m k q an HM HK OK s ACC _ RP)|].
  intros H j Hj. pose proof (rewind_ok m k q an HM HK W _ H) as O. destruct (ok_A_range m _ _ j O Hj) as (G & HH & v & B & E). exists v. split; [exact B|].
  destruct RP as (EV & _). rewrite (EV j Hj). unfold reval at 1. rewrite E.
  rewrite (msm_fun_ext _ (rg (s_V (extract m k q an) j)) (fun _ => f0)) by exact G.
  rewrite (msm_fun_ext _ (rh (s_V (extract m k q an) j)) (fun _ => f0)) by exact HH.
  rewrite !(msm_fun_const OK) by apply chain_length. lin OK.
Qed.
Print Assumptions C87_extract.

(** No assumption on relations is needed for a prover whose method works in every library with the laws: the commitments
    are to 64-bit numbers, the same in all of them. *)
Theorem C87_generic m k q an : 0 < m -> 2 ^ k = 64 * m -> wide m k q -> forall s : (forall R, script (pt R)),
  (forall R, rist_ok R -> forall y z x w us, asked q k y z x w us -> accepts R m (s R) an y z x w us) ->
  exists e : script rep, (forall R, rist_ok R -> represents R m k q e (s R)) /\
    (forall y z x w us, asked q k y z x w us ->
       vanishes (64 * m) (ip_gap m e an y z x w us) /\ vanishes (64 * m) (poly_gap m e an y z x)) /\
    forall j, j < m -> exists v : Z, (0 <= v < 2 ^ 64)%Z /\
      forall R, rist_ok R -> s_V (s R) j = padd R (smul R (of_Z v) (rp_Base R)) (smul R (rl (s_V e j)) (rp_Blind R)).
Proof.
  intros HM HK W s ACC. exists (extract m k q an). pose proof W as ((ND & LQ & _) & _).
  assert (RP : forall R, rist_ok R -> represents R m k q (extract m k q an) (s R)) by (intros R OK; exact (extract_represents m k q an HM HK W OK (s R) (ACC R OK))).
  assert (V : forall y z x w us, asked q k y z x w us ->
       vanishes (64 * m) (ip_gap m (extract m k q an) an y z x w us) /\ vanishes (64 * m) (poly_gap m (extract m k q an) an y z x)).
  { intros y z x w us A. split; (apply (free _ _ (q_y q) ND); [lia|]; intros h).
    - exact (proj1 (gaps_zero m k q an HM HK (fin_rist_ok h) _ (ACC _ (fin_rist_ok h)) _ (RP _ (fin_rist_ok h)) y z x w us A)).
    - exact (proj2 (gaps_zero m k q an HM HK (fin_rist_ok h) _ (ACC _ (fin_rist_ok h)) _ (RP _ (fin_rist_ok h)) y z x w us A)). }
  split; [exact RP|]. split; [exact V|]. intros j Hj. destruct (ok_A_range m _ _ j (rewind_ok m k q an HM HK W _ V) Hj) as (G & HH & v & B & E). exists v. split; [exact B|].
  intros R OK. destruct (RP R OK) as (EV & _). rewrite (EV j Hj). unfold reval at 1. rewrite E.
  rewrite (msm_fun_ext _ (rg (s_V (extract m k q an) j)) (fun _ => f0)) by exact G.
  rewrite (msm_fun_ext _ (rh (s_V (extract m k q an) j)) (fun _ => f0)) by exact HH.
  rewrite !(msm_fun_const OK) by apply chain_length. lin OK.
Qed.
Print Assumptions C87_generic.

(** The equations are those that Verify checks: a proof made of the prover's messages, whose challenges
    under a hash function h are y, z, x, w and us, is accepted for two of the verifier's own factors only
    if they hold, and then for all. *)
Definition run (R : rist) (m : nat) (s : script (pt R)) (an : answers) (y z x w : F) (us : list F)
    (h : bytes -> F) (p : proof (with_hash R h)) (ip : ipproof (with_hash R h)) : Prop :=
  let R' := with_hash R h in
  pf_ip R' p = Some ip /\ m <= length (pf_V R' p) /\ length us < 32 /\
  firstn m (vals (pf_V R' p)) = map (s_V s) (seq 0 m) /\
  pf_A R' p = s_A s /\ pf_S R' p = s_S s /\ pf_T1 R' p = s_T1 s y z /\ pf_T2 R' p = s_T2 s y z /\
  pf_t R' p = an_t an y z x /\ pf_taux R' p = an_taux an y z x /\ pf_mu R' p = an_mu an y z x /\
  ip_L R' ip = rounds (s_L s y z x w) [] us /\ ip_R R' ip = rounds (s_R s y z x w) [] us /\
  ip_A R' ip = an_a an y z x w us /\ ip_B R' ip = an_b an y z x w us /\
  let V := vals (pf_V R' p) in
  rp_y R' V (s_A s) (s_S s) = y /\ rp_z R' y = z /\ rp_x R' V (s_A s) (s_S s) z (s_T1 s y z) (s_T2 s y z) = x /\
  rp_w R' V (s_A s) (s_S s) z (s_T1 s y z) (s_T2 s y z) x (an_taux an y z x) (an_mu an y z x) (an_t an y z x) = w /\
  challenges R' [] (rounds (s_L s y z x w) [] us) (rounds (s_R s y z x w) [] us) = us.
Lemma with_hash_ok R h : rist_ok R -> rist_ok (with_hash R h).
Proof. intros []. constructor; assumption. Qed.
Lemma run_sides R (OK : rist_ok R) m s an y z x w us h p ip : run R m s an y z x w us h p ip ->
  (accepts R m s an y z x w us <-> rp_E1 (with_hash R h) m p ip = pt0 R /\ rp_E2 (with_hash R h) m p = pt0 R).
Proof.
  intros (_ & HV & _ & EV & EA & ES & ET1 & ET2 & Et & Etx & Emu & EL & ER & Ea & Eb & Cy & Cz & Cx & Cw & Cu).
  unfold rp_E1, rp_E2. cbv zeta. rewrite EA, ES, ET1, ET2, Et, Etx, Emu, Cy, Cz, Cx, Cw, EL, ER, Ea, Eb.
  unfold rp_ip_defect. cbv zeta. rewrite Cu. unfold accepts, ip_holds, poly_holds. cbv zeta.
  assert (Z : rp_poly_rhs (with_hash R h) m (vals (pf_V (with_hash R h) p)) (s_T1 s y z) (s_T2 s y z) x y z =
              rp_poly_rhs R m (map (s_V s) (seq 0 m)) (s_T1 s y z) (s_T2 s y z) x y z).
  { unfold rp_poly_rhs, z_msm. rewrite msm_firstn_r, map_length, seq_length, EV. reflexivity. }
  rewrite Z. pose proof (with_hash_ok R h OK) as OK'. rewrite !(psub_eq0 OK'). reflexivity.
Qed.
Theorem C87_verify R (OK : rist_ok R) m k s an y z x w us h p ip c c' : 0 < m -> (64 * Z.of_nat m < 2 ^ 32)%Z -> 2 ^ k = 64 * m -> length us = k ->
  run R m s an y z x w us h p ip -> c <> c' ->
  (accepts R m s an y z x w us <->
   fst (grun (Verify (with_hash R h) c p) (Z.of_nat m)) = Ok true /\ fst (grun (Verify (with_hash R h) c' p) (Z.of_nat m)) = Ok true).
Proof.
  intros HM HB HK LU RUN NC. pose proof (with_hash_ok R h OK) as OK'. pose proof RUN as (EI & HV & L32 & _ & _ & _ & _ & _ & _ & _ & _ & EL & ER & _).
  assert (HS : ip_size m (with_hash R h) ip).
  { unfold ip_size. rewrite EL, ER, !rounds_length, LU, HK. split; [reflexivity|]. split; [lia|reflexivity]. }
  rewrite (run_sides R OK m s an y z x w us h p ip RUN). split.
  - intros [E1 E2]. split; apply (C33_verify_iff _ OK' _ p ip m EI HM HB HS HV); rewrite E1, E2; change (pt0 R) with (pt0 (with_hash R h)); lin OK'.
  - intros [H1 H2]. exact (C33_two_c _ OK' c c' p ip m EI HM HB HS HV NC H1 H2).
Qed.
Print Assumptions C87_verify.
(** Together: the prover makes Verify accept for two factors, for each of the challenges asked. *)
Theorem C87_rangeproof m k q an : 0 < m -> (64 * Z.of_nat m < 2 ^ 32)%Z -> 2 ^ k = 64 * m -> wide m k q ->
  exists e : script rep, forall R (OK : rist_ok R) (s : script (pt R)),
    (forall y z x w us, asked q k y z x w us -> exists h p ip c c', run R m s an y z x w us h p ip /\ c <> c' /\
       fst (grun (Verify (with_hash R h) c p) (Z.of_nat m)) = Ok true /\ fst (grun (Verify (with_hash R h) c' p) (Z.of_nat m)) = Ok true) ->
    represents R m k q e s /\
    (forall y z x w us, asked q k y z x w us ->
       reval R (64 * m) (ip_gap m e an y z x w us) = pt0 R /\ reval R (64 * m) (poly_gap m e an y z x) = pt0 R) /\
    ((forall y z x w us, asked q k y z x w us ->
        vanishes (64 * m) (ip_gap m e an y z x w us) /\ vanishes (64 * m) (poly_gap m e an y z x)) ->
     forall j, j < m -> exists v : Z, (0 <= v < 2 ^ 64)%Z /\
       s_V s j = padd R (smul R (of_Z v) (rp_Base R)) (smul R (rl (s_V e j)) (rp_Blind R))).
Proof.
  intros HM HB HK W. destruct (C87_extract m k q an HM HK W) as [e H]. exists e. intros R OK s HR. apply (H R OK s).
  intros y z x w us AK. destruct (HR y z x w us AK) as (h & p & ip & c & c' & RUN & NC & ACC).
  apply (C87_verify R OK m k s an y z x w us h p ip c c' HM HB HK); try assumption. apply AK.
Qed.
Print Assumptions C87_rangeproof.
(** The hypothesis can be met: a prover who commits to bits answers all challenges with y and the rounds'
    challenges nonzero, and then all these relations are trivial for its own coefficients. *)
Theorem C87_honest m k V A S : 2 ^ k = 64 * m -> rb A = f0 -> rb S = f0 -> ok_A m V A ->
  exists e an, s_V e = V /\ s_A e = A /\ s_S e = S /\
    forall y z x w us, length us = k -> y <> f0 -> Forall (fun u => u <> f0) us ->
      vanishes (64 * m) (ip_gap m e an y z x w us) /\ vanishes (64 * m) (poly_gap m e an y z x) /\
      forall R (OK : rist_ok R), accepts R m (smap (reval R (64 * m)) e) an y z x w us.
Proof.
  intros HK EA ES O. exists (honest_script m k V A S), (honest_answers m k V A S). split; [reflexivity|]. split; [reflexivity|]. split; [reflexivity|].
  intros y z x w us LU Y NZ. destruct (honest_gaps m k V A S y z x w us HK LU Y NZ EA ES O) as [H1 H2]. split; [exact H1|]. split; [exact H2|].
  intros R OK. apply (gaps_accept R OK); [rewrite LU; exact HK|exact H1|exact H2].
Qed.
Print Assumptions C87_honest.

(** Example: the challenges 1, 2, ..., n; a prover for the value 5 over the instance of the laws. *)
Definition small (n : nat) : list F := map (fun i => of_Z (Z.of_nat i)) (seq 1 n).
Definition ask (m : nat) : questions :=
  mkQuestions (small (64 * m + 1)) (fun _ => small (m + 2)) (fun _ _ => small 3) (fun _ _ _ => small 2) (fun _ _ _ _ _ => small 4).
Lemma of_Z_small i j : (0 <= i < 2 ^ 200)%Z -> (0 <= j < 2 ^ 200)%Z -> of_Z i = of_Z j -> i = j.
Proof.
  intros Hi Hj E. apply (f_equal to_Z) in E. rewrite !to_Z_of_Z in E. assert (B : (2 ^ 200 < ell)%Z) by reflexivity.
  rewrite !Z.mod_small in E by lia. exact E.
Qed.
Lemma NoDup_map_in {X Y} (f : X -> Y) l : (forall a b, In a l -> In b l -> f a = f b -> a = b) -> NoDup l -> NoDup (map f l).
Proof.
  induction l as [|x l IH]; intros H ND; [constructor|]. inversion ND as [|? ? N ND']; subst. cbn [map]. constructor.
  - intros I. apply in_map_iff in I. destruct I as (b & E & Ib). apply N. rewrite <- (H b x); [exact Ib|right; exact Ib|left; reflexivity|exact E].
  - apply IH; [|exact ND']. intros a b Ia Ib. apply H; right; assumption.
Qed.
Lemma small_ok n : (Z.of_nat n < 2 ^ 64)%Z -> NoDup (small n) /\ length (small n) = n /\ ~ In f0 (small n) /\ NoDup (map (fun u => fmul u u) (small n)).
Proof.
  intros B. unfold small. split; [|split; [|split]].
  - apply NoDup_map_in; [|apply seq_NoDup]. intros a b Ia Ib E. apply in_seq in Ia, Ib. apply of_Z_small in E; lia.
  - rewrite map_length, seq_length. reflexivity.
  - intros I. apply in_map_iff in I. destruct I as (i & E & Hi). apply in_seq in Hi. apply (of_Z_small (Z.of_nat i) 0) in E; lia.
  - rewrite map_map. apply NoDup_map_in; [|apply seq_NoDup]. intros a b Ia Ib E. apply in_seq in Ia, Ib. rewrite <- !of_Z_mul in E. apply of_Z_small in E; nia.
Qed.
Lemma ask_wide m k : (Z.of_nat m < 2 ^ 32)%Z -> wide m k (ask m).
Proof.
  intros B. unfold wide, ask. cbn [q_y q_z q_x q_w q_u].
  assert (S64 := small_ok (64 * m + 1) ltac:(lia)). assert (S2 := small_ok (m + 2) ltac:(lia)). assert (S3 := small_ok 3 ltac:(lia)).
  assert (Sw := small_ok 2 ltac:(lia)). assert (S4 := small_ok 4 ltac:(lia)).
  destruct S64 as (N1 & L1 & Z1 & _). destruct S2 as (N2 & L2 & Z2 & _). destruct S3 as (N3 & L3 & _). destruct Sw as (N4 & L4 & _). destruct S4 as (_ & L5 & Z5 & N5).
  split; [rewrite L1; repeat split; auto|]. intros y Hy. split; [rewrite L2; repeat split; auto|]. intros z Hz. split; [rewrite L3; repeat split; auto|].
  intros x Hx. split; [rewrite L4; repeat split; auto|]. intros w Hw us Hl Hp. rewrite L5. repeat split; auto.
Qed.
Lemma path_small us : forall pre, path (fun _ => small 4) pre us -> Forall (fun u => u <> f0) us.
Proof.
  induction us as [|u us IH]; intros pre H; [constructor|]. cbn [path] in H. destruct H as [Hu H]. constructor; [|exact (IH _ H)].
  intros ->. destruct (small_ok 4 ltac:(lia)) as (_ & _ & Z & _). contradiction.
Qed.
Definition five_V : nat -> rep := fun _ => mkRep (fun _ => f0) (fun _ => f0) (of_Z 5) f1.
Definition five_A : rep := mkRep (fun i => nth i (bits64 5) f0) (fun i => fsub (nth i (bits64 5) f0) f1) f0 f0.
Definition five_S : rep := mkRep (fun i => fpow two i) (fun i => fpow two (i + 1)) f0 f1.
Definition five_e : script rep := honest_script 1 6 five_V five_A five_S.
Definition five_an : answers := honest_answers 1 6 five_V five_A five_S.
Lemma five_accepts R (OK : rist_ok R) y z x w us : asked (ask 1) 6 y z x w us -> accepts R 1 (smap (reval R (64 * 1)) five_e) five_an y z x w us.
Proof.
  intros (Hy & _ & _ & _ & LU & PU). destruct (small_ok (64 * 1 + 1) ltac:(lia)) as (_ & _ & Z & _).
  destruct (honest_gaps 1 6 five_V five_A five_S y z x w us) as [H1 H2].
  - reflexivity.
  - exact LU.
  - intros ->. exact (Z Hy).
  - exact (path_small us [] PU).
  - reflexivity.
  - reflexivity.
  - apply C79_bits. lia.
  - apply (gaps_accept R OK); [rewrite LU; reflexivity|exact H1|exact H2].
Qed.
Example C87_ex : wide 1 6 (ask 1) /\ (forall y z x w us, asked (ask 1) 6 y z x w us -> accepts toy 1 (smap (reval toy (64 * 1)) five_e) five_an y z x w us).
Proof. split; [apply ask_wide; lia|]. intros y z x w us. apply (five_accepts toy toy_ok). Qed.
Example C87_ex_generic : wide 1 6 (ask 1) /\ forall R, rist_ok R -> forall y z x w us, asked (ask 1) 6 y z x w us ->
  accepts R 1 ((fun R => smap (reval R (64 * 1)) five_e) R) five_an y z x w us.
Proof. split; [apply ask_wide; lia|]. intros R OK y z x w us. apply (five_accepts R OK). Qed.

(** ... and through Verify, over the instance in which all derived points are zero: for each of the
    challenges there is a hash function that gives them. *)
Definition flat : rist := fin_rist (fun _ => f0).
Lemma flat_ok : rist_ok flat. Proof. apply fin_rist_ok. Qed.
Lemma flat_reval n v : reval flat n v = rl v.
Proof.
  assert (Z : forall b s k, msm flat s (chain flat b k) = f0).
  { intros b s k. revert b s. induction k as [|k IH]; intros b [|x s]; try reflexivity. 
    change (@eq F (fadd (fmul x f0) (msm flat s (chain flat (pbytes flat (pderive flat b)) k))) f0). rewrite IH. ring. }
  unfold reval, rp_G, rp_H. rewrite !Z. change (@eq F (fadd (fadd f0 f0) (fadd (fmul (rb v) f0) (fmul (rl v) f1))) (rl v)). ring.
Qed.
Section Hash.
Context (y z x w : F) (us : list F) (xin win : bytes).
Definition pick (b : bytes) : F :=
  if length b =? 32 then z else if length b =? 96 then y else
  if bytes_eqb b xin then x else if bytes_eqb b win then w else nth (length b / 64 - 1) us f0.
Lemma pick_rounds Ls : forall Rs hs j, length Rs = length Ls -> length hs = 64 * j -> j + length Ls = length us -> length us <= 6 ->
  Forall (fun p => p = f0) Ls -> firstn 32 xin <> f_bytes f0 -> firstn 32 win <> f_bytes f0 -> (hs = [] \/ firstn 32 hs = f_bytes f0) ->
  challenges (with_hash flat pick) hs Ls Rs = skipn j us.
Proof.
  induction Ls as [|L Ls IH]; intros [|Rr Rs] hs j LR LH LJ L6 FL NX NW HH; cbn [length] in *; try lia.
  - symmetry. apply skipn_all2. lia.
  - inversion FL as [|? ? EL FL']; subst. cbn [challenges]. set (b := hs ++ pbytes (with_hash flat pick) f0 ++ pbytes (with_hash flat pick) Rr).
    assert (LB : length b = 64 * (j + 1)).
    { unfold b. rewrite !app_length. change (length (pbytes (with_hash flat pick) f0)) with 32. 
      replace (length (pbytes (with_hash flat pick) Rr)) with 32 by (symmetry; apply le_bytes_length). lia. }
    assert (FB : firstn 32 b = f_bytes f0).
    { unfold b. destruct HH as [->|HH].
      - cbn [app]. rewrite firstn_app, (firstn_all2 (n := 32)) by (rewrite (pbytes_len _ (with_hash_ok flat pick flat_ok)); lia).
        rewrite (pbytes_len _ (with_hash_ok flat pick flat_ok)). cbn [Nat.sub firstn]. rewrite app_nil_r. reflexivity.
      - rewrite firstn_app. replace (32 - length hs) with 0; [cbn [firstn]; rewrite app_nil_r; exact HH|].
        assert (E := f_equal (@length _) HH). rewrite firstn_length in E. change (length (f_bytes f0)) with 32 in E. lia. }
    rewrite (IH Rs b (j + 1)); [|lia|exact LB|lia|exact L6|exact FL'|exact NX|exact NW|right; exact FB].
    change (sderive (with_hash flat pick) b) with (pick b). unfold pick. rewrite LB.
    destruct (Nat.eqb_spec (64 * (j + 1)) 32) as [C|_]; [lia|]. destruct (Nat.eqb_spec (64 * (j + 1)) 96) as [C|_]; [lia|].
    destruct (bytes_eqb_spec b xin) as [E|_]; [exfalso; apply NX; rewrite <- E; exact FB|].
    destruct (bytes_eqb_spec b win) as [E|_]; [exfalso; apply NW; rewrite <- E; exact FB|].
    rewrite Nat.mul_comm, Nat.div_mul by lia. replace (j + 1 - 1) with j by lia. replace (j + 1) with (S j) by lia.
    assert (SK : forall (l : list F) i, i < length l -> nth i l f0 :: skipn (S i) l = skipn i l).
    { clear. induction l as [|a l IHl]; intros [|i] H; cbn [length] in H; try lia; [reflexivity|]. cbn [nth skipn]. apply IHl. lia. }
    apply SK. lia.
Qed.
End Hash.
Definition five_s : script F := smap (reval flat (64 * 1)) five_e.
Definition five_xin (y z : F) : bytes :=
  f_bytes (s_V five_s 0) ++ f_bytes (s_A five_s) ++ f_bytes (s_S five_s) ++ f_bytes z ++ f_bytes (s_T1 five_s y z) ++ f_bytes (s_T2 five_s y z).
Definition five_win (y z x : F) : bytes :=
  f_bytes (s_V five_s 0) ++ f_bytes (s_A five_s) ++ f_bytes (s_S five_s) ++ f_bytes z ++ f_bytes (s_T1 five_s y z) ++ f_bytes (s_T2 five_s y z) ++
    f_bytes x ++ f_bytes (an_taux five_an y z x) ++ f_bytes (an_mu five_an y z x) ++ f_bytes (an_t five_an y z x).
Definition five_hash (y z x w : F) (us : list F) : bytes -> F := pick y z x w us (five_xin y z) (five_win y z x).
Definition five_ip (y z x w : F) (us : list F) : ipproof (with_hash flat (five_hash y z x w us)) :=
  mkIPP (with_hash flat (five_hash y z x w us)) (rounds (s_L five_s y z x w) [] us) (rounds (s_R five_s y z x w) [] us) (an_a five_an y z x w us) (an_b five_an y z x w us).
Definition five_p (y z x w : F) (us : list F) : proof (with_hash flat (five_hash y z x w us)) :=
  mkProof (with_hash flat (five_hash y z x w us)) [mkCom (with_hash flat (five_hash y z x w us)) (s_V five_s 0) f0] (s_A five_s) (s_S five_s) (s_T1 five_s y z) (s_T2 five_s y z)
    (an_taux five_an y z x) (an_mu five_an y z x) (an_t five_an y z x) (Some (five_ip y z x w us)).
Lemma five_run y z x w us : length us = 6 ->
  run flat 1 five_s five_an y z x w us (five_hash y z x w us) (five_p y z x w us) (five_ip y z x w us).
Proof.
  intros LU. unfold five_p, five_ip, five_hash. set (s := five_s). set (xin := five_xin y z). set (win := five_win y z x).
  set (h := pick y z x w us xin win). set (R' := with_hash flat h).
  set (ip := mkIPP R' _ _ _ _). set (p := mkProof R' _ _ _ _ _ _ _ _ _).
  assert (LF : forall v : F, length (f_bytes v) = 32) by (intros; apply le_bytes_length).
  assert (NV : forall b, firstn 32 (f_bytes (s_V s 0) ++ b) <> f_bytes f0).
  { intros b. rewrite firstn_app, (firstn_all2 (n := 32)) by (rewrite LF; lia). rewrite LF. cbn [Nat.sub firstn]. rewrite app_nil_r. intros E.
    apply (f_equal f_set) in E. rewrite !f_set_bytes in E. apply f1_neq_f0. rewrite <- E. unfold s, five_s, smap. cbn [s_V]. rewrite flat_reval. reflexivity. }
   unfold run. cbv zeta. cbn [pf_ip pf_V pf_A pf_S pf_T1 pf_T2 pf_taux pf_mu pf_t p ip ip_L ip_R ip_A ip_B].
    split; [reflexivity|]. split; [cbn [length]; lia|]. split; [lia|]. split; [reflexivity|].
    do 11 (split; [reflexivity|]).
    split; [|split; [|split; [|split]]].
    - unfold rp_y. change (pick y z x w us xin win ((f_bytes (s_V s 0) ++ []) ++ f_bytes (s_A s) ++ f_bytes (s_S s)) = y).
      unfold pick. rewrite !app_length, !LF. reflexivity.
    - change (pick y z x w us xin win (f_bytes y) = z). unfold pick. rewrite LF. reflexivity.
    - change (pick y z x w us xin win ((f_bytes (s_V s 0) ++ []) ++ f_bytes (s_A s) ++ f_bytes (s_S s) ++ f_bytes z ++ f_bytes (s_T1 s y z) ++ f_bytes (s_T2 s y z)) = x).
      rewrite app_nil_r. change (pick y z x w us xin win xin = x). unfold pick. replace (length xin) with 192 by (unfold xin, five_xin; rewrite !app_length, !LF; reflexivity). cbn [Nat.eqb].
      rewrite bytes_eqb_refl. reflexivity.
    - change (pick y z x w us xin win ((f_bytes (s_V s 0) ++ []) ++ f_bytes (s_A s) ++ f_bytes (s_S s) ++ f_bytes z ++ f_bytes (s_T1 s y z) ++ f_bytes (s_T2 s y z) ++
        f_bytes x ++ f_bytes (an_taux five_an y z x) ++ f_bytes (an_mu five_an y z x) ++ f_bytes (an_t five_an y z x)) = w).
      rewrite app_nil_r. change (pick y z x w us xin win win = w). assert (LW : length win = 320) by (unfold win, five_win; rewrite !app_length, !LF; reflexivity).
      assert (LX : length xin = 192) by (unfold xin, five_xin; rewrite !app_length, !LF; reflexivity).
      unfold pick. rewrite LW. cbn [Nat.eqb]. destruct (bytes_eqb_spec win xin) as [E|_]; [rewrite E in LW; lia|]. rewrite bytes_eqb_refl. reflexivity.
    - apply (pick_rounds y z x w us xin win _ _ [] 0); [rewrite !rounds_length; reflexivity|reflexivity|rewrite rounds_length; reflexivity|lia| | | |left; reflexivity].
      + assert (Z : forall us pre, Forall (fun p : F => p = f0) (rounds (s_L s y z x w) pre us)).
        { clear. induction us as [|u us IH]; intros pre; cbn [rounds]; constructor; [|apply IH]. unfold s, five_s, smap. cbn [s_L]. apply flat_reval. }
        apply Z.
      + unfold xin, five_xin. exact (NV _).
      + unfold win, five_win. exact (NV _).
Qed.
Example C87_ex_verify : forall y z x w us, asked (ask 1) 6 y z x w us ->
  exists h p ip c c', run flat 1 (smap (reval flat (64 * 1)) five_e) five_an y z x w us h p ip /\ c <> c' /\
    fst (grun (Verify (with_hash flat h) c p) 1) = Ok true /\ fst (grun (Verify (with_hash flat h) c' p) 1) = Ok true.
Proof.
  intros y z x w us AK. pose proof (five_accepts flat flat_ok y z x w us AK) as ACC.
  pose proof AK as (_ & _ & _ & _ & LU & PU). pose proof (five_run y z x w us LU) as RUN.
  exists (five_hash y z x w us), (five_p y z x w us), (five_ip y z x w us), f0, f1.
  split; [exact RUN|]. assert (N : f0 <> f1) by (intros E; apply f1_neq_f0; symmetry; exact E). split; [exact N|].
  exact (proj1 (C87_verify flat flat_ok 1 6 five_s five_an y z x w us _ _ _ f0 f1 ltac:(lia) ltac:(lia) eq_refl LU RUN N) ACC).
Qed.
