(** Facts behind the range proof properties *)
From Coq Require Import String ZArith List Lia Bool Arith Field.
From Coq Require Import Init.Byte Strings.Byte.
From Verif Require Import GoModel GoFacts ReadModel ReadFacts GlobModel GlobFacts Fld Rist RistFacts SpecVector VectorModel VectorFacts
  SpecPedersen PedersenModel PedersenFacts PedersenProps SpecIPP InnerProductModel InnerProductFacts IPPVerifyFacts IPPProps
  SpecRange RangeProofModel SpecHonest RangeFacts RangeProveFacts RangeRun.
Import ListNotations.
Local Open Scope nat_scope.

(** ** Padding *)
Lemma pad_cases n : 1 <= n <= 16 ->
  (DiffNextPow2 (u32 (Z.of_nat n)) = Z.of_nat (pad_size n - n))%Z /\ n <= pad_size n <= 16 /\ exists k, k <= 4 /\ pad_size n = 2 ^ k.
Proof.
  intros H. assert (D : In n (seq 1 16)) by (apply in_seq; lia). clear H. cbn [seq In] in D.
  repeat (destruct D as [<-|D]; [repeat split; [vm_compute; repeat constructor|vm_compute; repeat constructor|]; 
    match goal with |- context [pad_size ?a] => exists (Nat.log2_up a); split; [vm_compute; repeat constructor|reflexivity] end|]).
  contradiction.
Qed.
Lemma pad_pow n : 1 <= n <= 16 -> exists k, k < 32 /\ 64 * pad_size n = 2 ^ k.
Proof.
  intros H. destruct (pad_cases n H) as [_ [_ [k [Hk E]]]]. exists (6 + k). split; [lia|]. rewrite E, Nat.pow_add_r. reflexivity.
Qed.
Lemma padded_length v : 1 <= length v <= 16 -> length (padded v) = pad_size (length v).
Proof. intros H. unfold padded. rewrite app_length, repeat_length. pose proof (pad_cases _ H) as [_ [A _]]. lia. Qed.

Section Props.
Context {R : rist} (OK : rist_ok R).
Local Notation "p [+] q" := (padd R p q) (at level 50, left associativity).
Local Notation "p [-] q" := (psub R p q) (at level 50, left associativity).
Local Notation "s [*] p" := (smul R s p) (at level 40, left associativity).

Definition msg0 : string := "[Prove] - One of the challenge scalars, x, y, or z was equal to zero. Generate proof again".

Lemma Prove_empty debug rs m : grun (Prove R [] debug rs) m = (Err "length of slice v is zero"%string, m).
Proof. reflexivity. Qed.
Lemma Prove_long v debug rs m : 16 < length v ->
  grun (Prove R v debug rs) m = (Err "maximum amount of values must be less than 16"%string, Z.of_nat (length v)).
Proof.
  intros H. unfold Prove. destruct (Nat.ltb_spec (length v) 1) as [C|C]; [lia|]. gs.
  destruct (Z.ltb_spec maxM (Z.of_nat (length v))) as [D|D]; [reflexivity|unfold maxM in D; lia].
Qed.
Lemma Prove_pad v debug rs m : 1 <= length v <= 16 ->
  grun (Prove R v debug rs) m = grun (prove_padded R (padded v) debug rs) (Z.of_nat (pad_size (length v))).
Proof.
  intros H. destruct (pad_cases _ H) as [E [HL _]]. unfold Prove. destruct (Nat.ltb_spec (length v) 1) as [C|C]; [lia|]. gs.
  destruct (Z.ltb_spec maxM (Z.of_nat (length v))) as [D|D]; [unfold maxM in D; lia|]. gs.
  rewrite E. rewrite Nat2Z.id. replace (Z.of_nat (length v) + Z.of_nat (pad_size (length v) - length v))%Z with (Z.of_nat (pad_size (length v))) by lia.
  reflexivity.
Qed.

Lemma hin_padded_wf v rs : 1 <= length v <= 16 -> hp_wf (hin R (padded v) rs).
Proof. intros H. destruct (pad_cases _ H) as [_ [HL _]]. apply hin_wf; rewrite padded_length by exact H; lia. Qed.
Lemma hm_hin v rs : hm (hin R v rs) = length v. Proof. reflexivity. Qed.

(** the outcome of Prove on 1..16 values *)
Lemma Prove_run v rs m : 1 <= length v <= 16 ->
  let h := hin R (padded v) rs in
  exists ip, hip h = Ok ip /\
  grun (Prove R v false rs) m = (if zero_challenge h then Err msg0 else Ok (hproof h ip), Z.of_nat (pad_size (length v))).
Proof.
  intros H h. destruct (pad_cases _ H) as [_ [HL _]]. destruct (pad_pow _ H) as [k [Hk E]].
  pose proof (hin_padded_wf v rs H) as WF. destruct (hip_ok OK h WF k Hk) as [ip [E1 _]].
  { unfold h. rewrite hm_hin, padded_length by exact H. exact E. }
  exists ip. split; [exact E1|]. rewrite Prove_pad by exact H. rewrite <- (padded_length v H).
  pose proof (prove_padded_run OK (padded v) false rs) as PR. cbv zeta in PR. rewrite PR; [|rewrite padded_length by exact H; lia..].
  fold h. gs. rewrite E1. cbn [grun glift bind]. reflexivity.
Qed.
Lemma Prove_run_debug v rs m : 1 <= length v <= 16 ->
  let h := hin R (padded v) rs in
  exists ip, hip h = Ok ip /\ exists r, r <> Panic /\
  grun (Prove R v true rs) m = (let! _ := r in if zero_challenge h then Err msg0 else Ok (hproof h ip), Z.of_nat (pad_size (length v))) /\
  (hy h <> f0 -> r = if sizes_dbg (padded v) then Ok tt else Err "[Prove] - debugProve: [DEBUG]: Value v is more than 2^N - 1"%string).
Proof.
  intros H h. destruct (pad_cases _ H) as [_ [HL _]]. destruct (pad_pow _ H) as [k [Hk E]].
  pose proof (hin_padded_wf v rs H) as WF. destruct (hip_ok OK h WF k Hk) as [ip [E1 _]].
  { unfold h. rewrite hm_hin, padded_length by exact H. exact E. }
  exists ip. split; [exact E1|]. rewrite Prove_pad by exact H. 
  pose proof (prove_padded_run OK (padded v) true rs) as PR. cbv zeta in PR. fold h in PR. rewrite padded_length in PR by exact H.
  destruct (hdebug_run OK h WF) as [r [ER [NP HY]]].
  change (hm h) with (length (padded v)) in ER. rewrite padded_length in ER by exact H.
  exists r. split; [exact NP|]. split; [|exact HY]. rewrite PR by lia. rewrite (run_bind ER), E1.
  destruct r as [[]|e|]; [|reflexivity|congruence]. reflexivity.
Qed.

Lemma zc_false h : zero_challenge h = false -> hx h <> f0 /\ hy h <> f0 /\ hz (R := R) h <> f0.
Proof.
  unfold zero_challenge. rewrite !orb_false_iff. intros [[A B] C].
  repeat apply conj; intros E; rewrite E, feqb_refl in *; discriminate.
Qed.
Lemma zc_true h : zero_challenge (R := R) h = true <-> hx h = f0 \/ hy h = f0 \/ hz h = f0.
Proof. unfold zero_challenge. rewrite !orb_true_iff, !feqb_eq. tauto. Qed.

(** inversion: when Prove returns a proof *)
Lemma Prove_Ok v debug rs m p m' : grun (Prove R v debug rs) m = (Ok p, m') ->
  let h := hin R (padded v) rs in
  1 <= length v <= 16 /\ m' = Z.of_nat (pad_size (length v)) /\ zero_challenge h = false /\
  exists ip, hip h = Ok ip /\ p = hproof h ip.
Proof.
  intros E h. destruct (Nat.eq_dec (length v) 0) as [L|L].
  { destruct v; [|discriminate]. rewrite Prove_empty in E. discriminate. }
  destruct (Nat.le_gt_cases (length v) 16) as [C|C]; [|rewrite Prove_long in E by exact C; discriminate].
  assert (H : 1 <= length v <= 16) by lia. split; [exact H|]. destruct debug.
  - destruct (Prove_run_debug v rs m H) as [ip [E1 [r [NP [E2 _]]]]]. fold h in E1, E2. rewrite E2 in E. destruct r as [[]|e|]; cbn [bind] in E; try discriminate.
    destruct (zero_challenge h); [discriminate|]. inversion E. split; [reflexivity|]. split; [reflexivity|]. exists ip. auto.
  - destruct (Prove_run v rs m H) as [ip [E1 E2]]. fold h in E1, E2. rewrite E2 in E.
    destruct (zero_challenge h); [discriminate|]. inversion E. split; [reflexivity|]. split; [reflexivity|]. exists ip. auto.
Qed.

(** padding does not change the sums *)
Lemma z_dot_app z a b : z_dot z (a ++ b) = fadd (z_dot z a) (dot (map (fun j => fpow z (j + 2)) (seq (length a) (length b))) b).
Proof.
  unfold z_dot. rewrite app_length, seq_app, map_app, dot_app; [reflexivity|]. rewrite map_length, seq_length. reflexivity.
Qed.
Lemma dot_zeros l n : dot l (repeat f0 n) = f0.
Proof. revert l. induction n as [|n IH]; intros [|x l]; try reflexivity. cbn [repeat]. rewrite dot_cons, IH. ring. Qed.
Lemma z_dot_padded z v : z_dot z (padded v) = z_dot z v.
Proof. unfold padded. rewrite z_dot_app, dot_zeros. ring. Qed.
Lemma low64_0 : of_Z (low64 (to_Z f0)) = f0. Proof. reflexivity. Qed.
Lemma lowv_padded v : lowv (padded v) = padded (lowv v).
Proof.
  unfold padded, lowv. rewrite map_app, map_length. f_equal. generalize (pad_size (length v) - length v). intros n.
  induction n as [|n IH]; cbn [repeat map]; [reflexivity|]. rewrite low64_0, IH. reflexivity.
Qed.
Definition in64 (a : F) : Prop := (to_Z a < 2 ^ 64)%Z.
Lemma lowv_in v : Forall in64 v -> lowv v = v.
Proof.
  unfold lowv. induction 1 as [|a v Ha Hv IH]; [reflexivity|]. cbn [map]. rewrite IH. f_equal. unfold low64, in64 in *.
  rewrite Z.mod_small by (pose proof (to_Z_range a); lia). apply of_Z_to_Z.
Qed.

(** Prove then Verify *)
Lemma prove_verify v debug rs m p m' c ip : grun (Prove R v debug rs) m = (Ok p, m') -> pf_ip R p = Some ip ->
  Forall (fun u => u <> f0) (challenges R [] (ip_L R ip) (ip_R R ip)) ->
  let z := hz (hin R (padded v) rs) in
  grun (Verify R c p) m' =
  (if peqb R (pt0 R) (fsub (z_dot z (lowv v)) (z_dot z v) [*] rp_Base R) then Ok true else Err "megacheck failed"%string, m').
Proof.
  intros E EI HF z. destruct (Prove_Ok _ _ _ _ _ _ E) as [H [-> [Z [ip' [E1 ->]]]]].
  cbn [hproof pf_ip] in EI. injection EI as ->. destruct (pad_pow _ H) as [k [Hk EK]].
  pose proof (hin_padded_wf v rs H) as WF. rewrite <- (padded_length v H).
  change (length (padded v)) with (hm (hin R (padded v) rs)).
  rewrite (h_verify OK _ WF k ip c Hk); [| |exact E1|apply zc_false; exact Z|exact HF].
  - f_equal. fold z. change (hv (hin R (padded v) rs)) with (padded v). rewrite lowv_padded, !z_dot_padded. reflexivity.
  - rewrite hm_hin, padded_length by exact H. exact EK.
Qed.

(** ** The package variable M *)
Lemma prove_padded_readonly v debug rs : readonly (prove_padded R v debug rs).
Proof.
  unfold prove_padded. ro; unfold drawS, computePoly; ro; try apply debug_readonly.
Qed.

Lemma Prove_M v debug rs m : snd (grun (Prove R v debug rs) m) =
  if Nat.eqb (length v) 0 then m else Z.of_nat (if Nat.ltb 16 (length v) then length v else pad_size (length v)).
Proof.
  destruct (Nat.eqb_spec (length v) 0) as [L|L].
  { destruct v; [reflexivity|discriminate]. }
  destruct (Nat.ltb_spec 16 (length v)) as [C|C]; [rewrite Prove_long by exact C; reflexivity|].
  rewrite Prove_pad by lia. apply readonly_run. apply prove_padded_readonly.
Qed.
Lemma Verify_M c p m : snd (grun (Verify R c p) m) = m.
Proof. apply readonly_run, Verify_readonly. Qed.

Lemma Verify_Ok_sizes c p m b m' : 0 < m -> (64 * Z.of_nat m < 2 ^ 32)%Z -> grun (Verify R c p) (Z.of_nat m) = (Ok b, m') ->
  exists ip, pf_ip R p = Some ip /\ sizes_ok m ip.
Proof.
  intros H0 HM E. destruct (pf_ip R p) as [ip|] eqn:EI.
  - exists ip. split; [reflexivity|].
    assert (D : sizes_ok m ip \/ ~ sizes_ok m ip).
    { unfold sizes_ok. destruct (Nat.eq_dec (length (ip_L R ip)) (length (ip_R R ip))) as [A|A]; [|right; tauto].
      destruct (Nat.lt_ge_cases (length (ip_L R ip)) 32) as [B|B]; [|right; lia].
      destruct (Nat.eq_dec (2 ^ length (ip_L R ip)) (64 * m)); [left|right]; tauto. }
    destruct D as [D|D]; [exact D|]. rewrite (Verify_sizes_err c p ip m EI H0 HM D) in E. discriminate.
  - exfalso. revert E. unfold Verify. gs. rewrite ped_computed_ok. cbv beta iota. gs. rewrite ped_computed_ok. cbv beta iota.
    destruct (verify_challenges R p) as [[[y z] x] w]. unfold megacheckWithC. rewrite EI. cbn. discriminate.
Qed.
Lemma Verify_other_M c p m m' c' b : 0 < m -> (64 * Z.of_nat m < 2 ^ 32)%Z -> 0 < m' -> (64 * Z.of_nat m' < 2 ^ 32)%Z -> m <> m' ->
  fst (grun (Verify R c p) (Z.of_nat m)) = Ok b -> 
  grun (Verify R c' p) (Z.of_nat m') = (Err "length of slice of scalars a does not equal length of slices of points b", Z.of_nat m').
Proof.
  intros H0 HM H0' HM' N E. destruct (grun (Verify R c p) (Z.of_nat m)) as [r q] eqn:EG. cbn in E. subst r.
  destruct (Verify_Ok_sizes c p m b q H0 HM EG) as [ip [EI [S1 [S2 S3]]]].
  apply (Verify_sizes_err c' p ip m' EI H0' HM'). intros [_ [_ S3']]. lia.
Qed.

(** ** Concurrent calls *)
Lemma Prove_tree v debug rs : 1 <= length v -> Prove R v debug rs =
  GSet (Z.of_nat (length v)) (GGet (fun m => if Z.ltb maxM m then GRet (Err "maximum amount of values must be less than 16"%string) else
    GGet (fun m1 => GGet (fun m2 => GSet (m2 + DiffNextPow2 (u32 m1))%Z
      (prove_padded R (v ++ repeat f0 (Z.to_nat (DiffNextPow2 (u32 m1)))) debug rs))))).
Proof. intros H. unfold Prove. destruct (Nat.ltb_spec (length v) 1) as [C|C]; [lia|]. reflexivity. Qed.

Lemma computePoly_err aL aR sL sR y z m : (64 * Z.of_nat m < 2 ^ 32)%Z -> length aR <> 64 * m ->
  grun (computePoly aL aR sL sR y z) (Z.of_nat m) = (Err "[ComputePoly] - r0 (1): Length of a does not equal length of b"%string, Z.of_nat m).
Proof.
  intros HM L. unfold computePoly. gs. rewrite SubScalar_ok. cbv beta iota zeta. gs.
  rewrite ScalarPowers_c. cbv beta iota. rewrite NM_eq by exact HM. rewrite (run_bind (sumZMTwoN_run z m HM)). cbv beta iota. gs.
  rewrite AddScalar_ok. cbv beta iota. gs.
  rewrite Hadamard_len by (rewrite map_length, cpowers_length; exact L). reflexivity.
Qed.
Lemma prove_padded_mismatch v debug rs m : (64 * Z.of_nat m < 2 ^ 32)%Z -> (64 * Z.of_nat (length v) < 2 ^ 32)%Z -> length v <> m ->
  grun (prove_padded R v debug rs) (Z.of_nat m) = (Err "[Prove] - poly: [ComputePoly] - r0 (1): Length of a does not equal length of b"%string, Z.of_nat m).
Proof.
  intros HM HV N. unfold prove_padded. gs. rewrite NM_eq by exact HM. rewrite ped_computed_the. cbv beta iota. gs.
  rewrite commit_loop_V. cbv beta iota. gs. rewrite bits_loop. cbv beta iota. gs.
  assert (PO : ped_ok genData (the_ped (R := R) genData (64 * m))) by (split; [reflexivity|]; split; [reflexivity|]; eexists; reflexivity).
  destruct (CommitToVectors_ok OK genData _ (rs (length v)) [allbits v; map (fun a => fsub a f1) (allbits v)] PO) as [p1 [E1 [PO1 _]]].
  { repeat constructor; rewrite ?map_length, allbits_length; lia. }
  rewrite E1. cbv beta iota. rewrite (run_bind (drawS_run _ m HM)). cbv beta iota. gs.
  match goal with |- context [CommitToVectors R p1 ?b ?vs] => destruct (CommitToVectors_ok OK genData p1 b vs PO1) as [p2 [E2 _]] end.
  { repeat constructor; rewrite map_length, seq_length; lia. }
  rewrite E2. cbv beta iota. destruct (computeYAndZ R _) as [y z].
  match goal with |- context [computePoly ?a ?b ?c ?d y z] => assert (E3 := computePoly_err a b c d y z m HM) end.
  rewrite (run_bind (run_wrap_err _ (E3 ltac:(rewrite map_length, allbits_length; lia)))). reflexivity.
Qed.

(** one call, as far as its second write to M *)
Lemma Prove_5 v debug rs (pool : list (gres (proof R))) m i : 1 <= length v <= 16 -> nth_error pool i = Some (Prove R v debug rs) ->
  sched_run pool m (repeat i 5) = (upd pool i (prove_padded R (padded v) debug rs), Z.of_nat (pad_size (length v))).
Proof.
  intros H E. destruct (pad_cases _ H) as [EP [HL _]]. rewrite Prove_tree in E by lia.
  assert (LI : i < length pool) by (apply nth_error_Some; congruence).
  cbn [repeat sched_run]. rewrite E. cbn [gstep]. rewrite upd_same by exact LI. cbn [gstep].
  destruct (Z.ltb_spec maxM (Z.of_nat (length v))) as [D|D]; [unfold maxM in D; lia|].
  rewrite !upd_upd. rewrite upd_same by exact LI. cbn [gstep].
  rewrite !upd_upd. rewrite upd_same by exact LI. cbn [gstep].
  rewrite !upd_upd. rewrite upd_same by exact LI. cbn [gstep]. rewrite !upd_upd.
  rewrite EP, Nat2Z.id. f_equal. lia.
Qed.

Definition interferes (pool : list (gres (proof R))) (m : Z) (i : nat) : Prop :=
  exists schedule, nth_error (fst (sched_run pool m schedule)) i = Some (GRet (Err "[Prove] - poly: [ComputePoly] - r0 (1): Length of a does not equal length of b"%string)).

(** i is suspended after its second write; j then changes M and i goes on *)
Lemma interference_run v w dv dw rv rw m (pool : list (gres (proof R))) i j sj qj mj : i <> j ->
  1 <= length v <= 16 -> nth_error pool i = Some (Prove R v dv rv) ->
  nth_error pool j = Some (Prove R w dw rw) ->
  (forall p', nth_error p' j = Some (Prove R w dw rw) -> sched_run p' (Z.of_nat (pad_size (length v))) sj = (upd p' j qj, Z.of_nat mj)) ->
  mj <> pad_size (length v) -> (64 * Z.of_nat mj < 2 ^ 32)%Z ->
  interferes pool m i.
Proof.
  intros NIJ H Ei Ej HS HN HM. destruct (pad_cases _ H) as [EP [HL _]].
  assert (LI : i < length pool) by (apply nth_error_Some; congruence).
  assert (LJ : j < length pool) by (apply nth_error_Some; congruence).
  assert (Ee := prove_padded_mismatch (padded v) dv rv mj HM ltac:(rewrite padded_length by exact H; lia) ltac:(rewrite padded_length by exact H; lia)).
  set (p1 := upd pool i (prove_padded R (padded v) dv rv)).
  assert (E1 : nth_error (upd p1 j qj) i = Some (prove_padded R (padded v) dv rv)).
  { rewrite upd_other by congruence. apply upd_same. exact LI. }
  destruct (sched_alone _ i (upd p1 j qj) (Z.of_nat mj) E1) as [n En].
  exists (repeat i 5 ++ sj ++ repeat i n).
  rewrite sched_app, (Prove_5 v dv rv pool m i H Ei). fold p1. rewrite sched_app, HS.
  - rewrite En, Ee. cbn [fst]. apply upd_same. rewrite !upd_length. unfold p1. rewrite upd_length. exact LI.
  - unfold p1. rewrite upd_other by congruence. exact Ej.
Qed.

Lemma interference v w dv dw rv rw m : 1 <= length v <= 16 -> 1 <= length w <= 16 ->
  ~ (length v = length w /\ pad_size (length v) = length v) ->
  interferes [Prove R v dv rv; Prove R w dw rw] m 0 \/ interferes [Prove R v dv rv; Prove R w dw rw] m 1.
Proof.
  intros Hv Hw N. destruct (pad_cases _ Hv) as [_ [Lv _]]. destruct (pad_cases _ Hw) as [_ [Lw _]].
  destruct (Nat.eq_dec (length w) (pad_size (length v))) as [E|E].
  - (* the first call's first write disturbs the second *)
    right. assert (Nn : length v <> pad_size (length w)).
    { intros C. apply N. destruct (Nat.eq_dec (length v) (length w)); [split; congruence|]. lia. }
    apply (interference_run w v dw dv rw rv m _ 1 0 [0] 
      (GGet (fun m => if Z.ltb maxM m then GRet (Err "maximum amount of values must be less than 16"%string) else
        GGet (fun m1 => GGet (fun m2 => GSet (m2 + DiffNextPow2 (u32 m1))%Z
          (prove_padded R (v ++ repeat f0 (Z.to_nat (DiffNextPow2 (u32 m1)))) dv rv))))) (length v)); auto; try lia.
    intros p' Ep. cbn [sched_run]. rewrite Ep, Prove_tree by lia. reflexivity.
  - left. apply (interference_run v w dv dw rv rw m _ 0 1 [1] 
      (GGet (fun m => if Z.ltb maxM m then GRet (Err "maximum amount of values must be less than 16"%string) else
        GGet (fun m1 => GGet (fun m2 => GSet (m2 + DiffNextPow2 (u32 m1))%Z
          (prove_padded R (w ++ repeat f0 (Z.to_nat (DiffNextPow2 (u32 m1)))) dw rw))))) (length w)); auto; try lia.
    intros p' Ep. cbn [sched_run]. rewrite Ep, Prove_tree by lia. reflexivity.
Qed.

(** calls of equal length n, n a power of two or above 16 *)
Lemma Prove_stable v debug rs n : length v = n -> (n <= 16 -> pad_size n = n) -> 1 <= n ->
  exists k, Prove R v debug rs = GSet (Z.of_nat n) k /\ stable (Z.of_nat n) k.
Proof.
  intros L HP H1. rewrite Prove_tree by lia. rewrite L. eexists. split; [reflexivity|]. cbn [stable].
  destruct (Z.ltb_spec maxM (Z.of_nat n)) as [D|D]; [exact I|]. cbn [stable]. unfold maxM in D.
  destruct (pad_cases n) as [EP _]; [lia|]. rewrite EP, HP by lia. rewrite Nat.sub_diag. split; [lia|].
  apply readonly_stable, prove_padded_readonly.
Qed.

(** ** Codec *)
Definition pf_head (p : proof R) (b : bool) : bytes :=
  (if b then coms_enc (pf_V R p) else []) ++
  pbytes R (pf_A R p) ++ pbytes R (pf_S R p) ++ pbytes R (pf_T1 R p) ++ pbytes R (pf_T2 R p) ++
  sbytes R (pf_taux R p) ++ sbytes R (pf_mu R p) ++ sbytes R (pf_t R p).
Lemma write_all cs : forall out, w_each w_write cs (mkW out []) = (Ok tt, mkW (out ++ concat cs) []).
Proof.
  change (w_each w_write cs) with (write_chunks cs).
  induction cs as [|c cs IH]; intros out.
  - cbn. rewrite app_nil_r. reflexivity.
  - rewrite write_chunks_cons. cbn [w_plan w_out]. rewrite IH, <- app_assoc. reflexivity.
Qed.
Lemma pf_head_chunks p b : concat (pf_chunks R p b) = pf_head p b.
Proof. unfold pf_chunks, pf_head. rewrite concat_app. cbn [concat]. rewrite app_nil_r. destruct b; reflexivity. Qed.
Lemma pf_encode p ip b : pf_ip R p = Some ip -> length (ip_L R ip) = length (ip_R R ip) ->
  pf_Encode R p b w_fresh = (Ok tt, mkW (pf_head p b ++ ipp_enc ip) []).
Proof.
  intros EI L. unfold pf_Encode, w_seq, w_fresh. rewrite write_all. rewrite EI. unfold ipp_Encode. rewrite <- L, Nat.leb_refl.
  rewrite write_all, pf_head_chunks. reflexivity.
Qed.
Lemma coms_enc_len cs : length (coms_enc (R := R) cs) = 4 + 32 * length cs.
Proof.
  rewrite coms_enc_eq, app_length, put_u32_length. f_equal. induction cs as [|c cs IH]; [reflexivity|].
  cbn [map concat length]. rewrite app_length, (pbytes_len R OK), IH. lia.
Qed.
Lemma pf_head_len p b : length (pf_head p b) = (if b then 4 + 32 * length (pf_V R p) else 0) + 224.
Proof.
  unfold pf_head. rewrite !app_length, !(pbytes_len R OK), !(sbytes_len R OK). destruct b; [rewrite coms_enc_len|cbn [length]]; lia.
Qed.
Lemma ipp_enc_len ip : length (ip_L R ip) = length (ip_R R ip) -> length (ipp_enc ip) = 64 + 64 * length (ip_L R ip).
Proof.
  intros L. unfold ipp_enc, ipp_chunks. cbn [concat]. rewrite !app_length, !(sbytes_len R OK), lr_chunks_len by auto. lia.
Qed.

Lemma reads_point q : reads (readerToPoint R) (pbytes R q) q.
Proof.
  unfold readerToPoint. rewrite <- (app_nil_r (pbytes R q)). eapply (reads_bind (r_bytes 32)).
  - apply reads_bytes. apply (pbytes_len R OK).
  - rewrite (pset_pbytes R OK). apply reads_ret.
Qed.
Lemma reads_scalar s : reads (readerToScalar R) (sbytes R s) s.
Proof.
  unfold readerToScalar. rewrite <- (app_nil_r (sbytes R s)). eapply (reads_bind (r_bytes 32)).
  - apply reads_bytes. apply (sbytes_len R OK).
  - rewrite (sset_sbytes R OK). apply reads_ret.
Qed.

Lemma pf_decode_head p p0 b r rest : (Z.of_nat (length (pf_V R p)) < 2 ^ 32)%Z -> fault_free r -> rbytes r = pf_head p b ++ rest ->
  exists r', fault_free r' /\ rbytes r' = rest /\
  exec (pf_Decode R p0 b) r =
  (match fst (exec (ipp_Decode R (mkIPP R [] [] f0 f0)) r') with
   | (ip, Ok _) => Ok (mkProof R (if b then map strip_blind (pf_V R p) else pf_V R p0) (pf_A R p) (pf_S R p) (pf_T1 R p) (pf_T2 R p)
       (pf_taux R p) (pf_mu R p) (pf_t R p) (Some ip))
   | (_, Err e) => Err e
   | (_, Panic) => Panic
   end, snd (exec (ipp_Decode R (mkIPP R [] [] f0 f0)) r')).
Proof.
  intros LV F E. unfold pf_head in E. rewrite <- !app_assoc in E. unfold pf_Decode.
  assert (H0 : exists r0, exec (if b then DecodeCommitments R else rret (pf_V R p0)) r
     = (Ok (if b then map strip_blind (pf_V R p) else pf_V R p0), r0) /\ fault_free r0 /\
     rbytes r0 = pbytes R (pf_A R p) ++ pbytes R (pf_S R p) ++ pbytes R (pf_T1 R p) ++ pbytes R (pf_T2 R p) ++
       sbytes R (pf_taux R p) ++ sbytes R (pf_mu R p) ++ sbytes R (pf_t R p) ++ rest).
  { destruct b.
    - destruct (reads_coms OK (pf_V R p) LV r _ F E) as [r0 [A [B C]]]. exists r0. auto.
    - exists r. auto. }
  destruct H0 as [r0 [A0 [F0 B0]]]. rewrite exec_rbind, A0.
  destruct (reads_point _ r0 _ F0 B0) as [r1 [A1 [B1 F1]]]. rewrite exec_rbind, A1.
  destruct (reads_point _ r1 _ F1 B1) as [r2 [A2 [B2 F2]]]. rewrite exec_rbind, A2.
  destruct (reads_point _ r2 _ F2 B2) as [r3 [A3 [B3 F3]]]. rewrite exec_rbind, A3.
  destruct (reads_point _ r3 _ F3 B3) as [r4 [A4 [B4 F4]]]. rewrite exec_rbind, A4.
  destruct (reads_scalar _ r4 _ F4 B4) as [r5 [A5 [B5 F5]]]. rewrite exec_rbind, A5.
  destruct (reads_scalar _ r5 _ F5 B5) as [r6 [A6 [B6 F6]]]. rewrite exec_rbind, A6.
  destruct (reads_scalar _ r6 _ F6 B6) as [r7 [A7 [B7 F7]]]. rewrite exec_rbind, A7.
  exists r7. split; [exact F7|]. split; [exact B7|]. rewrite exec_rbind.
  destruct (exec (ipp_Decode R _) r7) as [[ip res] r8]. cbn [fst snd]. destruct res; reflexivity.
Qed.

Lemma lr_chunks_app La Ra Lb Rb : length La = length Ra -> lr_chunks R (La ++ Lb) (Ra ++ Rb) = lr_chunks R La Ra ++ lr_chunks R Lb Rb.
Proof. revert Ra. induction La as [|l La IH]; intros [|r Ra] H; try discriminate; [reflexivity|]. cbn [app lr_chunks]. rewrite IH by (cbn in H; lia). reflexivity. Qed.

Lemma pf_decode_trailing p p0 ip b r a q : pf_ip R p = Some ip -> length (ip_L R ip) = length (ip_R R ip) ->
  (Z.of_nat (length (ip_L R ip)) + 1 < 2 ^ 32)%Z -> (Z.of_nat (length (pf_V R p)) < 2 ^ 32)%Z ->
  fault_free r -> rbytes r = (pf_head p b ++ ipp_enc ip) ++ pbytes R a ++ pbytes R q ->
  exec (pf_Decode R p0 b) r = (Ok (mkProof R (if b then map strip_blind (pf_V R p) else pf_V R p0)
    (pf_A R p) (pf_S R p) (pf_T1 R p) (pf_T2 R p) (pf_taux R p) (pf_mu R p) (pf_t R p)
    (Some (mkIPP R (ip_L R ip ++ [a]) (ip_R R ip ++ [q]) (ip_A R ip) (ip_B R ip)))), []).
Proof.
  intros EI L B1 B2 F E. rewrite <- app_assoc in E.
  destruct (pf_decode_head p p0 b r _ B2 F E) as [r' [F' [E' X]]]. rewrite X. clear X.
  set (ip2 := mkIPP R (ip_L R ip ++ [a]) (ip_R R ip ++ [q]) (ip_A R ip) (ip_B R ip)).
  rewrite (ipp_decode_ok OK ip2 _ r' []); auto.
  - cbn [ip2 ip_L ip_R]. rewrite !app_length. cbn. lia.
  - cbn [ip2 ip_L]. rewrite app_length. cbn [length]. lia.
  - rewrite E', app_nil_r. unfold ipp_enc, ipp_chunks. cbn [ip2 ip_L ip_R ip_A ip_B concat].
    rewrite lr_chunks_app by exact L. rewrite concat_app. cbn [lr_chunks concat]. rewrite app_nil_r, <- !app_assoc. reflexivity.
Qed.
Lemma pf_decode_ok p p0 ip b r : pf_ip R p = Some ip -> length (ip_L R ip) = length (ip_R R ip) ->
  (Z.of_nat (length (ip_L R ip)) < 2 ^ 32)%Z -> (Z.of_nat (length (pf_V R p)) < 2 ^ 32)%Z ->
  fault_free r -> rbytes r = pf_head p b ++ ipp_enc ip ->
  exec (pf_Decode R p0 b) r = (Ok (mkProof R (if b then map strip_blind (pf_V R p) else pf_V R p0)
    (pf_A R p) (pf_S R p) (pf_T1 R p) (pf_T2 R p) (pf_taux R p) (pf_mu R p) (pf_t R p) (Some ip)), []).
Proof.
  intros EI L B1 B2 F E.
  destruct (pf_decode_head p p0 b r _ B2 F E) as [r' [F' [E' X]]]. rewrite X. clear X.
  rewrite (ipp_decode_ok OK ip _ r' []); auto. rewrite app_nil_r. exact E'.
Qed.

(** ** Equality *)
Lemma eq_loop V : forall W, length W = length V ->
  for_loop 0 (length V) (fun i (ok : bool) =>
      if ok then let! a := idx V i in let! b := idx W i in Ok (EqualValue R a b) else Ok false) true
  = Ok (forallb (fun x => x) (zipw (EqualValue R) V W)).
Proof.
  assert (FF : forall (V W : list (commitment R)) n lo, for_loop lo n (fun i (ok : bool) =>
      if ok then let! a := idx V i in let! b := idx W i in Ok (EqualValue R a b) else Ok false) false = Ok false).
  { intros V0 W0. induction n as [|n IH]; intros lo; cbn [for_loop bind]; [reflexivity|apply IH]. }
  induction V as [|a V IH]; intros [|b W] L; try discriminate; [reflexivity|].
  cbn [length for_loop idx nth_error bind zipw forallb]. destruct (EqualValue R a b); cbn [andb].
  - rewrite (for_loop_shift _ (fun i (ok : bool) =>
      if ok then let! a := idx V i in let! b := idx W i in Ok (EqualValue R a b) else Ok false) _ 0) by reflexivity.
    apply IH. cbn in L. lia.
  - apply FF.
Qed.
Lemma vals_eq V : forall W, length W = length V -> (forallb (fun x => x) (zipw (EqualValue R) V W) = true <-> vals V = vals W).
Proof.
  induction V as [|a V IH]; intros [|b W] L; try discriminate; cbn [zipw forallb vals map]; [tauto|].
  rewrite andb_true_iff, IH by (cbn in L; lia). unfold EqualValue. rewrite (peqb_ok R OK). split.
  - intros [-> HV]. f_equal. exact HV.
  - intros H. inversion H. auto.
Qed.
Lemma pf_equals p q : 
  pf_Equals R p q true = Ok true <->
  vals (pf_V R p) = vals (pf_V R q) /\ pf_A R p = pf_A R q /\ pf_S R p = pf_S R q /\ pf_T1 R p = pf_T1 R q /\ pf_T2 R p = pf_T2 R q /\
  pf_taux R p = pf_taux R q /\ pf_mu R p = pf_mu R q /\ pf_t R p = pf_t R q.
Proof.
  unfold pf_Equals. destruct (Nat.eqb_spec (length (pf_V R p)) (length (pf_V R q))) as [L|L]; cbn [negb andb].
  - rewrite eq_loop by auto. cbn [bind].
    pose proof (vals_eq (pf_V R p) (pf_V R q) (eq_sym L)) as HV.
    destruct (forallb _ _); cbn [negb].
    + repeat match goal with
      | |- context [peqb R ?a ?b] => let D := fresh in destruct (peqb R a b) eqn:D; cbn [negb];
          [apply (peqb_ok R OK) in D|apply (peqb_neq OK) in D; split; [discriminate|tauto]]
      | |- context [feqb ?a ?b] => destruct (feqb_spec a b); cbn [negb]; [|split; [discriminate|tauto]] end.
      split; [|reflexivity]. intros _. repeat apply conj; auto. apply HV. reflexivity.
    + split; [discriminate|]. intros [H _]. apply HV in H. discriminate.
  - split; [discriminate|]. intros [H _]. exfalso. apply L. apply (f_equal (@length _)) in H. unfold vals in H. rewrite !map_length in H. exact H.
Qed.
(** the loop on commitments of any two lengths *)
Lemma eq_loop_any V : forall W,
  let l := for_loop 0 (length V) (fun i (ok : bool) =>
      if ok then let! a := idx V i in let! b := idx W i in Ok (EqualValue R a b) else Ok false) true in
  (l = Ok true /\ exists w, vals W = vals V ++ w) \/
  (l = Panic /\ exists v w, vals V = vals W ++ v :: w) \/
  (l = Ok false /\ (forall w, vals W <> vals V ++ w) /\ (forall v w, vals V <> vals W ++ v :: w)).
Proof.
  assert (FF : forall (V W : list (commitment R)) n lo, for_loop lo n (fun i (ok : bool) =>
      if ok then let! a := idx V i in let! b := idx W i in Ok (EqualValue R a b) else Ok false) false = Ok false).
  { intros V0 W0. induction n as [|n IH]; intros lo; cbn [for_loop bind]; [reflexivity|apply IH]. }
  induction V as [|a V IH]; intros W; cbv zeta.
  - left. split; [reflexivity|]. exists (vals W). reflexivity.
  - destruct W as [|b W].
    + right. left. split; [reflexivity|]. exists (c_val R a), (vals V). reflexivity.
    + cbn [length for_loop idx nth_error bind]. destruct (EqualValue R a b) eqn:E.
      * rewrite (for_loop_shift _ (fun i (ok : bool) =>
          if ok then let! a := idx V i in let! b := idx W i in Ok (EqualValue R a b) else Ok false) _ 0) by reflexivity.
        unfold EqualValue in E. apply (peqb_ok R OK) in E. cbn [vals map]. fold (vals V) (vals W). rewrite E.
        destruct (IH W) as [(X & w & H)|[(X & v & w & H)|(X & H1 & H2)]]; cbv zeta in X; rewrite X.
        -- left. split; [reflexivity|]. exists w. cbn. now rewrite H.
        -- right. left. split; [reflexivity|]. exists v, w. cbn. now rewrite H.
        -- right. right. split; [reflexivity|]. split; [intros w Q; injection Q as Q; exact (H1 w Q)|intros v w Q; injection Q as Q; exact (H2 v w Q)].
      * right. right. split; [apply FF|]. cbn [vals map]. fold (vals V) (vals W). unfold EqualValue in E.
        assert (N : c_val R a <> c_val R b) by (intros Q; apply (peqb_ok R OK) in Q; congruence).
        split; [intros w Q; injection Q as Q _; congruence|intros v w Q; injection Q as Q _; congruence].
Qed.
Lemma pf_equals_any p q : let l := pf_Equals R p q false in
  let rest := pf_A R p = pf_A R q /\ pf_S R p = pf_S R q /\ pf_T1 R p = pf_T1 R q /\ pf_T2 R p = pf_T2 R q /\
    pf_taux R p = pf_taux R q /\ pf_mu R p = pf_mu R q /\ pf_t R p = pf_t R q in
  (l = Ok true <-> (exists w, vals (pf_V R q) = vals (pf_V R p) ++ w) /\ rest) /\
  (l = Panic <-> exists v w, vals (pf_V R p) = vals (pf_V R q) ++ v :: w) /\ (forall e, l <> Err e).
Proof.
  cbv zeta. unfold pf_Equals. rewrite andb_false_r.
  destruct (eq_loop_any (pf_V R p) (pf_V R q)) as [(X & w & H)|[(X & v & w & H)|(X & H1 & H2)]]; cbv zeta in X; rewrite X; cbn [bind negb].
  - assert (NP : ~ exists v w, vals (pf_V R p) = vals (pf_V R q) ++ v :: w).
    { intros (v & w' & Q). rewrite H, <- app_assoc in Q. rewrite <- (app_nil_r (vals (pf_V R p))) in Q at 1. apply app_inv_head in Q. destruct w; discriminate. }
    repeat match goal with
      | |- context [peqb R ?a ?b] => let D := fresh in destruct (peqb R a b) eqn:D; cbn [negb];
          [apply (peqb_ok R OK) in D|apply (peqb_neq OK) in D; split; [split; [discriminate|tauto]|split; [split; [discriminate|tauto]|discriminate]]]
      | |- context [feqb ?a ?b] => destruct (feqb_spec a b); cbn [negb]; [|split; [split; [discriminate|tauto]|split; [split; [discriminate|tauto]|discriminate]]] end.
    split; [|split; [split; [discriminate|tauto]|discriminate]]. split; [|reflexivity]. intros _. split; [eauto|]. repeat (split; [assumption|]). assumption.
  - split; [|split; [split; [eauto|reflexivity]|discriminate]]. split; [discriminate|]. intros [(w' & Q) _]. exfalso.
    rewrite Q, <- app_assoc in H. rewrite <- (app_nil_r (vals (pf_V R p))) in H at 1. apply app_inv_head in H. destruct w'; discriminate.
  - split; [|split; [|discriminate]]; (split; [discriminate|]).
    + intros [(w & Q) _]. exfalso. exact (H1 w Q).
    + intros (v & w & Q). exfalso. exact (H2 v w Q).
Qed.
End Props.
