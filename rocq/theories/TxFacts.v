(** Payments: what a range proof and a dual key signature show together *)
From Coq Require Import String ZArith List Lia Bool Arith Permutation Field.
From Coq Require Import Init.Byte.
From Verif Require Import GoModel GoFacts Prime Fld Rist RistFacts SpecVector SpecIPP SpecRange SpecSound SpecMlsag VectorFacts PedersenModel PedersenFacts SpecPedersen
  GlobModel RangeProofModel RangeProps SpecHonest RangeRun IPSound RangeSound MlsagModel MlsagSessions SpecFork SpecRing RingMore SoundPoints P_Sound SpecRewind RewindIP RewindRange P_RangeProof P_RangeHiding SpecTx.
Import ListNotations.
Local Open Scope nat_scope.

Lemma zsum_bound vs : Forall amount vs -> (0 <= zsum vs <= Z.of_nat (length vs) * (2 ^ 64 - 1))%Z.
Proof. induction 1 as [|v vs H _ IH]; [cbn; lia|]. unfold amount in H. cbn [zsum fold_right length]. fold (zsum vs). lia. Qed.
Lemma zsum_small vs : Forall amount vs -> (Z.of_nat (length vs) <= 2 ^ 64)%Z -> to_Z (of_Z (zsum vs)) = zsum vs.
Proof.
  intros H L. pose proof (zsum_bound vs H). rewrite to_Z_of_Z. apply Z.mod_small. assert (2 ^ 128 < ell)%Z by reflexivity. nia.
Qed.
Lemma of_Z_zsum vs : of_Z (zsum vs) = fsum (map of_Z vs).
Proof. induction vs as [|v vs IH]; [reflexivity|]. cbn [zsum fold_right map fsum]. fold (zsum vs). rewrite of_Z_add, IH. reflexivity. Qed.
Lemma zsum_app l l' : zsum (l ++ l') = (zsum l + zsum l')%Z.
Proof. induction l as [|v l IH]; cbn [zsum fold_right app]; [reflexivity|]. fold (zsum (l ++ l')). fold (zsum l). rewrite IH. lia. Qed.

Section Tx.
Context {R : rist} (OK : rist_ok R).
Lemma total_com l : total R (map (fun vb => com R (fst vb) (snd vb)) l) = com R (fsum (map fst l)) (fsum (map snd l)).
Proof.
  induction l as [|[v b] l IH]; [unfold com; cbn [map total fold_right fsum]; lin OK|].
  cbn [map total fold_right fsum fst snd]. fold (total R (map (fun vb => com R (fst vb) (snd vb)) l)). rewrite IH. unfold com, fsum. lin OK.
Qed.
Lemma total_app l l' : total R (l ++ l') = padd R (total R l) (total R l').
Proof. induction l as [|p l IH]; cbn [total fold_right app]; [symmetry; apply (padd_0_l R OK)|]. fold (total R (l ++ l')). fold (total R l). rewrite IH. lin OK. Qed.
Lemma balance o vs b' r r' c c' x z : Forall amount vs -> (Z.of_nat (length vs) <= 2 ^ 64)%Z ->
  amount_found R o (of_Z (zsum vs)) b' r r' c c' x z -> balance_found R o vs b' r r' c c' x z.
Proof.
  intros H L (a1 & a2 & b1 & b2 & E1 & E2 & E3 & E4 & E5 & E6 & E7 & D). exists a1, a2, b1, b2. do 7 (split; [assumption|]).
  destruct D as [[D _]|[D V]]; [left|right].
  - rewrite D. apply zsum_small; assumption.
  - split; [|exact V]. intros C. apply D. rewrite <- C. symmetry. apply of_Z_to_Z.
Qed.

Lemma openings m k q an e s : 0 < m -> 2 ^ k = 64 * m -> wide m k q ->
  represents R m k q e s ->
  (forall y z x w us, asked q k y z x w us ->
     vanishes (64 * m) (ip_gap m e an y z x w us) /\ vanishes (64 * m) (poly_gap m e an y z x)) ->
  exists vs, length vs = m /\ Forall amount vs /\
    (forall j v, nth_error vs j = Some v -> s_V s j = com R (of_Z v) (rl (s_V e j))) /\
    total R (map (s_V s) (seq 0 m)) = com R (of_Z (zsum vs)) (fsum (map (fun j => rl (s_V e j)) (seq 0 m))).
Proof.
  intros HM HK W RP V. pose proof (rewind_ok m k q an HM HK W e V) as O.
  assert (X : forall j, j < m -> exists v, amount v /\ s_V s j = com R (of_Z v) (rl (s_V e j))).
  { intros j Hj. destruct (ok_A_range m _ _ j O Hj) as (G & HH & v & B & E). exists v. split; [exact B|].
    destruct RP as (EV & _). rewrite (EV j Hj). unfold reval. rewrite E.
    rewrite (msm_fun_ext _ (rg (s_V e j)) (fun _ => f0)) by exact G.
    rewrite (msm_fun_ext _ (rh (s_V e j)) (fun _ => f0)) by exact HH.
    rewrite !(msm_fun_const OK) by apply chain_length. unfold com. change (rp_Base R) with (value_point R). change (rp_Blind R) with (pbase R). lin OK. }
  assert (Y : forall n, n <= m -> exists vs, length vs = n /\ Forall amount vs /\ (forall j v, nth_error vs j = Some v -> s_V s j = com R (of_Z v) (rl (s_V e j))) /\
    total R (map (s_V s) (seq 0 n)) = com R (of_Z (zsum vs)) (fsum (map (fun j => rl (s_V e j)) (seq 0 n)))).
  { induction n as [|n IH]; intros Hn.
    - exists []. split; [reflexivity|]. split; [constructor|]. split; [intros [|j] v C; discriminate|]. unfold com. cbn. change (of_Z 0) with f0. lin OK.
    - destruct (IH ltac:(lia)) as (vs & L & A & N & T). destruct (X n ltac:(lia)) as (v & Av & Ev). exists (vs ++ [v]).
      split; [rewrite app_length, L; cbn; lia|]. split; [apply Forall_app; auto|]. split.
      + intros j w Hw. destruct (Nat.lt_ge_cases j n) as [C|C].
        * rewrite nth_error_app1 in Hw by lia. exact (N j w Hw).
        * rewrite nth_error_app2 in Hw by lia. rewrite L in Hw. destruct (j - n) as [|d] eqn:Ej; [|destruct d; discriminate].
          injection Hw as <-. replace j with n by lia. exact Ev.
      + rewrite seq_S, !map_app, total_app, T, fsum_app, zsum_app. cbn [Nat.add map total fold_right fsum zsum]. rewrite Ev, !of_Z_add. change (of_Z 0) with f0. unfold com. lin OK. }
  exact (Y m (le_n m)).
Qed.

Lemma no_inflation m k q an e s outs n A (hs : list (bytes -> F)) : let D := total R (map (s_V s) (seq 0 m)) in let ring := map (spend_row R D) (outputs R outs) in
  0 < m -> (Z.of_nat m <= 2 ^ 64)%Z -> 2 ^ k = 64 * m -> wide m k q -> represents R m k q e s ->
  (forall y z x w us, asked q k y z x w us ->
     vanishes (64 * m) (ip_gap m e an y z x w us) /\ vanishes (64 * m) (poly_gap m e an y z x)) ->
  (forall h, In h hs -> accepted R ring 1 h (answer h A) /\ list_max (places R ring h A) = n /\
     forall s, In s (hashed R ring h (answer h A)) -> h s <> f0) ->
  (forall h h' q, In h hs -> In h' hs -> In q (firstn n (queries R ring h A)) -> h q = h' q) ->
  NoDup (map (fun h => h (nth n (queries R ring h A) [])) hs) ->
  Nat.max 2 (length outs) * n * (n + 1) + 1 < length hs ->
  exists vs, length vs = m /\ Forall amount vs /\
  (forall j v, nth_error vs j = Some v -> s_V s j = com R (of_Z v) (rl (s_V e j))) /\
  exists h h', In h hs /\ In h' hs /\
   let f := answer h A in let f' := answer h' A in let b' := fsum (map (fun j => rl (s_V e j)) (seq 0 m)) in
   ((exists i o r r' c c' x z, nth_error outs (i mod length outs) = Some o /\
      nth_error (passed R ring f) i = Some r /\ nth_error (passed R ring f') i = Some r' /\
      nth_error (entering R ring h f) i = Some c /\ nth_error (entering R ring h' f') i = Some c' /\ c <> c' /\
      balance_found R o vs b' (snd r) (snd r') c c' x z /\ fg_images R f = [key_image R x] /\ fg_images R f' = [key_image R x]) \/
    (exists q, Forall (eq q) (hashed R ring h f) /\ Forall (eq q) (hashed R ring h' f') /\ h q <> h' q /\
      forall i o r r', nth_error outs (i mod length outs) = Some o ->
        nth_error (passed R ring f) i = Some r -> nth_error (passed R ring f') i = Some r' ->
        exists x z, balance_found R o vs b' (snd r) (snd r') (h q) (h' q) x z)).
Proof.
  intros D ring HM HB HK W RP V H1 H2 H3 H4. destruct (openings m k q an e s HM HK W RP V) as (vs & L & AV & N & T).
  exists vs. split; [exact L|]. split; [exact AV|]. split; [exact N|]. unfold ring, D in *. rewrite T in *. cbv zeta.
  destruct (amounts OK outs _ _ n A hs H1 H2 H3 H4) as (h & h' & I & I' & C). exists h, h'. split; [exact I|]. split; [exact I'|].
  assert (LB : (Z.of_nat (length vs) <= 2 ^ 64)%Z) by (rewrite L; exact HB).
  destruct C as [(i & o & r & r' & c & c' & x & z & E1 & E2 & E3 & E4 & E5 & E6 & E7 & E8)|(qq & E1 & E2 & E3 & E4)]; [left|right].
  - exists i, o, r, r', c, c', x, z. repeat (split; [assumption|]). split; [apply balance; assumption|exact E8].
  - exists qq. repeat (split; [assumption|]). intros i o r r' G1 G2 G3. destruct (E4 i o r r' G1 G2 G3) as (x & z & E). exists x, z. apply balance; assumption.
Qed.

(** any commitments whose values add up, as scalars, can be subtracted *)
Lemma pay decoys msg x v b outs js rs : decoys <> [] -> x <> f0 -> v = fsum (map fst outs) -> b <> fsum (map snd outs) ->
  let D := total R (map (fun vb => com R (fst vb) (snd vb)) outs) in
  exists d sg d', run_all run_dop (spend_ops R decoys D msg x (fsub b (fsum (map snd outs)))) (NewDualKey R) = Ok d /\
    dk_Prove R d js rs = (Ok (sg, key_image R x), d') /\ sg_msg R sg = msg /\
    Permutation (map (spend_row R D) (decoys ++ [(smul R x (pbase R), com R v b)])) (map (pk_keys R) (sg_pub R sg)) /\
    sig_Verify R sg [key_image R x] = Ok true.
Proof. intros ND NX -> NB D. unfold D. rewrite total_com. exact (spend OK decoys msg x _ b _ js rs ND NX NB). Qed.
Lemma fsum_padded v n : length v <= n -> fsum (map (fun i => nth i v f0) (seq 0 n)) = fsum v.
Proof.
  revert v. induction n as [|n IH]; intros v L; [destruct v; [reflexivity|cbn in L; lia]|].
  cbn [seq map fsum fold_right]. rewrite <- seq_shift, map_map. destruct v as [|a v].
  - cbn [nth fsum fold_right]. rewrite (map_ext_in _ (fun i => nth i (@nil F) f0)) by (intros [|i] _; reflexivity). 
    pose proof (IH [] ltac:(cbn; lia)) as X. cbn [fsum fold_right] in X. unfold fsum in X. rewrite X. ring.
  - cbn [nth fsum fold_right]. pose proof (IH v ltac:(cbn in L; lia)) as X. unfold fsum in X. rewrite X. reflexivity.
Qed.
Lemma prove_total v debug rs m p m' : grun (Prove R v debug rs) m = (Ok p, m') ->
  total R (map (c_val R) (pf_V R p)) = com R (fsum v) (fsum (map (c_blind R) (pf_V R p))).
Proof.
  intros E. destruct (C74_commitments R OK v debug rs m p m' E) as (L & _ & N). set (n := pad_size (length v)) in *.
  assert (X : pf_V R p = map (fun i => mkCom R (com R (nth i v f0) (rs i)) (rs i)) (seq 0 n)).
  { apply nth_error_ext. intros i. destruct (Nat.lt_ge_cases i n) as [C|C].
    - rewrite (N i C). symmetry. etransitivity; [apply map_nth_error; rewrite (nth_error_nth' (seq 0 n) 0) by (rewrite seq_length; exact C); rewrite seq_nth by exact C; reflexivity|]. reflexivity.
    - rewrite !(proj2 (nth_error_None _ _)); [reflexivity|rewrite map_length, seq_length; lia|lia]. }
  rewrite X, !map_map. cbn [c_val c_blind]. 
  transitivity (total R (map (fun vb => com R (fst vb) (snd vb)) (map (fun i => (nth i v f0, rs i)) (seq 0 n)))); [rewrite map_map; reflexivity|].
  rewrite total_com, !map_map. cbn [fst snd]. f_equal. apply fsum_padded. 
  destruct (length v) as [|l] eqn:EL; [lia|]. subst n. destruct (C74_pad_size (S l) ltac:(lia)) as [_ B]. lia.
Qed.
End Tx.
