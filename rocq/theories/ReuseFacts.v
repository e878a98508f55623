(** Lemmas about repeated random scalars *)
From Coq Require Import String ZArith List Lia Bool Arith Field Permutation.
From Coq Require Import Init.Byte.
From Verif Require Import GoModel GoFacts GlobModel GlobFacts Fld Rist RistFacts SpecVector VectorFacts SpecPedersen PedersenModel PedersenFacts SpecMlsag MlsagModel MlsagSessions
  MlsagFacts MlsagProve MlsagProps MlsagAttain SpecPlace PlaceFacts SpecBlsag BlsagModel BlsagFacts SpecIPP InnerProductModel SpecRange RangeProofModel SpecHonest
  RangeFacts RangeProveFacts RangeRun RangeProps RangeHiding SpecReuse.
Import ListNotations.
Local Open Scope nat_scope.

Lemma from_two_ok a x c c' : c <> c' -> from_two c c' (fsub a (fmul c x)) (fsub a (fmul c' x)) = x.
Proof.
  intros N. unfold from_two. field. intros Z. apply N. replace c with (fsub c' (fsub c' c)) by ring. rewrite Z. ring.
Qed.
Lemma from_two_rows c c' : c <> c' -> forall A X, length A = length X ->
  zipw (from_two c c') (zipw (fun a x => fsub a (fmul c x)) A X) (zipw (fun a x => fsub a (fmul c' x)) A X) = X.
Proof.
  intros N. induction A as [|a A IH]; intros [|x X] L; cbn in *; try discriminate; [reflexivity|]. f_equal; [apply from_two_ok, N|apply IH; lia].
Qed.
Lemma same_row_eq r : forall r', same_row r r' = true <-> r = r'.
Proof.
  unfold same_row. induction r as [|a r IH]; intros [|b r']; cbn [length Nat.eqb combine forallb andb fst snd]; try (split; [discriminate|discriminate]); [tauto|].
  specialize (IH r'). split.
  - intros H. apply andb_true_iff in H. destruct H as [H1 H2]. apply andb_true_iff in H2. destruct H2 as [H2 H3].
    apply feqb_eq in H2. subst b. f_equal. apply IH. rewrite H1, H3. reflexivity.
  - intros H. injection H as -> ->. pose proof (proj2 IH eq_refl) as H. apply andb_true_iff in H. destruct H as [-> ->].
    rewrite (proj2 (feqb_eq b b) eq_refl). reflexivity.
Qed.
Lemma find_first (f : nat -> bool) n s : s < n -> (forall i, i < s -> f i = false) -> f s = true -> find f (seq 0 n) = Some s.
Proof.
  intros L H E. assert (G : forall k lo, lo <= s -> s < lo + k -> find f (seq lo k) = Some s); [|apply G; lia].
  induction k as [|k IH]; intros lo L1 L2; [lia|]. cbn [seq find]. destruct (Nat.eq_dec lo s) as [->|D].
  - rewrite E. reflexivity.
  - rewrite H by lia. apply IH; lia.
Qed.

Section Reuse.
Context {R : rist}.

(** the index of the signer when no earlier row is one of a signer *)
Lemma index_place (p : mproof R) sk js rs sg J q : prove R p sk js rs = (Ok (sg, J), q) ->
  Forall (fun row => pk_decoy R row = true) (mp_matrix R p) ->
  mp_index R q = place (length (mp_matrix R p) + 1) (drawn (length (mp_matrix R p) + 1) js).
Proof.
  intros E D. destruct (prove_place p sk js rs sg J q E) as [L Q].
  destruct (prove_snd p sk js rs) as (p' & _ & S & Ep). rewrite Ep in E. injection E as E <-.
  apply prove_shuffled_pub in E. rewrite E in L, Q. rewrite L in Q. destruct S as (_ & _ & _ & P & row & Er & Ed & _).
  set (i := place _ _) in *.
  assert (U : forall (l l' : list (pubkeys R)), Permutation l l' -> length (filter (fun r => negb (pk_decoy R r)) l) = length (filter (fun r => negb (pk_decoy R r)) l')).
  { intros l l' H. induction H; cbn [filter]; try congruence; [destruct (negb _); cbn; congruence|destruct (negb _), (negb _); reflexivity]. }
  specialize (U _ _ P). rewrite filter_app, app_length in U. cbn [filter pk_decoy negb length] in U.
  assert (F0 : filter (fun r => negb (pk_decoy R r)) (mp_matrix R p) = []).
  { clear -D. induction D as [|r l H D IH]; [reflexivity|]. cbn [filter]. rewrite H. exact IH. }
  rewrite F0 in U. cbn [length Nat.add] in U. symmetry in U.
  revert U Er Ed Q. generalize (mp_matrix R p'). intros m. generalize (mp_index R p'), i. clear. intros a b U Ea Da Eb.
  assert (Db : pk_decoy R (mkPK R false (pk_keys R (mp_signer R p))) = false) by reflexivity. revert Eb Db. generalize (mkPK R false (pk_keys R (mp_signer R p))).
  intros row' Eb Db. revert a b U Ea Eb. induction m as [|r m IH]; intros a b U Ea Eb; [destruct a; discriminate|].
  assert (N : forall (l : list (pubkeys R)) j x, nth_error l j = Some x -> pk_decoy R x = false -> 1 <= length (filter (fun r => negb (pk_decoy R r)) l)).
  { induction l as [|y l IHl]; intros [|j] x H Dx; try discriminate; cbn [nth_error] in H; cbn [filter].
    - injection H as ->. rewrite Dx. cbn [negb length]. lia.
    - specialize (IHl j x H Dx). destruct (negb (pk_decoy R y)); cbn [length]; lia. }
  cbn [filter] in U. destruct a as [|a], b as [|b]; [reflexivity| | |].
  - cbn in Ea. injection Ea as ->. rewrite Da in U. cbn [negb length] in U. cbn [nth_error] in Eb. pose proof (N _ _ _ Eb Db). lia.
  - cbn in Eb. injection Eb as ->. rewrite Db in U. cbn [negb length] in U. cbn [nth_error] in Ea. pose proof (N _ _ _ Ea Da). lia.
  - f_equal. apply (IH a b); [|exact Ea|exact Eb]. cbn [nth_error] in Ea. pose proof (N _ _ _ Ea Da). destruct (negb (pk_decoy R r)); cbn [length] in U; lia.
Qed.

Section Two.
Context (p p' : mproof R) (sk sk' : bool) (js js' : nat -> nat) (rs rs' : nat -> F) (g g' : sig R) (J J' : list (pt R)) (q q' : mproof R).
Context (I0 : minv p) (I0' : minv p') (HM : mp_matrix R p <> []) (HM' : mp_matrix R p' <> [])
  (E : prove R p sk js rs = (Ok (g, J), q)) (E' : prove R p' sk' js' rs' = (Ok (g', J'), q')).

Lemma one_key i k x r r' : nth_error (mp_priv R p) i = Some x -> nth_error (mp_priv R p') k = Some x -> rs i = rs' k ->
  nth_error (nth (mp_index R q) (sg_r R g) []) i = Some r -> nth_error (nth (mp_index R q') (sg_r R g') []) k = Some r' ->
  ml_at R g J (mp_index R q) <> ml_at R g' J' (mp_index R q') ->
  x = from_two (ml_at R g J (mp_index R q)) (ml_at R g' J' (mp_index R q')) r r'.
Proof.
  intros Ex Ex' RS Er Er' N.
  destruct (prove_responses p sk js rs g J q I0 HM E) as (B1 & B2 & _). destruct (prove_responses p' sk' js' rs' g' J' q' I0' HM' E') as (B1' & B2' & _).
  rewrite (nth_error_nth _ _ _ B2) in Er. rewrite (nth_error_nth _ _ _ B2') in Er'.
  assert (Li : i < length (mp_priv R p)) by (apply nth_error_Some; congruence). assert (Lk : k < length (mp_priv R p')) by (apply nth_error_Some; congruence).
  rewrite (zipw_nth _ _ _ i (rs i) x) in Er; [|rewrite nth_error_map_seq by exact Li; reflexivity|exact Ex].
  rewrite (zipw_nth _ _ _ k (rs' k) x) in Er'; [|rewrite nth_error_map_seq by exact Lk; reflexivity|exact Ex'].
  injection Er as <-. injection Er' as <-. rewrite <- RS. symmetry. apply from_two_ok. exact N.
Qed.

(** everything repeated *)
Context (EP : mp_priv R p = mp_priv R p') (RS : forall i, rs i = rs' i) (ES : mp_index R q = mp_index R q').
Lemma other_rows i : i <> mp_index R q -> i < length (sg_r R g) -> i < length (sg_r R g') -> nth_error (sg_r R g) i = nth_error (sg_r R g') i.
Proof.
  intros N L L'. destruct (prove_responses p sk js rs g J q I0 HM E) as (_ & _ & B3). destruct (prove_responses p' sk' js' rs' g' J' q' I0' HM' E') as (_ & _ & B3').
  rewrite B3 by assumption. rewrite B3' by congruence. rewrite <- ES, <- EP. f_equal. apply map_ext. exact RS.
Qed.
Lemma all_keys : (exists x, In x (mp_priv R p) /\ x <> f0) -> ml_at R g J (mp_index R q) <> ml_at R g' J' (mp_index R q) ->
  first_difference R g g' = Some (mp_index R q) /\ stolen R g J g' J' = Some (mp_priv R p).
Proof.
  intros (x & Hx & Nx) N.
  destruct (prove_responses p sk js rs g J q I0 HM E) as (B1 & B2 & _). destruct (prove_responses p' sk' js' rs' g' J' q' I0' HM' E') as (B1' & B2' & _).
  rewrite <- ES, <- EP in B2'. rewrite <- ES in B1'. fold (ml_at R g J (mp_index R q)) in B2.
  change (ring_chain R (sg_msg R g') J' (firstn (mp_index R q) (sig_rows g')) (sg_c R g')) with (ml_at R g' J' (mp_index R q)) in B2'.
  change (ring_chain R (sg_msg R g) J (firstn (mp_index R q) (sig_rows g)) (sg_c R g)) with (ml_at R g J (mp_index R q)) in B2.
  assert (EA : map rs' (seq 0 (length (mp_priv R p))) = map rs (seq 0 (length (mp_priv R p)))) by (apply map_ext; intros; symmetry; apply RS).
  rewrite EA in B2'. set (c := ml_at R g J _) in *. set (c' := ml_at R g' J' _) in *.
  assert (F : first_difference R g g' = Some (mp_index R q)).
  { unfold first_difference. apply find_first; [exact B1| |].
    - intros i Hi. apply negb_false_iff, same_row_eq. pose proof (other_rows i ltac:(lia) ltac:(lia) ltac:(lia)) as X.
      rewrite <- !(nth_default_eq). unfold nth_default. rewrite X. reflexivity.
    - apply negb_true_iff. destruct (same_row _ _) eqn:D; [|reflexivity]. exfalso. apply same_row_eq in D.
      rewrite (nth_error_nth _ _ _ B2), (nth_error_nth _ _ _ B2') in D. apply In_nth_error in Hx. destruct Hx as [i Hx].
      assert (Li : i < length (mp_priv R p)) by (apply nth_error_Some; congruence). apply (f_equal (fun l => nth_error l i)) in D.
      rewrite !(zipw_nth _ _ _ i (rs i) x) in D by (first [exact Hx|rewrite nth_error_map_seq by exact Li; reflexivity]).
      apply (f_equal (fun o => match o with Some y => y | None => f0 end)) in D. cbv beta iota in D. assert (Z : fmul (fsub c' c) x = f0) by (replace (fmul (fsub c' c) x) with (fsub (fsub (rs i) (fmul c x)) (fsub (rs i) (fmul c' x))) by ring; rewrite D; ring).
      apply fmul_integral in Z. destruct Z as [Z|Z]; [|exact (Nx Z)]. apply N. replace c with (fsub c' (fsub c' c)) by ring. rewrite Z. ring. }
  split; [exact F|]. unfold stolen. rewrite F. fold c c'. rewrite (nth_error_nth _ _ _ B2), (nth_error_nth _ _ _ B2'). f_equal.
  apply from_two_rows; [exact N|]. rewrite map_length, seq_length. reflexivity.
Qed.
End Two.

(** range proofs *)
Context (OK : rist_ok R).
Lemma reuse_alpha v v' d d' rs m0 m0' p p' m m' : grun (Prove R v d rs) m0 = (Ok p, m) -> grun (Prove R v' d' rs) m0' = (Ok p', m') ->
  pad_size (length v) = pad_size (length v') -> x_of R p <> x_of R p' ->
  alpha_of R p p' = rs (pad_size (length v)) /\
  pf_A R p = vec_commit R low_byte rp_seed (alpha_of R p p') [allbits (padded v); map (fun a => fsub a f1) (allbits (padded v))].
Proof.
  intros E E' EL N. destruct (Prove_Ok OK v d rs m0 p m E) as (L & _ & _ & ip & _ & ->).
  destruct (Prove_Ok OK v' d' rs m0' p' m' E') as (L' & _ & _ & ip' & _ & ->).
  set (h := hin R (padded v) rs) in *. set (h' := hin R (padded v') rs) in *.
  change (x_of R (hproof h ip)) with (hx h) in *. change (x_of R (hproof h' ip')) with (hx h') in *.
  assert (EA : h_alpha h = rs (pad_size (length v))) by (unfold h; cbn [hin h_alpha]; rewrite padded_length by exact L; reflexivity).
  assert (EA' : h_alpha h' = h_alpha h) by (rewrite EA; unfold h'; cbn [hin h_alpha]; rewrite padded_length, EL by exact L'; reflexivity).
  assert (ER' : h_rho h' = h_rho h) by (unfold h, h'; cbn [hin h_rho]; rewrite !padded_length, EL by assumption; reflexivity).
  assert (AL : alpha_of R (hproof h ip) (hproof h' ip') = h_alpha h).
  { unfold alpha_of. change (x_of R (hproof h ip)) with (hx h). change (x_of R (hproof h' ip')) with (hx h'). cbn [hproof pf_mu].
    unfold hmu. rewrite EA', ER'. field. intros Z. apply N. replace (hx h) with (fadd (fsub (hx h) (hx h')) (hx h')) by ring. rewrite Z. ring. }
  rewrite AL. split; [exact EA|]. reflexivity.
Qed.
Lemma reuse_difference v v' d d' rs m0 m0' p p' m m' i C C' : grun (Prove R v d rs) m0 = (Ok p, m) -> grun (Prove R v' d' rs) m0' = (Ok p', m') ->
  nth_error (pf_V R p) i = Some C -> nth_error (pf_V R p') i = Some C' ->
  psub R (c_val R C) (c_val R C') = smul R (fsub (nth i v f0) (nth i v' f0)) (rp_Base R).
Proof.
  intros E E' EC EC'. destruct (Prove_commitments OK v d rs m0 p m E) as (L & _ & H). destruct (Prove_commitments OK v' d' rs m0' p' m' E') as (L' & _ & H').
  assert (Li : i < length (pf_V R p)) by (apply nth_error_Some; congruence). assert (Li' : i < length (pf_V R p')) by (apply nth_error_Some; congruence).
  rewrite H in EC by lia. rewrite H' in EC' by lia. injection EC as <-. injection EC' as <-. cbn [c_val]. lin OK.
Qed.
End Reuse.
