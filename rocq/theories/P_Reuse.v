(** Property C113: what repeated random scalars give away *)
From Coq Require Import String ZArith List Lia Bool Arith Permutation.
From Coq Require Import Init.Byte.
From Verif Require Import GoModel GoFacts GlobModel Fld Rist RistFacts RistInst SpecVector SpecPedersen PedersenModel SpecMlsag MlsagModel MlsagSessions MlsagProps SpecPlace
  SpecBlsag BlsagModel BlsagFacts SpecRange RangeProofModel SpecHonest SpecReuse ReuseFacts P_Blsag.
Import ListNotations.
Local Open Scope nat_scope.

(** Two bLSAG signatures made with the same key and the same nonce, the first random scalar: the private key is a
    function of the signatures, unless the challenges of the signer's rows happen to be equal.  Which rows these are
    can be seen: they are the only ones whose key is not the zero value. *)
Theorem C113_blsag R V (VOK : raw_ok R V) m mixin j0 rs m' mixin' j0' rs' sK g g' i i' s s' :
  Sign R V m mixin sK j0 rs = Ok g -> Sign R V m' mixin' sK j0' rs' = Ok g' -> rs 0 = rs' 0 ->
  i <= length mixin -> nth_error (rs_pub R V g) i <> Some (rzero R V) -> i' <= length mixin' -> nth_error (rs_pub R V g') i' <> Some (rzero R V) ->
  nth_error (rs_S R V g) i = Some s -> nth_error (rs_S R V g') i' = Some s' ->
  (bl_at R V m g i <> bl_at R V m' g' i' -> sK = from_two (bl_at R V m g i) (bl_at R V m' g' i') s s') /\
  (bl_at R V m g i = bl_at R V m' g' i' -> s = s').
Proof.
  intros E E' RS Li Ni Li' Ni' Es Es'. apply (Sign_signer VOK _ _ _ _ _ _ E i Li) in Ni. apply (Sign_signer VOK _ _ _ _ _ _ E' i' Li') in Ni'.
  pose proof (Sign_response _ _ _ _ _ _ E) as A. pose proof (Sign_response _ _ _ _ _ _ E') as A'. cbv zeta in A, A'.
  rewrite <- Ni in A. rewrite <- Ni' in A'. fold (bl_at R V m g i) in A. fold (bl_at R V m' g' i') in A'.
  change (bl_chain R V m (rs_I R V g) (firstn i (combine (rs_pub R V g) (rs_S R V g))) (rs_C R V g)) with (bl_at R V m g i) in A.
  change (bl_chain R V m' (rs_I R V g') (firstn i' (combine (rs_pub R V g') (rs_S R V g'))) (rs_C R V g')) with (bl_at R V m' g' i') in A'.
  rewrite Es in A. rewrite Es' in A'. rewrite <- RS in A'. split.
  - intros N. assert (As : s = fsub (rs 0) (fmul (bl_at R V m g i) sK)) by congruence. assert (As' : s' = fsub (rs 0) (fmul (bl_at R V m' g' i') sK)) by congruence.
    rewrite As, As'. symmetry. apply from_two_ok. exact N.
  - intros N. rewrite N in A. congruence.
Qed.
Print Assumptions C113_blsag.

(** MLSAG, one key: wherever the key is in the two sessions, if its nonces are the same. *)
Theorem C113_mlsag R bops ops p skipLast js rs g J q bops' ops' p' skipLast' js' rs' g' J' q' i k x r r' :
  session bops ops = Ok p -> mp_matrix R p <> [] -> prove R p skipLast js rs = (Ok (g, J), q) ->
  session bops' ops' = Ok p' -> mp_matrix R p' <> [] -> prove R p' skipLast' js' rs' = (Ok (g', J'), q') ->
  nth_error (mp_priv R p) i = Some x -> nth_error (mp_priv R p') k = Some x -> rs i = rs' k ->
  nth_error (nth (mp_index R q) (sg_r R g) []) i = Some r -> nth_error (nth (mp_index R q') (sg_r R g') []) k = Some r' ->
  ml_at R g J (mp_index R q) <> ml_at R g' J' (mp_index R q') ->
  x = from_two (ml_at R g J (mp_index R q)) (ml_at R g' J' (mp_index R q')) r r'.
Proof.
  intros S HM E S' HM' E'. exact (one_key p p' skipLast skipLast' js js' rs rs' g g' J J' q q' (session_inv _ _ _ S) (session_inv _ _ _ S') HM HM' E E' i k x r r').
Qed.
Print Assumptions C113_mlsag.
(** All random scalars repeated, as after copying the state of a machine, and the same shuffle of a ring of the same size,
    as within the same second (C104): all rows of responses but that of the signer are equal, so the two signatures
    alone tell who signed, and [stolen] finds all private keys of the signer. *)
Theorem C113_mlsag_stolen R bops ops p skipLast js rs g J q bops' ops' p' skipLast' g' J' q' :
  session bops ops = Ok p -> mp_matrix R p <> [] -> prove R p skipLast js rs = (Ok (g, J), q) ->
  session bops' ops' = Ok p' -> mp_matrix R p' <> [] -> prove R p' skipLast' js rs = (Ok (g', J'), q') ->
  mp_priv R p = mp_priv R p' -> (exists x, In x (mp_priv R p) /\ x <> f0) ->
  length (mp_matrix R p) = length (mp_matrix R p') ->
  Forall (fun row => pk_decoy R row = true) (mp_matrix R p) -> Forall (fun row => pk_decoy R row = true) (mp_matrix R p') ->
  let s := place (length (mp_matrix R p) + 1) (drawn (length (mp_matrix R p) + 1) js) in
  (forall i, i <> s -> i < length (sg_r R g) -> i < length (sg_r R g') -> nth_error (sg_r R g) i = nth_error (sg_r R g') i) /\
  (ml_at R g J s <> ml_at R g' J' s -> first_difference R g g' = Some s /\ stolen R g J g' J' = Some (mp_priv R p)).
Proof.
  intros S HM E S' HM' E' EP NZ EL D D'. cbv zeta.
  assert (ES : mp_index R q = mp_index R q') by (rewrite (index_place p skipLast js rs g J q E D), (index_place p' skipLast' js rs g' J' q' E' D'), EL; reflexivity).
  rewrite <- (index_place p skipLast js rs g J q E D). split.
  - intros i. exact (other_rows p p' skipLast skipLast' js js rs rs g g' J J' q q' (session_inv _ _ _ S) (session_inv _ _ _ S') HM HM' E E' EP (fun _ => eq_refl) ES i).
  - exact (all_keys p p' skipLast skipLast' js js rs rs g g' J J' q q' (session_inv _ _ _ S) (session_inv _ _ _ S') HM HM' E E' EP (fun _ => eq_refl) ES NZ).
Qed.
Print Assumptions C113_mlsag_stolen.

(** Range proofs: with repeated random scalars the difference of two values is no longer blinded, *)
Theorem C113_range_difference R (OK : rist_ok R) v v' d d' rs m0 m0' p p' m m' i C C' :
  grun (Prove R v d rs) m0 = (Ok p, m) -> grun (Prove R v' d' rs) m0' = (Ok p', m') ->
  nth_error (pf_V R p) i = Some C -> nth_error (pf_V R p') i = Some C' ->
  psub R (c_val R C) (c_val R C') = smul R (fsub (nth i v f0) (nth i v' f0)) (rp_Base R).
Proof. exact (reuse_difference OK v v' d d' rs m0 m0' p p' m m' i C C'). Qed.
Print Assumptions C113_range_difference.
(** and the blinding factor of the bits can be computed from the two proofs, so that a guess of the values can be
    compared with the point A. *)
Theorem C113_range_alpha R (OK : rist_ok R) v v' d d' rs m0 m0' p p' m m' :
  grun (Prove R v d rs) m0 = (Ok p, m) -> grun (Prove R v' d' rs) m0' = (Ok p', m') ->
  pad_size (length v) = pad_size (length v') -> x_of R p <> x_of R p' ->
  alpha_of R p p' = rs (pad_size (length v)) /\
  pf_A R p = vec_commit R low_byte rp_seed (alpha_of R p p') [allbits (padded v); map (fun a => fsub a f1) (allbits (padded v))].
Proof. exact (reuse_alpha OK v v' d d' rs m0 m0' p p' m m'). Qed.
Print Assumptions C113_range_alpha.

(** key 3, two messages, the same random scalars *)
Example C113_ex_blsag :
  match Sign toy (opt_raw toy) [x01] [Some (of_Z 8 : pt toy)] (of_Z 3) 0 ex_rs, Sign toy (opt_raw toy) [x02] [Some (of_Z 8 : pt toy)] (of_Z 3) 0 ex_rs with
  | Ok g, Ok g' => (feqb (bl_at toy (opt_raw toy) [x01] g 0) (bl_at toy (opt_raw toy) [x02] g' 0),
      to_Z (from_two (bl_at toy (opt_raw toy) [x01] g 0) (bl_at toy (opt_raw toy) [x02] g' 0) (nth 0 (rs_S _ _ g) f0) (nth 0 (rs_S _ _ g') f0))) = (false, 3%Z)
  | _, _ => False end.
Proof. vm_compute. reflexivity. Qed.
Definition ex_session (msg : bytes) : mproof toy :=
  match session (R := toy) [BOp (mkPK toy false [of_Z 7]); BMsg msg; BSecret (of_Z 3)] [] with Ok p => p | _ => mp_new end.
Example C113_ex_mlsag :
  match fst (prove toy (ex_session [x01]) false (fun i => i) ex_rs), fst (prove toy (ex_session [x02]) false (fun i => i) ex_rs) with
  | Ok (g, J), Ok (g', J') => match stolen toy g J g' J' with Some l => map to_Z l = [3]%Z | None => False end
  | _, _ => False end.
Proof. vm_compute. reflexivity. Qed.
