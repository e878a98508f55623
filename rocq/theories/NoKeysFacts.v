(** MLSAG without private keys *)
From Coq Require Import String ZArith List Lia Bool Arith Permutation.
From Coq Require Import Init.Byte.
From Verif Require Import GoModel GoFacts Fld Rist RistFacts SpecVector VectorFacts PedersenFacts SpecMlsag MlsagModel MlsagSessions MlsagFacts MlsagProve MlsagProps.
Import ListNotations.
Local Open Scope nat_scope.

Section NoKeys.
Context {R : rist} (OK : rist_ok R).
Lemma no_keys_rows p sk rs sg J : mp_priv R p = [] -> prove_shuffled R p sk rs = Ok (sg, J) ->
  sg_pub R sg = mp_matrix R p /\ sg_msg R sg = mp_msg R p /\ length (sg_r R sg) = length (mp_matrix R p) /\ Forall (fun r => r = []) (sg_r R sg) /\ sk = false /\ J = [].
Proof.
  intros HP. unfold prove_shuffled. rewrite HP. cbn [length]. destruct (negb _); [discriminate|]. unfold calculateKeyImages. rewrite HP. cbn [length for_loop bind].
  destruct sk; cbn [negb bind]; [discriminate|].
  pose proof (generateResponses_shape (fun i => rs (0 + i)) (length (mp_matrix R p)) 0 (mp_index R p)) as G. cbv zeta in G.
  set (rows := generateResponses _ _ _ _) in *. destruct G as [G1 G2]. intros E.
  repeat match type of E with bind ?r _ = _ => destruct r eqn:?; cbn [bind] in E; try discriminate E | (let (_, _) := ?z in _) = _ => destruct z end.
  injection E as <- <-. cbn [sg_pub sg_msg sg_r].
  match goal with H : set_idx rows ?s [] = Ok ?l |- _ => rename H into HS; rename l into rows' end.
  assert (HL : mp_index R p < length rows). { unfold set_idx in HS. destruct (Nat.ltb_spec (mp_index R p) (length rows)); [assumption|discriminate]. }
  rewrite set_idx_ok in HS by exact HL. injection HS as <-. rewrite upd_length. repeat split; auto.
  apply Forall_forall. intros r Hin. apply In_nth_error in Hin. destruct Hin as [i Ei].
  destruct (Nat.eq_dec (mp_index R p) i) as [<-|N]; [rewrite upd_same in Ei by exact HL; injection Ei as <-; reflexivity|].
  rewrite upd_other in Ei by congruence. apply G2 in Ei. destruct (Nat.eqb i _); destruct r; cbn in Ei; congruence.
Qed.
Lemma no_keys_verify s J : sg_pub R s <> [] -> sg_r R s <> [] -> J <> [] -> Forall (fun r => r = []) (sg_r R s) ->
  sig_Verify R s J = Panic.
Proof.
  intros HP HR HJ HF. unfold sig_Verify. destruct (sg_pub R s) as [|k pub] eqn:EP; [congruence|]. destruct (sg_r R s) as [|r rows] eqn:ER; [congruence|].
  destruct J as [|I J]; [congruence|]. cbn [length Nat.eqb orb]. set (n := S (length rows)).
  replace (n + 2) with (S (n + 1)) by lia. cbn [ring_loop]. rewrite Nat.mod_0_l by (unfold n; lia). cbn [Nat.eqb].
  set (q := prev_index _ n). destruct (idx (r :: rows) q) as [x|e|] eqn:E1; cbn [bind].
  2:{ unfold idx in E1. destruct (nth_error _ _); discriminate. }
  2:reflexivity.
  assert (x = []). { unfold idx in E1. destruct (nth_error (r :: rows) q) eqn:E; [|discriminate]. injection E1 as <-. rewrite Forall_forall in HF. apply HF. exact (nth_error_In _ _ E). }
  subst x. destruct (idx (k :: pub) q) as [y|e|] eqn:E2; cbn [bind].
  2:{ unfold idx in E2. destruct (nth_error _ _); discriminate. }
  2:reflexivity.
  unfold generateChallenge, pk_Len. destruct (pk_keys R y) as [|K Ks]; cbn [length for_loop bind]; [|reflexivity]. reflexivity.
Qed.
Lemma no_keys_ragged p sk js rs : minv p -> mp_priv R p = [] -> Exists (fun row => pk_keys R row <> []) (mp_matrix R p) ->
  fst (prove R p sk js rs) = Err "all vectors in the pubkey matrix must be the same size"%string.
Proof.
  intros I0 HP HX. apply prove_irregular; [exact I0|]. unfold regular. rewrite HP. intros F. rewrite Forall_forall in F.
  apply Exists_exists in HX. destruct HX as (row & Hin & Hl). apply Hl. specialize (F row Hin). destruct (pk_keys R row); [reflexivity|discriminate].
Qed.
Lemma no_keys_panics p js rs : minv p -> mp_priv R p = [] -> Forall (fun row => pk_keys R row = []) (mp_matrix R p) ->
  fst (prove R p true js rs) = Panic.
Proof.
  intros I0 HP HF. assert (HR : regular p). { unfold regular. rewrite HP. revert HF. apply Forall_impl. intros row ->. reflexivity. }
  destruct (prove_snd p true js rs) as [p' [_ [S E]]]. rewrite E. cbn [fst]. destruct (shuffled_ring p p' I0 S HR) as [G1 _]. destruct S as [S1 _].
  unfold prove_shuffled. replace (forallb _ (mp_matrix R p')) with true.
  - cbn [negb]. unfold calculateKeyImages. rewrite S1, HP. reflexivity.
  - symmetry. apply forallb_forall. intros row Hin. apply In_nth_error in Hin. destruct Hin as [i Ei]. apply Nat.eqb_eq. exact (G1 i row Ei).
Qed.
Lemma no_keys_signs p js rs : minv p -> mp_priv R p = [] -> Forall (fun row => pk_keys R row = []) (mp_matrix R p) ->
  exists sg, fst (prove R p false js rs) = Ok (sg, []).
Proof.
  intros I0 HP HF. assert (HR : regular p). { unfold regular. rewrite HP. revert HF. apply Forall_impl. intros row ->. reflexivity. }
  destruct (mp_matrix R p) as [|k m] eqn:EM.
  - unfold prove, addSignerPubKey, addPubKeys, shuffleSet. cbn [mp_matrix]. rewrite EM. cbn [app]. unfold shuffle. cbn [length Nat.sub for_loop find_signer pk_decoy negb].
    destruct I0 as [I1 _]. rewrite HP in I1. cbn [mp_index mp_priv mp_signer mp_msg]. rewrite I1.
    unfold prove_shuffled, calculateKeyImages. cbn [mp_index mp_priv mp_signer mp_msg mp_matrix]. rewrite HP. cbn. eexists. reflexivity.
  - destruct (prove_regular OK p false js rs I0 HR) as (sg & E & _); [congruence|reflexivity|]. rewrite HP in E. exists sg. exact E.
Qed.
Lemma no_keys_result p sk js rs sg J p' : minv p -> mp_priv R p = [] -> prove R p sk js rs = (Ok (sg, J), p') ->
  J = [] /\ sig_Verify R sg [] = Err "cannot have zero length for responses, pubkeys or key images"%string /\
  forall J', J' <> [] -> sig_Verify R sg J' = Panic.
Proof.
  intros I0 HP E. destruct (prove_snd p sk js rs) as [q [_ [S E']]]. rewrite E' in E. injection E as E _. destruct S as (S1 & _ & _ & S4 & _).
  destruct (no_keys_rows q sk rs sg J) as (A & _ & B & C & _ & D); [congruence|exact E|]. split; [exact D|].
  assert (NM : length (mp_matrix R q) <> 0). { rewrite <- (Permutation_length S4), app_length. cbn [length]. lia. }
  split.
  - unfold sig_Verify. cbn [length Nat.eqb]. rewrite orb_true_r. reflexivity.
  - intros J' HJ. apply no_keys_verify; auto; intros N; [rewrite A in N|]; rewrite N in *; cbn [length] in *; lia.
Qed.
End NoKeys.

(** ** A dual key session with further secrets *)
Section More.
Context {R : rist} (OK : rist_ok R).
Definition dk_with (d : dualkey R) (xs : list F) : Prop :=
  mp_priv R (dk_proof R d) = xs /\ pk_keys R (mp_signer R (dk_proof R d)) = pubs xs /\
  Forall (fun row => pk_decoy R row = true) (mp_matrix R (dk_proof R d)).
Lemma dk_with_step o d d' xs : dk_with d xs -> dk_shape d -> quiet o -> run_dop o d = Ok d' -> dk_with d' (xs ++ secret_of o).
Proof.
  intros [F1 [F2 F3]] [[k0 [k1 EK]] _] HS E. destruct o as [k|x|m|x|x|q|js rs]; cbn [run_dop quiet secret_of] in *; try contradiction; rewrite ?app_nil_r.
  - injection E as <-. split; [exact F1|]. split; [exact F2|]. cbn. apply Forall_app. split; [exact F3|]. constructor; [reflexivity|constructor].
  - injection E as <-. unfold dk_with, on_proof. cbn [dk_proof AddSecret mp_priv mp_signer mp_matrix AddPubKey pk_keys]. rewrite F1, F2. split; [reflexivity|]. split; [|exact F3].
    unfold pubs. rewrite map_app. reflexivity.
  - injection E as <-. split; [exact F1|]. split; [exact F2|exact F3].
  - unfold SetPrimaryKey in E. rewrite EK in E. cbn in E. injection E as <-. split; [exact F1|]. split; [exact F2|exact F3].
  - unfold SetCommToZero in E. rewrite EK in E. cbn in E. injection E as <-. split; [exact F1|]. split; [exact F2|exact F3].
  - assert (F : Forall (fun row => 2 <= length (pk_keys R row)) (mp_matrix R (dk_proof R d))).
    { destruct (Forall_dec (fun row => 2 <= length (pk_keys R row)) (fun row => le_dec 2 (length (pk_keys R row))) (mp_matrix R (dk_proof R d))) as [F|F]; [exact F|].
      rewrite (Sub_panic d q) in E by exact F. discriminate. }
    rewrite (Sub_ok d q) in E by exact F. injection E as <-. split; [exact F1|]. split; [exact F2|]. cbn [dk_proof mp_matrix]. apply Forall_map. exact F3.
Qed.
Lemma dk_with_run ops : forall d d' xs, dk_with d xs -> dk_shape d -> Forall quiet ops -> run_all run_dop ops d = Ok d' -> dk_with d' (xs ++ secrets ops).
Proof.
  induction ops as [|o ops IH]; intros d d' xs S H HF E; cbn [run_all] in E; [injection E as <-; cbn; rewrite app_nil_r; exact S|]. inversion HF; subst.
  destruct (run_dop o d) as [d1|e|] eqn:E1; cbn [bind] in E; try discriminate. unfold secrets. cbn [flat_map]. rewrite app_assoc.
  apply (IH d1 d'); eauto using dk_with_step, dk_shape_step.
Qed.
Lemma dk_with_inv d xs k0 k1 : dk_with d xs -> let p := AddSecret R (AddSecret R (dk_proof R d) k0) k1 in
  minv p /\ mp_priv R p = xs ++ [k0; k1] /\ mp_matrix R p = mp_matrix R (dk_proof R d).
Proof.
  intros [F1 [F2 F3]]. cbv zeta. unfold minv, AddSecret, AddPubKey. cbn [mp_priv mp_signer mp_matrix pk_keys pk_decoy]. rewrite F1, F2, <- !app_assoc. cbn [app].
  split; [|auto]. split; [unfold pubs; rewrite map_app; reflexivity|]. revert F3. apply Forall_impl. intros row H C. congruence.
Qed.
Lemma dk_more d xs k0 k1 l js rs : dk_with d xs -> xs <> [] -> dk_keys R d = k0 :: k1 :: l -> k0 <> f0 -> k1 <> f0 ->
  let m := mp_matrix R (dk_proof R d) in let r := fst (dk_Prove R d js rs) in
  (m = [] -> r = Panic) /\
  (Exists (fun row => length (pk_keys R row) <> length xs + 2) m -> r = Err "all vectors in the pubkey matrix must be the same size"%string) /\
  (m <> [] -> Forall (fun row => length (pk_keys R row) = length xs + 2) m -> r = Err "dual key mlsag must only contain one key image"%string).
Proof.
  intros HF NX EK N0 N1 m r. destruct (dk_with_inv d xs k0 k1 HF) as [I0 [EP EM]]. unfold r, dk_Prove. rewrite EK.
  destruct (feqb_spec k0 f0) as [C|_]; [contradiction|]. destruct (feqb_spec k1 f0) as [C|_]; [contradiction|]. cbn [orb].
  set (p := AddSecret R (AddSecret R (dk_proof R d) k0) k1) in *. assert (LP : length (mp_priv R p) = length xs + 2) by (rewrite EP, app_length; reflexivity).
  split; [|split].
  - intros HM. assert (X : fst (prove R p true js rs) = Panic) by (apply (prove_alone p true js rs I0); [rewrite EM; exact HM|intros C; rewrite C in LP; cbn in LP; lia]).
    destruct (prove R p true js rs) as [r' p']. cbn [fst] in X. subst r'. reflexivity.
  - intros HX. assert (N : ~ regular p).
    { unfold regular. rewrite EM, LP. intros F. rewrite Forall_forall in F. apply Exists_exists in HX. destruct HX as (row & Hin & Hl). apply Hl, F, Hin. }
    pose proof (prove_irregular p true js rs I0 N) as X. destruct (prove R p true js rs) as [r' p']. cbn [fst] in X. subst r'. reflexivity.
  - intros HM HR. destruct (prove_regular OK p true js rs) as [sg [E _]].
    + exact I0.
    + unfold regular. rewrite EM, LP. exact HR.
    + rewrite EM. exact HM.
    + rewrite LP. destruct (length xs + 2) eqn:E; [lia|reflexivity].
    + rewrite EP in E. cbn [images] in E.
      assert (L : length (removelast (map (key_image R) (xs ++ [k0; k1]))) = length xs + 1).
      { replace (xs ++ [k0; k1]) with ((xs ++ [k0]) ++ [k1]) by (rewrite <- app_assoc; reflexivity). rewrite map_app. cbn [map]. rewrite removelast_last, map_length, app_length. reflexivity. }
      destruct (prove R p true js rs) as [r' p']. cbn [fst] in E. subst r'. cbn [fst].
      destruct (removelast _) as [|i [|i' J]]; [reflexivity| |reflexivity]. destruct xs; [congruence|cbn in L; lia].
Qed.
Lemma dk_with_new : dk_with (NewDualKey R) []. Proof. split; [reflexivity|]. split; [reflexivity|constructor]. Qed.
End More.
