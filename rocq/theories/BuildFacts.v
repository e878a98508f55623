(** Facts about the calls of SpecBuild.v *)
From Coq Require Import String ZArith List Lia Bool Arith Permutation.
From Verif Require Import GoModel GoFacts Fld Rist RistFacts SpecVector SpecMlsag MlsagModel MlsagSessions MlsagFacts MlsagProve MlsagProps SpecBuild.
Import ListNotations.
Local Open Scope nat_scope.

Section Build.
Context {R : rist}.
Definition decoy_of (ks : list (pt R)) : pubkeys R := mkPK R true ks.
Lemma decoys_matrix ks : forall p : mproof R, AddDecoys R p ks =
  mkMP R (mp_index R p) (mp_priv R p) (mp_signer R p) (mp_matrix R p ++ map decoy_of (map (pk_keys R) ks)) (mp_msg R p).
Proof.
  unfold AddDecoys. induction ks as [|k ks IH]; intros p; cbn [fold_left map]; [rewrite app_nil_r; destruct p; reflexivity|].
  rewrite IH. unfold AddDecoy, addPubKeys. cbn [mp_index mp_priv mp_signer mp_matrix mp_msg]. rewrite <- app_assoc. reflexivity.
Qed.
Lemma last_cons {A} (x : A) l d : last (x :: l) d = last l x.
Proof. revert x d. induction l as [|y l IH]; intros x d; [reflexivity|]. rewrite IH. change (last (x :: y :: l) d) with (last (y :: l) d). apply IH. Qed.
Lemma run_adds l : forall p : mproof R, fold_left run_add l p =
  mkMP R (mp_index R p) (mp_priv R p ++ given l) (mkPK R (pk_decoy R (mp_signer R p)) (pk_keys R (mp_signer R p) ++ map (fun x => smul R x (pbase R)) (given l)))
    (mp_matrix R p ++ map decoy_of (members l)) (last (messages l) (mp_msg R p)).
Proof.
  induction l as [|a l IH]; intros p; cbn [fold_left]; [unfold given, members, messages; cbn [flat_map map last]; rewrite !app_nil_r; destruct p as [? ? [? ?] ? ?]; reflexivity|].
  rewrite IH. unfold given, members, messages. destruct a as [k|ks|x|m]; cbn [run_add flat_map app map].
  - unfold AddDecoy, addPubKeys. cbn [mp_index mp_priv mp_signer mp_matrix mp_msg]. rewrite <- app_assoc. reflexivity.
  - rewrite decoys_matrix. cbn [mp_index mp_priv mp_signer mp_matrix mp_msg]. rewrite <- app_assoc, <- map_app. reflexivity.
  - unfold AddSecret, AddPubKey, privKeyToPubKey. cbn [mp_index mp_priv mp_signer mp_matrix mp_msg pk_decoy pk_keys]. rewrite <- !app_assoc. reflexivity.
  - rewrite last_cons. reflexivity.
Qed.
Lemma built_is l : built l = mkMP R 0 (given l) (mkPK R false (map (fun x => smul R x (pbase R)) (given l))) (map decoy_of (members l)) (last (messages l) []).
Proof. unfold built. rewrite run_adds. reflexivity. Qed.
Lemma built_minv l : minv (R := R) (built l).
Proof.
  rewrite built_is. split; [reflexivity|]. cbn [mp_matrix]. apply Forall_forall. intros row H. apply in_map_iff in H. destruct H as [k [<- _]]. discriminate.
Qed.
Lemma built_prove (OK : rist_ok R) l skipLast js rs : given (R := R) l <> [] ->
  (members l = [] -> fst (prove R (built l) skipLast js rs) = Panic) /\
  (Exists (fun ks => length ks <> length (given l)) (members l) ->
     fst (prove R (built l) skipLast js rs) = Err "all vectors in the pubkey matrix must be the same size"%string) /\
  (members l <> [] -> Forall (fun ks => length ks = length (given l)) (members l) ->
   let J := if skipLast then removelast (map (key_image R) (given l)) else map (key_image R) (given l) in
   exists sg, fst (prove R (built l) skipLast js rs) = Ok (sg, J) /\ sg_msg R sg = last (messages l) [] /\
     Permutation (members l ++ [map (fun x => smul R x (pbase R)) (given l)]) (map (pk_keys R) (sg_pub R sg)) /\
     length (sg_r R sg) = length (members l) + 1 /\ (J <> [] -> sig_Verify R sg J = Ok true)).
Proof.
  intros NG. pose proof (built_minv l) as I0. assert (EM : mp_matrix R (built l) = map decoy_of (members l)) by (rewrite built_is; reflexivity).
  assert (EP : mp_priv R (built l) = given l) by (rewrite built_is; reflexivity).
  assert (ES : pk_keys R (mp_signer R (built l)) = map (fun x => smul R x (pbase R)) (given l)) by (rewrite built_is; reflexivity).
  assert (EG : mp_msg R (built l) = last (messages l) []) by (rewrite built_is; reflexivity).
  split; [|split].
  - intros Y. apply (prove_alone _ skipLast js rs I0); [rewrite EM, Y; reflexivity|rewrite EP; exact NG].
  - intros HX. apply (prove_irregular _ skipLast js rs I0). unfold regular. rewrite EM, EP. intros F. rewrite Forall_forall in F.
    apply Exists_exists in HX. destruct HX as (ks & Hin & Hl). apply Hl. exact (F (decoy_of ks) (in_map decoy_of _ _ Hin)).
  - intros NM HF. cbv zeta. destruct (prove_regular OK (built l) skipLast js rs I0) as (sg & E & E1 & E2 & E3 & E4).
    + unfold regular. rewrite EM, EP. apply Forall_forall. intros row H. apply in_map_iff in H. destruct H as [ks [<- H]]. rewrite Forall_forall in HF. exact (HF ks H).
    + rewrite EM. destruct (members l); [congruence|discriminate].
    + rewrite EP. destruct (given l); [congruence|]. destruct skipLast; reflexivity.
    + rewrite EP in E, E4. rewrite EM, map_length in E3. rewrite EG in E2. exists sg. split; [exact E|]. split; [exact E2|]. split; [|split; [exact E3|exact E4]].
      destruct (prove_snd (built l) skipLast js rs) as [p' [_ [S E']]]. rewrite E' in E1. cbn [snd] in E1. rewrite E1.
      destruct S as (_ & _ & _ & P & _). apply (Permutation_map (pk_keys R)) in P. rewrite map_app, EM, map_map in P. cbn [decoy_of pk_keys map] in P.
      rewrite ES, map_id in P. exact P.
Qed.
End Build.
