(** Proofs about PedersenModel.v *)
From Coq Require Import String ZArith List Lia Bool Arith Field.
From Coq Require Import Init.Byte Strings.Byte.
From Verif Require Import GoModel GoFacts ReadModel ReadFacts Fld Rist RistFacts SpecVector VectorModel VectorFacts
  PedersenModel SpecPedersen.
Import ListNotations.
Local Open Scope nat_scope.

Section Facts.
Context {R : rist} (OK : rist_ok R).
Local Notation "p [+] q" := (padd R p q) (at level 50, left associativity).
Local Notation "s [*] p" := (smul R s p) (at level 40, left associativity).

(** ** Generators *)
Definition last_seed (seed : bytes) (l : list (pt R)) : bytes :=
  match rev l with [] => seed | p :: _ => pbytes R p end.

Lemma chain_length seed n : length (chain R seed n) = n.
Proof. revert seed. induction n as [|n IH]; intros seed; cbn; [reflexivity|]. rewrite IH. reflexivity. Qed.

Lemma last_seed_cons seed p l : last_seed seed (p :: l) = last_seed (pbytes R p) l.
Proof.
  unfold last_seed. cbn [rev]. destruct (rev l) as [|q r]; reflexivity.
Qed.

Lemma chain_app seed a b : chain R seed (a + b) = chain R seed a ++ chain R (last_seed seed (chain R seed a)) b.
Proof.
  revert seed. induction a as [|a IH]; intros seed; [reflexivity|].
  cbn [Nat.add chain app]. rewrite IH, last_seed_cons. reflexivity.
Qed.

Lemma gen_Iterate_ok (g : generator R) : gen_Iterate R g = Ok (pderive R (last_seed (g_data R g) (g_bases R g))).
Proof.
  unfold gen_Iterate, last_seed. destruct (g_bases R g) as [|p l] using rev_ind.
  - reflexivity.
  - rewrite rev_app_distr. cbn [rev app]. rewrite app_length. cbn [length].
    replace (length l + 1) with (S (length l)) by lia. cbn [Nat.eqb Nat.sub]. rewrite Nat.sub_0_r.
    unfold idx. rewrite nth_error_app2 by lia. rewrite Nat.sub_diag. reflexivity.
Qed.

Lemma gen_Compute_ok data k n :
  gen_Compute R n (mkGen R data (chain R data k)) = Ok (mkGen R data (chain R data (k + n))).
Proof.
  unfold gen_Compute. generalize 0 as lo. revert k. induction n as [|n IH]; intros k lo; cbn [for_loop].
  - rewrite Nat.add_0_r. reflexivity.
  - rewrite gen_Iterate_ok. cbn [bind g_data g_bases].
    replace (chain R data k ++ [pderive R (last_seed data (chain R data k))]) with (chain R data (k + 1))
      by (rewrite chain_app; reflexivity).
    rewrite IH. f_equal. f_equal. f_equal. lia.
Qed.

Definition gen_run1 (r : res (generator R)) (op : gen_op) : res (generator R) :=
  let! g := r in match op with OpCompute n => gen_Compute R n g | OpClear => Ok (gen_Clear R g) end.

Lemma gen_history data ops : forall k,
  fold_left gen_run1 ops (Ok (mkGen R data (chain R data k))) = Ok (mkGen R data (chain R data (computed k ops))).
Proof.
  induction ops as [|[n|] ops IH]; intros k; cbn [fold_left computed gen_run1 bind].
  - reflexivity.
  - rewrite gen_Compute_ok. apply IH.
  - apply (IH 0).
Qed.

(** ** Commitments to vectors *)
Definition ped_ok (data : bytes) (p : pedersen R) : Prop :=
  p_data R p = data /\ p_blind R p = pbase R /\ (exists k, p_gens R p = mkGen R data (chain R data k)).

Lemma ped_New_ok data : ped_ok data (ped_New R data).
Proof. split; [reflexivity|]. split; [reflexivity|]. exists 0. reflexivity. Qed.

Lemma commit_loop l : forall bases sum, length l <= length bases ->
  for_loop 0 (length l) (fun i sum => let! bi := idx l i in let! Hi := idx bases i in
      Ok (padd R sum (smul R bi Hi))) sum = Ok (sum [+] msm R l bases).
Proof.
  induction l as [|x l IH]; intros [|p bases] sum L; cbn [length] in L; try lia.
  - cbn. f_equal. symmetry. apply (padd_0_r OK).
  - cbn. f_equal. symmetry. apply (padd_0_r OK).
  - cbn [length for_loop idx nth_error bind].
    rewrite (for_loop_shift _ (fun i sum => let! bi := idx l i in let! Hi := idx bases i in
         Ok (padd R sum (smul R bi Hi))) _ 0) by reflexivity.
    rewrite IH by lia. rewrite msm_cons. f_equal. symmetry. apply (padd_assoc R OK).
Qed.

Lemma commitToScalars_ok data p blind l : ped_ok data p -> (Z.of_nat (length l) < 2 ^ 32)%Z ->
  exists p', commitToScalars R p blind l =
    Ok (p', match blind with Some b => b [*] pbase R | None => pt0 R end [+] vec_term R data l) /\
    ped_ok data p' /\ p_base R p' = p_base R p.
Proof.
  intros [D [B [k G]]] L. unfold commitToScalars. rewrite G. cbn [g_bases].
  rewrite chain_length.
  destruct (Nat.ltb_spec k (length l)) as [C|C].
  - unfold u32. rewrite Z.mod_small by lia. rewrite Nat2Z.id. rewrite gen_Compute_ok.
    cbn [bind p_gens g_bases]. replace (k + (length l - k)) with (length l) by lia.
    rewrite commit_loop by (rewrite chain_length; lia). cbn [bind].
    eexists. split; [f_equal; f_equal|].
    + unfold vec_term. f_equal. rewrite B. destruct blind; [apply (padd_0_l R OK)|reflexivity].
    + split; [|reflexivity]. split; [exact D|]. split; [exact B|]. eexists. reflexivity.
  - cbn [bind p_gens g_bases]. rewrite commit_loop by (rewrite chain_length; lia). cbn [bind].
    eexists. split; [f_equal; f_equal|].
    + unfold vec_term. rewrite B. f_equal; [destruct blind; [apply (padd_0_l R OK)|reflexivity]|].
      replace k with (length l + (k - length l)) by lia. rewrite chain_app.
      apply msm_more. rewrite chain_length. lia.
    + split; [|reflexivity]. split; [exact D|]. split; [exact B|]. eexists. reflexivity.
Qed.

Lemma vectors_loop data blind vs : forall pre p sum, ped_ok data p -> pre <> [] ->
  Forall (fun v => (Z.of_nat (length v) < 2 ^ 32)%Z) vs ->
  for_loop (length pre) (length vs) (fun i '(p, sum) =>
      let! vector := idx (pre ++ vs) i in
      if Nat.eqb i 0 then
        let! (p, commit) := commitToScalars R p (Some blind) vector in
        Ok (p, padd R sum commit)
      else
        let ped2 := ped_New R (p_data R p ++ [Z_byte (Z.of_nat i)]) in
        let! (_, commit) := commitToScalars R ped2 None vector in
        Ok (p, padd R sum commit)) (p, sum) =
  Ok (p, sum [+] vec_terms R low_byte data (length pre) vs).
Proof.
  induction vs as [|v vs IH]; intros pre p sum HP HN HF.
  - cbn. f_equal. f_equal. symmetry. apply (padd_0_r OK).
  - inversion HF as [|v' vs' Hv Hvs]; subst. cbn [length for_loop].
    unfold idx at 1. rewrite nth_error_app2 by lia. rewrite Nat.sub_diag. cbn [nth_error bind].
    destruct (Nat.eqb_spec (length pre) 0) as [Z|Z]; [destruct pre; [contradiction|discriminate]|].
    cbv zeta. destruct (commitToScalars_ok (p_data R p ++ [Z_byte (Z.of_nat (length pre))])
      (ped_New R (p_data R p ++ [Z_byte (Z.of_nat (length pre))])) None v (ped_New_ok _) Hv) as [p2 [E [_ _]]].
    rewrite E. cbn [bind].
    specialize (IH (pre ++ [v]) p
      (sum [+] (pt0 R [+] vec_term R (p_data R p ++ [Z_byte (Z.of_nat (length pre))]) v)) HP).
    rewrite app_length in IH. cbn [length] in IH. rewrite Nat.add_1_r in IH.
    rewrite <- app_assoc in IH. cbn [app] in IH. rewrite IH; [|destruct pre; discriminate|exact Hvs].
    f_equal. f_equal. cbn [vec_terms]. destruct HP as [-> _].
    unfold low_byte. rewrite (padd_0_l R OK). symmetry. apply (padd_assoc R OK).
Qed.

Lemma CommitToVectors_ok data p blind vs : ped_ok data p ->
  Forall (fun v => (Z.of_nat (length v) < 2 ^ 32)%Z) vs ->
  exists p', CommitToVectors R p blind vs = Ok (p', mkCom R (vec_commit R low_byte data blind vs) blind) /\
    ped_ok data p' /\ p_base R p' = p_base R p.
Proof.
  intros HP HF. unfold CommitToVectors. destruct vs as [|v vs].
  - cbn. exists p. auto.
  - inversion HF as [|v' vs' Hv Hvs]; subst. cbn [length for_loop idx nth_error bind Nat.eqb].
    destruct (commitToScalars_ok data p (Some blind) v HP Hv) as [p' [E [HP' HB]]]. rewrite E. cbn [bind].
    pose proof (vectors_loop data blind vs [v] p'
      (pt0 R [+] (blind [*] pbase R [+] vec_term R data v)) HP' ltac:(discriminate) Hvs) as HL.
    cbn [length app] in HL. rewrite HL. cbn [bind].
    exists p'. split; [|auto]. cbn [vec_commit]. rewrite (padd_0_l R OK). reflexivity.
Qed.

(** ** Transcripts *)
Lemma hc_Append_concat h vals : hc_Append h vals = h ++ concat vals.
Proof.
  unfold hc_Append. revert h. induction vals as [|x vals IH]; intros h; cbn.
  - symmetry. apply app_nil_r.
  - rewrite IH. symmetry. apply app_assoc.
Qed.
Definition hc_run1 (h : cacher) (op : hc_op) : cacher :=
  match op with HAppend vs => hc_Append h vs | HClear => hc_Clear h end.
Lemma hc_history ops : forall acc, fold_left hc_run1 ops (concat acc) = concat (since acc ops).
Proof.
  induction ops as [|[vs|] ops IH]; intros acc; cbn [fold_left since hc_run1].
  - reflexivity.
  - rewrite hc_Append_concat, <- concat_app. apply IH.
  - apply (IH []).
Qed.
Lemma concat_fixed_inj (n : nat) (a b : list bytes) : n <> 0 ->
  Forall (fun x => length x = n) a -> Forall (fun x => length x = n) b -> concat a = concat b -> a = b.
Proof.
  intros Hn Ha. revert b. induction Ha as [|x a Hx Ha IH]; intros b Hb E.
  - destruct b as [|y b]; [reflexivity|]. inversion Hb; subst. cbn in E. destruct y; [cbn in *; lia|discriminate].
  - destruct b as [|y b].
    + cbn in E. destruct x; [cbn in *; lia|discriminate].
    + inversion Hb as [|y' b' Hy Hb']; subst y' b'. cbn in E.
      assert (E1 : x = y).
      { apply (f_equal (firstn n)) in E.
        rewrite !firstn_app, Hx, Hy, Nat.sub_diag in E. cbn [firstn] in E. rewrite !app_nil_r in E.
        rewrite !firstn_all2 in E by lia. exact E. }
      subst y. apply app_inv_head in E. f_equal. apply IH; assumption.
Qed.

(** ** Codec of commitments *)
Definition coms_enc (cs : list (commitment R)) : bytes := concat (coms_chunks R cs).
Definition strip_blind (c : commitment R) : commitment R := mkCom R (c_val R c) f0.

Lemma reads_com c : reads (com_Decode R (com_zero R)) (pbytes R (c_val R c)) (strip_blind c).
Proof.
  unfold com_Decode. rewrite <- (app_nil_r (pbytes R (c_val R c))).
  eapply (reads_bind (r_bytes 32)).
  - apply reads_bytes. apply (pbytes_len R OK).
  - rewrite (pset_pbytes R OK). apply reads_ret.
Qed.

Lemma coms_enc_eq cs : coms_enc cs = put_u32 (u32 (Z.of_nat (length cs))) ++
  concat (map (fun c => pbytes R (c_val R c)) cs).
Proof.
  unfold coms_enc, coms_chunks. cbn [concat]. f_equal.
  induction cs as [|c cs IH]; [reflexivity|]. cbn. rewrite IH. reflexivity.
Qed.

Lemma fold_snoc (A B : Type) (f : A -> B) l : forall lo acc,
  snd (fold_left (fun '(i, s) x => (1 + i, s ++ [f x])) l (lo, acc)) = acc ++ map f l.
Proof.
  induction l as [|x l IH]; intros lo acc; cbn [fold_left map].
  - symmetry. apply app_nil_r.
  - rewrite IH, <- app_assoc. reflexivity.
Qed.

Lemma reads_coms cs : (Z.of_nat (length cs) < 2 ^ 32)%Z ->
  reads (DecodeCommitments R) (coms_enc cs) (map strip_blind cs).
Proof.
  intros L. rewrite coms_enc_eq. unfold DecodeCommitments.
  eapply (reads_bind r_u32).
  - apply reads_u32.
  - unfold u32. rewrite Z.mod_mod by lia. rewrite Z.mod_small by lia. rewrite Nat2Z.id.
    apply reads_alloc.
    rewrite <- (app_nil_l (map strip_blind cs)).
    rewrite <- (fold_snoc _ _ strip_blind cs 0 []).
    apply (reads_for _ (fun c => pbytes R (c_val R c)) (fun i s x => s ++ [strip_blind x])).
    intros i s x _ _. rewrite <- (app_nil_r (pbytes R (c_val R x))).
    eapply (reads_bind (com_Decode R (com_zero R))).
    + apply reads_com.
    + apply reads_ret.
Qed.

Lemma strict_com c : strict res_good (com_Decode R c).
Proof.
  unfold com_Decode. apply (strict_rbind (r_bytes 32)); [apply strict_r_bytes|].
  intros b. destruct (pset R b); cbn; auto.
Qed.
Lemma strict_coms : strict res_good (DecodeCommitments R).
Proof.
  unfold DecodeCommitments. apply (strict_rbind r_u32); [apply strict_r_u32|].
  intros n. cbn [strict]. apply strict_r_for. intros i s.
  apply (strict_rbind (com_Decode R (com_zero R))); [apply strict_com|]. cbn. auto.
Qed.
End Facts.
