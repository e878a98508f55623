(** What the decoders accept *)
From Coq Require Import String ZArith List Arith Lia.
From Verif Require Import GoModel GoFacts ReadModel ReadFacts StreamFacts Fld Rist PedersenModel InnerProductModel IPPProps RangeProofModel MlsagModel SpecDecode.
Import ListNotations.
Local Open Scope list_scope.

(** an encoding is determined by its first bytes *)
Definition det {A} (E : bytes -> A -> Prop) : Prop :=
  forall e v e' v' r r', E e v -> E e' v' -> e ++ r = e' ++ r' -> e = e' /\ v = v'.
Definition parses {A} (p : rprog (res A)) (E : bytes -> A -> Prop) : Prop :=
  forall r, fault_free r ->
    (exists v r' e, exec p r = (Ok v, r') /\ fault_free r' /\ rbytes r = e ++ rbytes r' /\ E e v) \/
    (exists err, fst (exec p r) = Err err) /\ forall v rest e, rbytes r = e ++ rest -> ~ E e v.

Lemma parses_decodes {A} (p : rprog (res A)) E : parses p E -> det E -> decodes p E.
Proof.
  intros P D r F. cbv beta zeta. change (fault_free r) in F. rewrite (rbytes_concat r F). destruct (P r F) as [(v & r' & e & X & F' & B & Ev)|((err & X) & N)].
  - split.
    + intros w rest. split.
      * intros (r'' & Y & Z). rewrite X in Y. inversion Y; subst. rewrite (rbytes_concat _ F'). exists e. split; [exact B|exact Ev].
      * intros (e' & B' & Ev'). rewrite B in B'. destruct (D _ _ _ _ _ _ Ev Ev' B') as [<- <-].
        apply app_inv_head in B'. exists r'. rewrite (rbytes_concat _ F'). split; [exact X|exact B'].
    + rewrite X. cbn. split; [intros [? ?]; discriminate|]. intros N. exfalso. exact (N _ _ _ B Ev).
  - split.
    + intros w rest. split.
      * intros (r'' & Y & Z). rewrite Y in X. discriminate.
      * intros (e & B & Ev). exfalso. exact (N _ _ _ B Ev).
    + split; [intros _; exact N|intros _; exists err; exact X].
Qed.

Lemma parses_iff {A} (p : rprog (res A)) E E' : (forall e v, E e v <-> E' e v) -> parses p E -> parses p E'.
Proof.
  intros Q P r F. destruct (P r F) as [(v & r' & e & X & F' & B & Ev)|(X & N)].
  - left. exists v, r', e. rewrite <- Q. auto.
  - right. split; [exact X|]. intros v rest e B. rewrite <- Q. eauto.
Qed.
Lemma det_iff {A} (E E' : bytes -> A -> Prop) : (forall e v, E e v <-> E' e v) -> det E -> det E'.
Proof. intros Q D e v e' v' r r' H H'. rewrite <- Q in H, H'. eauto. Qed.

(** sequencing *)
Definition eseq {A B} (E1 : bytes -> A -> Prop) (E2 : A -> bytes -> B -> Prop) (e : bytes) (v : B) : Prop :=
  exists e1 a e2, e = e1 ++ e2 /\ E1 e1 a /\ E2 a e2 v.
Lemma det_seq {A B} (E1 : bytes -> A -> Prop) (E2 : A -> bytes -> B -> Prop) : det E1 -> (forall a, det (E2 a)) -> det (eseq E1 E2).
Proof.
  intros D1 D2 e v e' v' r r' (e1 & a & e2 & -> & H1 & H2) (e1' & a' & e2' & -> & H1' & H2') Q.
  rewrite <- !app_assoc in Q. destruct (D1 _ _ _ _ _ _ H1 H1' Q) as [<- <-]. apply app_inv_head in Q.
  destruct (D2 _ _ _ _ _ _ _ H2 H2' Q) as [<- <-]. auto.
Qed.
Lemma parses_seq {A C} (p : rprog (res A)) (f : A -> rprog (res C)) E1 E2 :
  parses p E1 -> det E1 -> (forall a, parses (f a) (E2 a)) -> parses (let? a := p in f a) (eseq E1 E2).
Proof.
  intros P1 D1 P2 r F. rewrite exec_rbind. destruct (P1 r F) as [(a & r1 & e1 & X & F1 & B1 & H1)|((err & X) & N)].
  - rewrite X. destruct (P2 a r1 F1) as [(v & r2 & e2 & Y & F2 & B2 & H2)|(Y & N)].
    + left. exists v, r2, (e1 ++ e2). repeat split; auto.
      * rewrite B1, B2, app_assoc. reflexivity.
      * exists e1, a, e2. auto.
    + right. split; [exact Y|]. intros v rest e B (e1' & a' & e2 & -> & H1' & H2). rewrite B1, <- app_assoc in B.
      destruct (D1 _ _ _ _ _ _ H1 H1' B) as [<- <-]. apply app_inv_head in B. exact (N _ _ _ B H2).
  - right. destruct (exec p r) as [q r1] eqn:Eq. cbn in X. subst q. split; [exists err; reflexivity|].
    intros v rest e B (e1' & a' & e2 & -> & H1' & H2). rewrite <- app_assoc in B. exact (N _ _ _ B H1').
Qed.
Definition enil {A} (a : A) (e : bytes) (v : A) : Prop := e = [] /\ v = a.
Lemma det_ret {A} (a : A) : det (enil a).
Proof. intros e v e' v' r r' [-> ->] [-> ->] _. auto. Qed.
Lemma parses_ret {A} (a : A) : parses (rret a) (enil a).
Proof. intros r F. left. exists a, r, []. unfold enil. auto. Qed.
Lemma parses_alloc {A} n (p : rprog (res A)) E : parses p E -> parses (RAlloc n p) E.
Proof. intros H r F. rewrite exec_RAlloc. apply H, F. Qed.

(** reading a fixed number of bytes *)
Definition ebytes (n : nat) (e : bytes) (v : bytes) : Prop := e = v /\ length e = n.
Lemma det_len {A} (E : bytes -> A -> Prop) n : (forall e v, E e v -> length e = n) -> (forall e v v', E e v -> E e v' -> v = v') -> det E.
Proof.
  intros L U e v e' v' r r' H H' Q. assert (e = e').
  { apply (f_equal (firstn n)) in Q. rewrite !firstn_app, (L _ _ H), (L _ _ H'), Nat.sub_diag in Q. cbn [firstn] in Q.
    rewrite !app_nil_r in Q. rewrite <- (L _ _ H) in Q at 1. rewrite firstn_all in Q. rewrite <- (L _ _ H') in Q. rewrite firstn_all in Q. exact Q. }
  subst e'. split; [reflexivity|]. eapply U; eauto.
Qed.
Lemma det_bytes n : det (ebytes n).
Proof. apply (det_len _ n); unfold ebytes; intros; intuition congruence. Qed.
Lemma parses_bytes n : parses (r_bytes n) (ebytes n).
Proof.
  intros r F. destruct (le_lt_dec n (length (rbytes r))) as [L|L].
  - left. destruct (reads_bytes n (firstn n (rbytes r)) (firstn_length_le _ L) r (skipn n (rbytes r)) F) as (r' & X & Y & Z).
    { symmetry. apply firstn_skipn. }
    exists (firstn n (rbytes r)), r', (firstn n (rbytes r)). rewrite Y. repeat split; auto.
    + symmetry. apply firstn_skipn.
    + apply firstn_length_le, L.
  - right. destruct (r_bytes_short n r F L) as [e X]. rewrite X. split; [exists e; reflexivity|].
    intros v rest b B [_ Q]. rewrite B, app_length in L. lia.
Qed.
(** mapping the bytes read *)
Lemma parses_map {A} n (g : bytes -> option A) err (k : bytes -> rprog (res A)) :
  (forall b, k b = match g b with Some a => rret a | None => rerr err end) ->
  parses (let? b := r_bytes n in k b) (fun e v => length e = n /\ g e = Some v).
Proof.
  intros HK r F. destruct (parses_bytes n r F) as [(v & r' & e & X & F' & B & [<- L])|((er & X) & N)].
  - rewrite exec_rbind, X, HK. destruct (g e) as [a|] eqn:G.
    + left. exists a, r', e. auto.
    + right. split; [exists err; reflexivity|]. intros v rest e' B' [L' G']. rewrite B in B'.
      destruct (det_bytes n e e e' e' _ _ (conj eq_refl L) (conj eq_refl L') B') as [<- _]. congruence.
  - right. rewrite exec_rbind. destruct (exec (r_bytes n) r) as [q r1] eqn:Q. cbn in X. subst q. split; [exists er; reflexivity|].
    intros v rest e B [L _]. exact (N e rest e B (conj eq_refl L)).
Qed.
Lemma det_map {A} n (g : bytes -> option A) : det (fun e v => length e = n /\ g e = Some v).
Proof. apply (det_len _ n); intros; intuition congruence. Qed.

(** loops *)
Definition erep {A} (E : bytes -> A -> Prop) (n : nat) (e : bytes) (l : list A) : Prop := seq_of E e l /\ length l = n.
Lemma seq_nil {A} (E : bytes -> A -> Prop) b : seq_of E b [] <-> b = [].
Proof.
  unfold seq_of. split.
  - intros (bs & -> & H). inversion H. reflexivity.
  - intros ->. exists []. auto.
Qed.
Lemma seq_cons {A} (E : bytes -> A -> Prop) b x l : seq_of E b (x :: l) <-> exists e b', b = e ++ b' /\ E e x /\ seq_of E b' l.
Proof.
  unfold seq_of. split.
  - intros (bs & -> & H). inversion H as [|e ? bs' ? H1 H2]; subst. exists e, (concat bs'). cbn. eauto.
  - intros (e & b' & -> & H & bs & -> & H'). exists (e :: bs). cbn. auto.
Qed.
Lemma det_rep {A} (E : bytes -> A -> Prop) : det E -> forall n, det (erep E n).
Proof.
  intros D n. induction n as [|n IH]; intros e v e' v' r r' [H L] [H' L'] Q.
  - destruct v, v'; try discriminate. apply seq_nil in H, H'. subst. auto.
  - destruct v as [|x v], v' as [|x' v']; try discriminate. apply seq_cons in H, H'.
    destruct H as (e1 & b & -> & H1 & H2), H' as (e1' & b' & -> & H1' & H2'). rewrite <- !app_assoc in Q.
    destruct (D _ _ _ _ _ _ H1 H1' Q) as [<- <-]. apply app_inv_head in Q. injection L as L. injection L' as L'.
    destruct (IH _ _ _ _ _ _ (conj H2 L) (conj H2' L') Q) as [<- <-]. auto.
Qed.
Lemma parses_rep {A S} (q : rprog (res A)) (E : bytes -> A -> Prop) (push : S -> A -> S) (body : nat -> S -> rprog (res S)) :
  parses q E -> det E -> (forall i s, body i s = let? a := q in rret (push s a)) -> forall n lo st,
  parses (r_for lo n body st) (fun e v => exists l, erep E n e l /\ v = fold_left push l st).
Proof.
  intros P D HB n. induction n as [|n IH]; intros lo st; cbn [r_for].
  - eapply parses_iff; [|apply parses_ret]. intros e v. unfold enil, erep. split.
    + intros [-> ->]. exists []. rewrite seq_nil. auto.
    + intros (l & [H L] & ->). destruct l; [|discriminate]. apply seq_nil in H. auto.
  - rewrite HB.
    assert (P1 : parses (let? a := q in rret (push st a)) (eseq E (fun a => enil (push st a)))).
    { apply parses_seq; auto. intros a. apply parses_ret. }
    assert (D1 : det (eseq E (fun a => enil (push st a)))) by (apply det_seq; auto; intros; apply det_ret).
    eapply parses_iff; [|apply (parses_seq _ (fun st' => r_for (Datatypes.S lo) n body st') _ (fun st' e v => exists l, erep E n e l /\ v = fold_left push l st') P1 D1); intros a; apply IH].
    intros e v. split.
    + intros (e1 & s & e2 & -> & (e11 & a & e12 & -> & H1 & [-> ->]) & l & [H2 L] & ->).
      exists (a :: l). split; [|reflexivity]. split; [|cbn; congruence]. apply seq_cons. exists e11, e2. rewrite app_nil_r. auto.
    + intros (l & [H L] & ->). destruct l as [|a l]; [discriminate|]. apply seq_cons in H. destruct H as (e1 & e2 & -> & H1 & H2).
      exists e1, (push st a), e2. split; [reflexivity|]. split.
      * exists e1, a, []. rewrite app_nil_r. unfold enil. auto.
      * exists l. split; [split; [exact H2|cbn in L; congruence]|reflexivity].
Qed.
Lemma det_rep_fold {A S} (E : bytes -> A -> Prop) (push : S -> A -> S) n st : det E -> det (fun e v => exists l, erep E n e l /\ v = fold_left push l st).
Proof.
  intros D e v e' v' r r' (l & H & ->) (l' & H' & ->) Q. destruct (det_rep E D n _ _ _ _ _ _ H H' Q) as [<- <-]. auto.
Qed.
Lemma fold_push {A} (l : list A) : forall acc, fold_left (fun s a => s ++ [a]) l acc = acc ++ l.
Proof. induction l as [|x l IH]; intros acc; cbn; [now rewrite app_nil_r|]. rewrite IH, <- app_assoc. reflexivity. Qed.

Lemma parses_u32 : parses r_u32 is_count.
Proof.
  eapply parses_iff; [|apply (parses_map 4 (fun b => Some (get_u32 b)) ""%string (fun b => rret (get_u32 b))); reflexivity].
  intros e v. unfold is_count. split.
  - intros [L Q]. injection Q as <-. split; [apply get_u32_range|]. symmetry. apply put_get_u32, L.
  - intros [B ->]. split; [apply put_u32_length|]. f_equal. rewrite <- (app_nil_r (put_u32 v)), get_put_u32. apply Z.mod_small, B.
Qed.
Lemma det_count : det is_count.
Proof.
  apply (det_len _ 4).
  - intros e v [_ ->]. apply put_u32_length.
  - intros e v v' [B ->] [B' Q]. apply (f_equal (fun b => get_u32 (b ++ []))) in Q. rewrite !get_put_u32, !Z.mod_small in Q; auto.
Qed.

Section Decoders.
Context (R : rist).
Lemma det_point : det (is_point R). Proof. exact (det_map 32 (pset R)). Qed.
Lemma det_scalar : det (is_scalar R). Proof. apply (det_len _ 32); unfold is_scalar; intros; intuition congruence. Qed.

Lemma parses_com c : parses (com_Decode R c) (is_commitment R (c_blind R c)).
Proof.
  eapply parses_iff; [|apply (parses_map 32 (fun b => match pset R b with Some p => Some (mkCom R p (c_blind R c)) | None => None end)
    "could not set bytes for commitment, not an encodable point"%string); intros b; destruct (pset R b); reflexivity].
  intros e v. unfold is_commitment, is_point. destruct v as [p b]. cbn. destruct (pset R e) as [q|]; split; intros H; destruct H as [H1 H2].
  - injection H2 as <- <-. auto.
  - destruct H1 as [L Q]. injection Q as <-. subst. auto.
  - discriminate.
  - destruct H1 as [L Q]. discriminate.
Qed.
Lemma det_com b : det (is_commitment R b).
Proof.
  intros e v e' v' r r' [H1 H2] [H1' H2'] Q. destruct (det_point _ _ _ _ _ _ H1 H1' Q) as [E E']. split; [exact E|].
  destruct v, v'; cbn in *. congruence.
Qed.
Lemma coms_shape e cs : is_commitments R e cs <->
  eseq is_count (fun n e v => exists l, erep (is_commitment R f0) (Z.to_nat n) e l /\ v = fold_left (fun s a => s ++ [a]) l []) e cs.
Proof.
  unfold is_commitments, eseq. split.
  - intros (n & b' & -> & H & H'). exists n, (Z.of_nat (length cs)), b'. split; [reflexivity|]. split; [exact H|].
    exists cs. split; [split; [exact H'|now rewrite Nat2Z.id]|symmetry; exact (fold_push cs [])].
  - intros (e1 & n & e2 & -> & H & l & [H1 H2] & ->). rewrite fold_push. cbn [app]. exists e1, e2. split; [reflexivity|].
    rewrite H2, Z2Nat.id; [auto|apply H].
Qed.
Lemma det_coms : det (is_commitments R).
Proof.
  eapply det_iff; [intros; symmetry; apply coms_shape|]. apply det_seq; [exact det_count|]. intros n. apply det_rep_fold, det_com.
Qed.
Lemma parses_coms : parses (DecodeCommitments R) (is_commitments R).
Proof.
  eapply parses_iff; [intros; symmetry; apply coms_shape|]. unfold DecodeCommitments.
  apply (parses_seq r_u32 (fun lenV => RAlloc lenV (r_for 0 (Z.to_nat lenV) (fun i comms => let? c := com_Decode R (com_zero R) in rret (comms ++ [c])) [])));
    [exact parses_u32|exact det_count|].
  intros n. apply parses_alloc. apply (parses_rep (com_Decode R (com_zero R)) _ (fun s a => s ++ [a])); [apply parses_com|apply det_com|reflexivity].
Qed.

Lemma fold_keys l : forall p, fold_left (AddPubKey R) l p = mkPK R (pk_decoy R p) (pk_keys R p ++ l).
Proof.
  induction l as [|x l IH]; intros [d k]; cbn; [now rewrite app_nil_r|]. rewrite IH. unfold AddPubKey. cbn. rewrite <- app_assoc. reflexivity.
Qed.
Lemma keys_shape old n e p : is_keys R old n e p <-> exists l, erep (is_point R) (Z.to_nat n) e l /\ p = fold_left (AddPubKey R) l old.
Proof.
  unfold is_keys, erep. split.
  - intros (l & H & L & ->). exists l. rewrite fold_keys. auto.
  - intros (l & [H L] & ->). exists l. rewrite fold_keys. auto.
Qed.
Lemma parses_point : parses (readerToPoint R) (is_point R).
Proof. apply (parses_map 32 (pset R) "point not encodable"%string). intros b. destruct (pset R b); reflexivity. Qed.
Lemma parses_scalar : parses (readerToScalar R) (is_scalar R).
Proof.
  eapply parses_iff; [|apply (parses_map 32 (fun b => Some (sset R b)) ""%string (fun b => rret (sset R b))); reflexivity].
  intros e v. unfold is_scalar. intuition congruence.
Qed.
Lemma let_assoc {A B C} (p : rprog (res A)) (f : A -> rprog (res B)) (g : B -> rprog (res C)) r :
  exec (let? b := (let? a := p in f a) in g b) r = exec (let? a := p in let? b := f a in g b) r.
Proof.
  rewrite !exec_rbind. destruct (exec p r) as [[a|e|] r1]; [|reflexivity..]. rewrite exec_rbind. reflexivity.
Qed.
Lemma parses_ext {A} (p q : rprog (res A)) E : (forall r, exec p r = exec q r) -> parses p E -> parses q E.
Proof. intros X P r F. rewrite <- X. apply P, F. Qed.
Lemma r_for_ext {S} (b b' : nat -> S -> rprog (res S)) n : (forall i s r, exec (b i s) r = exec (b' i s) r) ->
  forall lo st r, exec (r_for lo n b st) r = exec (r_for lo n b' st) r.
Proof.
  intros H. induction n as [|n IH]; intros lo st r; cbn [r_for]; [reflexivity|]. rewrite !exec_rbind, H.
  destruct (exec (b' lo st) r) as [[a|e|] r1]; [apply IH|reflexivity..].
Qed.
Lemma parses_keys old n : parses (pk_Decode R old n) (is_keys R old n).
Proof.
  eapply parses_iff; [intros; symmetry; apply keys_shape|].
  eapply parses_ext; [|apply (parses_rep (readerToPoint R) (is_point R) (AddPubKey R) (fun _ s => let? a := readerToPoint R in rret (AddPubKey R s a)) parses_point det_point); reflexivity].
  intros r. unfold pk_Decode. apply r_for_ext. intros _ s r'. unfold readerToPoint. rewrite let_assoc, !exec_rbind.
  destruct (exec (r_bytes 32) r') as [[a|e|] r1]; [|reflexivity..]. destruct (pset R a); reflexivity.
Qed.
Lemma det_keys old n : det (is_keys R old n).
Proof. eapply det_iff; [intros; symmetry; apply keys_shape|]. apply det_rep_fold, det_point. Qed.
Lemma rsp_shape old n e a : is_responses R old n e a <-> exists l, erep (is_scalar R) (Z.to_nat n) e l /\ a = fold_left (fun s a => s ++ [a]) l old.
Proof.
  unfold is_responses, erep. split.
  - intros (l & H & L & ->). exists l. rewrite fold_push. auto.
  - intros (l & [H L] & ->). exists l. rewrite fold_push. auto.
Qed.
Lemma parses_rsp old n : parses (rsp_Decode R old n) (is_responses R old n).
Proof.
  eapply parses_iff; [intros; symmetry; apply rsp_shape|].
  eapply parses_ext; [|apply (parses_rep (readerToScalar R) (is_scalar R) (fun s a => s ++ [a]) (fun _ s => let? a := readerToScalar R in rret (s ++ [a])) parses_scalar det_scalar); reflexivity].
  intros r. unfold rsp_Decode. apply r_for_ext. intros _ s r'. unfold readerToScalar. rewrite let_assoc, !exec_rbind.
  destruct (exec (r_bytes 32) r') as [[a|e|] r1]; reflexivity.
Qed.
Lemma det_rsp old n : det (is_responses R old n).
Proof. eapply det_iff; [intros; symmetry; apply rsp_shape|]. apply det_rep_fold, det_scalar. Qed.

Definition rows_of {A} (E : bytes -> A -> Prop) (n : Z) (e : bytes) (v : list A) : Prop := exists l, erep E (Z.to_nat n) e l /\ v = fold_left (fun s a => s ++ [a]) l [].
Lemma rows_iff {A} (E : bytes -> A -> Prop) n e v : rows_of E n e v <-> seq_of E e v /\ length v = Z.to_nat n.
Proof.
  unfold rows_of, erep. split.
  - intros (l & H & ->). rewrite fold_push. exact H.
  - intros H. exists v. rewrite fold_push. auto.
Qed.
Definition sig_rel (old : sig R) (keys : bool) : bytes -> sig R -> Prop :=
  eseq (is_scalar R) (fun c => eseq is_count (fun n => eseq is_count (fun k => eseq (rows_of (is_responses R [] k) n) (fun r =>
    if keys then eseq (rows_of (is_keys R (mkPK R false []) k) n) (fun ks => enil (mkSig R c r ks (sg_msg R old)))
    else enil (mkSig R c r (sg_pub R old) (sg_msg R old)))))).
Lemma sig_shape old keys e s : is_signature R old keys e s <-> sig_rel old keys e s.
Proof.
  unfold is_signature, sig_rel. split.
  - intros (bc & bn & bk & brs & bks & k & -> & Hc & Hn & Hk & Hr & HK & Hm).
    exists bc, (sg_c R s), (bn ++ bk ++ brs ++ bks). split; [reflexivity|]. split; [exact Hc|].
    exists bn, (Z.of_nat (length (sg_r R s))), (bk ++ brs ++ bks). split; [reflexivity|]. split; [exact Hn|].
    exists bk, k, (brs ++ bks). split; [reflexivity|]. split; [exact Hk|].
    exists brs, (sg_r R s), bks. split; [reflexivity|]. split; [apply rows_iff; split; [exact Hr|now rewrite Nat2Z.id]|].
    destruct s as [c r pub msg]; cbn in *. destruct keys.
    + destruct HK as [HK L]. exists bks, pub, []. rewrite app_nil_r. split; [reflexivity|]. split; [apply rows_iff; split; [exact HK|rewrite Nat2Z.id; exact L]|].
      split; [reflexivity|congruence].
    + destruct HK as [-> ->]. split; [reflexivity|congruence].
  - intros (bc & c & e1 & -> & Hc & bn & n & e2 & -> & Hn & bk & k & e3 & -> & Hk & brs & r & e4 & -> & Hr & H).
    apply rows_iff in Hr. destruct Hr as [Hr Lr]. assert (N : Z.of_nat (length r) = n) by (rewrite Lr, Z2Nat.id; [reflexivity|apply Hn]).
    destruct keys.
    + destruct H as (bks & ks & e5 & -> & HK & [-> ->]). apply rows_iff in HK. destruct HK as [HK LK]. rewrite app_nil_r.
      exists bc, bn, bk, brs, bks, k. cbn. rewrite N. repeat (split; [assumption || reflexivity|]). split; [split; [exact HK|congruence]|reflexivity].
    + destruct H as [-> ->]. exists bc, bn, bk, brs, [], k. cbn. rewrite N. repeat (split; [assumption || reflexivity|]). auto.
Qed.
Lemma det_sig old keys : det (is_signature R old keys).
Proof.
  eapply det_iff; [intros; symmetry; apply sig_shape|]. unfold sig_rel.
  apply det_seq; [exact det_scalar|]. intros c. apply det_seq; [exact det_count|]. intros n. apply det_seq; [exact det_count|]. intros k.
  apply det_seq; [apply det_rep_fold, det_rsp|]. intros r. destruct keys; [|apply det_ret].
  apply det_seq; [apply det_rep_fold, det_keys|]. intros ks. apply det_ret.
Qed.
Lemma parses_sig old keys : parses (sig_Decode R old keys) (is_signature R old keys).
Proof.
  eapply parses_iff; [intros; symmetry; apply sig_shape|]. unfold sig_rel.
  eapply parses_ext; [intros r; apply (let_assoc (r_bytes 32) (fun x => rret (sset R x)) (fun c =>
    let? lenR := r_u32 in let? numResponses := r_u32 in
    RAlloc lenR (let? r := r_for 0 (Z.to_nat lenR) (fun _ rows => let? a := rsp_Decode R [] numResponses in rret (rows ++ [a])) [] in
      if negb keys then rret (mkSig R c r (sg_pub R old) (sg_msg R old))
      else RAlloc lenR (let? ks := r_for 0 (Z.to_nat lenR) (fun _ rows => let? a := pk_Decode R (mkPK R false []) numResponses in rret (rows ++ [a])) [] in
        rret (mkSig R c r ks (sg_msg R old))))))|].
  apply parses_seq; [exact parses_scalar|exact det_scalar|]. intros c.
  apply (parses_seq r_u32 (fun lenR => _)); [exact parses_u32|exact det_count|]. intros n.
  apply (parses_seq r_u32 (fun k => _)); [exact parses_u32|exact det_count|]. intros k. apply parses_alloc.
  apply (parses_seq (r_for 0 (Z.to_nat n) (fun _ rows => let? a := rsp_Decode R [] k in rret (rows ++ [a])) []) (fun r => _)).
  - apply (parses_rep (rsp_Decode R [] k) _ (fun s a => s ++ [a])); [apply parses_rsp|apply det_rsp|reflexivity].
  - apply det_rep_fold, det_rsp.
  - intros r. destruct keys; cbn [negb]; [|apply parses_ret]. apply parses_alloc.
    apply (parses_seq (r_for 0 (Z.to_nat n) (fun _ rows => let? a := pk_Decode R (mkPK R false []) k in rret (rows ++ [a])) []) (fun r => _)).
    + apply (parses_rep (pk_Decode R (mkPK R false []) k) _ (fun s a => s ++ [a])); [apply parses_keys|apply det_keys|reflexivity].
    + apply det_rep_fold, det_keys.
    + intros ks. apply parses_ret.
Qed.

Lemma skip2 {A} n m : forall l : list A, skipn n (skipn m l) = skipn (m + n) l.
Proof. induction m as [|m IH]; intros [|a l]; cbn; auto. now rewrite skipn_nil. Qed.
Lemma app_inv_len {A} (a b c d : list A) : length a = length b -> a ++ c = b ++ d -> a = b /\ c = d.
Proof.
  revert b. induction a as [|x a IH]; intros [|y b] L E; try discriminate; cbn in *; [auto|]. injection L as L. injection E as -> E. destruct (IH b L E). subst. auto.
Qed.
Lemma firstn_pre {A} n (a b : list A) : length a = n -> firstn n (a ++ b) = a.
Proof. intros <-. rewrite firstn_app, Nat.sub_diag, firstn_all, firstn_O, app_nil_r. reflexivity. Qed.
Lemma skipn_pre {A} n (a b : list A) : length a = n -> skipn n (a ++ b) = b.
Proof. intros <-. rewrite skipn_app, Nat.sub_diag, skipn_all. reflexivity. Qed.
Definition inter (L Rs : list (pt R)) : list (pt R) := concat (map (fun lr => [fst lr; snd lr]) (combine L Rs)).
Lemma lr_decode_seq n : forall buf, 64 * n <= length buf -> let (Ls, Rs) := lr_decode R n buf in
  length Ls = n /\ length Rs = n /\ seq_of (loose_point R) (firstn (64 * n) buf) (inter Ls Rs).
Proof.
  induction n as [|n IH]; intros buf L.
  - cbn. rewrite seq_nil. auto.
  - cbn [lr_decode]. specialize (IH (skipn 64 buf)). destruct (lr_decode R n (skipn 64 buf)) as [Ls Rs].
    rewrite skipn_length in IH. destruct IH as (L1 & L2 & H); [lia|]. cbn [length]. split; [lia|]. split; [lia|].
    change (inter (pset_ignore R (firstn 32 buf) :: Ls) (pset_ignore R (firstn 32 (skipn 32 buf)) :: Rs))
      with (pset_ignore R (firstn 32 buf) :: pset_ignore R (firstn 32 (skipn 32 buf)) :: inter Ls Rs).
    apply seq_cons. exists (firstn 32 buf), (firstn 32 (skipn 32 buf) ++ firstn (64 * n) (skipn 64 buf)). split.
    + replace (64 * S n) with (32 + (32 + 64 * n)) by lia. rewrite <- (firstn_skipn 32 buf) at 1.
      assert (L32 : length (firstn 32 buf) = 32) by (apply firstn_length_le; lia).
      rewrite firstn_app, L32. rewrite firstn_all2 by lia. f_equal.
      replace (32 + (32 + 64 * n) - 32) with (32 + 64 * n) by lia.
      rewrite <- (firstn_skipn 32 (skipn 32 buf)) at 1.
      assert (L32' : length (firstn 32 (skipn 32 buf)) = 32) by (apply firstn_length_le; rewrite skipn_length; lia).
      rewrite firstn_app, L32'. rewrite firstn_all2 by lia. f_equal.
      replace (32 + 64 * n - 32) with (64 * n) by lia. f_equal. rewrite skip2. reflexivity.
    + split; [split; [apply firstn_length_le; lia|reflexivity]|]. apply seq_cons. eexists. eexists. split; [reflexivity|].
      split; [split; [apply firstn_length_le; rewrite skipn_length; lia|reflexivity]|exact H].
Qed.
Lemma lr_decode_inv L : forall Rs blr extra, length L = length Rs -> seq_of (loose_point R) blr (inter L Rs) ->
  length blr = 64 * length L /\ lr_decode R (length L) (blr ++ extra) = (L, Rs).
Proof.
  induction L as [|l L IH]; intros [|r Rs] blr extra LL H; try discriminate.
  - cbn in *. apply seq_nil in H. subst. auto.
  - change (inter (l :: L) (r :: Rs)) with (l :: r :: inter L Rs) in H. apply seq_cons in H. destruct H as (e1 & b1 & -> & [N1 P1] & H).
    apply seq_cons in H. destruct H as (e2 & b2 & -> & [N2 P2] & H). injection LL as LL. destruct (IH Rs b2 extra LL H) as [N3 D].
    split; [rewrite !app_length; cbn [length]; lia|]. cbn [length lr_decode].
    replace (skipn 64 ((e1 ++ e2 ++ b2) ++ extra)) with (b2 ++ extra).
    + rewrite D. rewrite <- !app_assoc. rewrite (firstn_pre 32 e1 _ N1), (skipn_pre 32 e1 _ N1), (firstn_pre 32 e2 _ N2).
      unfold pset_ignore. rewrite P1, P2. reflexivity.
    + rewrite <- !app_assoc. rewrite app_assoc. rewrite skipn_pre; [reflexivity|]. rewrite app_length. lia.
Qed.
(** the outcome of Decode by the number of bytes *)
Lemma ipp_short p0 r : fault_free r -> length (rbytes r) < 64 -> exists e, fst (exec (ipp_Decode R p0) r) = (p0, Err e).
Proof.
  intros F L. unfold ipp_Decode. rewrite exec_rbind.
  destruct (parses_bytes 32 r F) as [(v & r1 & e & X & F1 & B & [<- Lv])|((er & X) & _)].
  - rewrite X, exec_rbind. rewrite B, app_length in L. destruct (r_bytes_short 32 r1 F1) as [er Y]; [lia|]. rewrite Y. exists er. reflexivity.
  - destruct (exec (r_bytes 32) r) as [q r1]. cbn in X. subst q. exists er. reflexivity.
Qed.
Lemma ipp_odd p0 r A B buf : fault_free r -> length A = 32 -> length B = 32 -> rbytes r = A ++ B ++ buf -> length buf mod 32 <> 0 ->
  fst (exec (ipp_Decode R p0) r) = (mkIPP R (ip_L R p0) (ip_R R p0) (sset R A) (sset R B), Err "proof was not formatted correctly"%string).
Proof.
  intros F LA LB E M. unfold ipp_Decode. rewrite exec_rbind.
  destruct (reads_bytes 32 A LA r (B ++ buf) F E) as [r1 [X1 [Y1 Z1]]]. rewrite X1. rewrite exec_rbind.
  destruct (reads_bytes 32 B LB r1 buf Z1 Y1) as [r2 [X2 [Y2 Z2]]]. rewrite X2.
  rewrite exec_RAll, (read_all_ok r2 Z2), Y2. destruct (Nat.eqb_spec (length buf mod 32) 0); [contradiction|]. reflexivity.
Qed.
Lemma split64 (b : bytes) : 64 <= length b -> exists A B buf, b = A ++ B ++ buf /\ length A = 32 /\ length B = 32.
Proof.
  intros L. exists (firstn 32 b), (firstn 32 (skipn 32 b)), (skipn 32 (skipn 32 b)). rewrite !firstn_skipn. rewrite !firstn_length, skipn_length. split; [reflexivity|lia].
Qed.
Lemma ipp_cases p0 r : fault_free r -> (Z.of_nat (length (rbytes r)) < 2 ^ 38)%Z ->
  (exists p, exec (ipp_Decode R p0) r = ((p, Ok tt), []) /\ is_ipp R (rbytes r) p /\ forall q, is_ipp R (rbytes r) q -> q = p) \/
  (exists q e, fst (exec (ipp_Decode R p0) r) = (q, Err e)) /\ (length (rbytes r) < 64 \/ length (rbytes r) mod 32 <> 0) /\ forall q, ~ is_ipp R (rbytes r) q.
Proof.
  intros F Z. destruct (le_lt_dec 64 (length (rbytes r))) as [L|L].
  - destruct (split64 _ L) as (A & B & buf & E & LA & LB).
    assert (LE : length (rbytes r) = 64 + length buf) by (rewrite E, !app_length; lia).
    destruct (Nat.eq_dec (length buf mod 32) 0) as [M|M].
    + left. assert (ZB : (Z.of_nat (length buf / 64) < 2 ^ 32)%Z).
      { rewrite Nat2Z.inj_div. change (Z.of_nat 64) with 64%Z. change (2 ^ 38)%Z with (64 * 2 ^ 32)%Z in Z. apply Z.div_lt_upper_bound; [reflexivity|]. rewrite LE in Z. lia. }
      rewrite (ipp_decode_gen p0 r A B buf F LA LB E M ZB). pose proof (lr_decode_seq (length buf / 64) buf) as H.
      destruct (lr_decode R (length buf / 64) buf) as [Ls Rs] eqn:D.
      assert (HL : 64 * (length buf / 64) <= length buf) by (pose proof (Nat.div_mod (length buf) 64 ltac:(lia)); lia).
      specialize (H HL). destruct H as (L1 & L2 & H). eexists. split; [reflexivity|]. split.
      * rewrite E. exists A, B, (firstn (64 * (length buf / 64)) buf), (skipn (64 * (length buf / 64)) buf). cbn [ip_L ip_R ip_A ip_B].
        split; [now rewrite firstn_skipn|]. split; [split; [exact LA|reflexivity]|]. split; [split; [exact LB|reflexivity]|]. split; [congruence|]. split; [exact H|].
        rewrite skipn_length. pose proof (Nat.div_mod (length buf) 64 ltac:(lia)). pose proof (Nat.div_mod (length buf) 32 ltac:(lia)).
        pose proof (Nat.mod_upper_bound (length buf) 64 ltac:(lia)). lia.
      * intros [L' R' a b] (ba & bb & blr & extra & E' & [NA SA] & [NB SB] & LL & HS & X). cbn [ip_L ip_R ip_A ip_B] in *. rewrite E in E'.
        assert (A = ba /\ B ++ buf = bb ++ blr ++ extra) as [<- E2].
        { apply app_inv_len in E'; [exact E'|congruence]. }
        assert (B = bb /\ buf = blr ++ extra) as [<- ->].
        { apply app_inv_len in E2; [exact E2|congruence]. }
        destruct (lr_decode_inv L' R' blr extra LL HS) as [N3 D3].
        assert (ND : length (blr ++ extra) / 64 = length L').
        { rewrite app_length, N3. symmetry. apply (Nat.div_unique _ _ _ (length extra)); lia. }
        rewrite ND, D3 in D. injection D as -> ->. congruence.
    + right. split; [|split].
      * eexists. eexists. apply (ipp_odd p0 r A B buf); assumption.
      * right. rewrite LE. replace (64 + length buf) with (length buf + 2 * 32) by lia. rewrite Nat.mod_add by lia. exact M.
      * intros [L' R' a b] (ba & bb & blr & extra & E' & [NA SA] & [NB SB] & LL & HS & X). cbn [ip_L ip_R ip_A ip_B] in *.
        destruct (lr_decode_inv L' R' blr extra LL HS) as [N3 _]. apply M. apply (f_equal (@length _)) in E'. rewrite LE, !app_length in E'.
        assert (Q : length buf = (if Nat.eqb (length extra) 0 then 2 * length L' else 2 * length L' + 1) * 32) by (destruct (Nat.eqb_spec (length extra) 0); lia).
        rewrite Q. apply Nat.mod_mul. lia.
  - right. split; [|split].
    + destruct (ipp_short p0 r F L) as [e X]. exists p0, e. exact X.
    + left. exact L.
    + intros [L' R' a b] (ba & bb & blr & extra & E' & [NA SA] & [NB SB] & LL & HS & X). rewrite E', !app_length in L. lia.
Qed.

(** decoders that read to the end *)
Definition consumes {A} (p : rprog (res A)) (E : bytes -> A -> Prop) : Prop :=
  forall r, fault_free r -> (Z.of_nat (length (rbytes r)) < 2 ^ 38)%Z ->
    (exists v, exec p r = (Ok v, []) /\ E (rbytes r) v /\ forall w, E (rbytes r) w -> w = v) \/
    (exists err, fst (exec p r) = Err err) /\ forall v, ~ E (rbytes r) v.
Lemma consumes_seq {A C} (p : rprog (res A)) (f : A -> rprog (res C)) E1 E2 :
  parses p E1 -> det E1 -> (forall a, consumes (f a) (E2 a)) -> consumes (let? a := p in f a) (eseq E1 E2).
Proof.
  intros P1 D1 P2 r F Z. rewrite exec_rbind. destruct (P1 r F) as [(a & r1 & e1 & X & F1 & B1 & H1)|((err & X) & N)].
  - rewrite X. assert (Z1 : (Z.of_nat (length (rbytes r1)) < 2 ^ 38)%Z) by (rewrite B1, app_length in Z; lia).
    destruct (P2 a r1 F1 Z1) as [(v & Y & H2 & U)|(Y & N)].
    + left. exists v. split; [exact Y|]. split.
      * rewrite B1. exists e1, a, (rbytes r1). auto.
      * intros w (e1' & a' & e2 & Q & H1' & H2'). rewrite B1 in Q. destruct (D1 _ _ _ _ _ _ H1 H1' Q) as [<- <-]. apply app_inv_head in Q. subst e2. auto.
    + right. split; [exact Y|]. intros v (e1' & a' & e2 & Q & H1' & H2'). rewrite B1 in Q.
      destruct (D1 _ _ _ _ _ _ H1 H1' Q) as [<- <-]. apply app_inv_head in Q. subst e2. exact (N _ H2').
  - right. destruct (exec p r) as [q r1] eqn:Eq. cbn in X. subst q. split; [exists err; reflexivity|].
    intros v (e1' & a' & e2 & Q & H1' & H2'). exact (N _ _ _ Q H1').
Qed.
Lemma consumes_iff {A} (p : rprog (res A)) E E' : (forall e v, E e v <-> E' e v) -> consumes p E -> consumes p E'.
Proof.
  intros Q P r F Z. destruct (P r F Z) as [(v & X & H & U)|(X & N)].
  - left. exists v. split; [exact X|]. split; [now apply Q|]. intros w Hw. apply U, Q, Hw.
  - right. split; [exact X|]. intros v Hv. apply (N v), Q, Hv.
Qed.
Definition pf_rel (old : proof R) (commits : bool) : bytes -> proof R -> Prop :=
  eseq (if commits then is_commitments R else enil (pf_V R old)) (fun V =>
  eseq (is_point R) (fun A => eseq (is_point R) (fun pS => eseq (is_point R) (fun T1 => eseq (is_point R) (fun T2 =>
  eseq (is_scalar R) (fun taux => eseq (is_scalar R) (fun mu => eseq (is_scalar R) (fun t =>
    fun e p => exists ip, is_ipp R e ip /\ p = mkProof R V A pS T1 T2 taux mu t (Some ip))))))))).
Lemma pf_shape old commits e p : is_proof R old commits e p <-> pf_rel old commits e p.
Proof.
  unfold is_proof, pf_rel, eseq. split.
  - intros (bV & bA & bS & b1 & b2 & b3 & b4 & b5 & bip & ip & -> & HV & HA & HS & H1 & H2 & H3 & H4 & H5 & Q & HI).
    destruct p as [V A pS T1 T2 taux mu t ip']. cbn in *. subst ip'.
    exists bV, V. eexists. split; [reflexivity|]. split; [destruct commits; [exact HV|destruct HV; split; assumption]|].
    exists bA, A. eexists. split; [reflexivity|]. split; [exact HA|].
    exists bS, pS. eexists. split; [reflexivity|]. split; [exact HS|].
    exists b1, T1. eexists. split; [reflexivity|]. split; [exact H1|].
    exists b2, T2. eexists. split; [reflexivity|]. split; [exact H2|].
    exists b3, taux. eexists. split; [reflexivity|]. split; [exact H3|].
    exists b4, mu. eexists. split; [reflexivity|]. split; [exact H4|].
    exists b5, t. eexists. split; [reflexivity|]. split; [exact H5|].
    exists ip. auto.
  - intros (bV & V & ? & -> & HV & bA & A & ? & -> & HA & bS & pS & ? & -> & HS & b1 & T1 & ? & -> & H1 & b2 & T2 & ? & -> & H2
      & b3 & taux & ? & -> & H3 & b4 & mu & ? & -> & H4 & b5 & t & bip & -> & H5 & ip & HI & ->). cbn.
    exists bV, bA, bS, b1, b2, b3, b4, b5, bip, ip. split; [reflexivity|]. split; [destruct commits; [exact HV|destruct HV; split; assumption]|].
    repeat (split; [assumption|]). split; [reflexivity|assumption].
Qed.
Lemma consumes_pf old commits : consumes (pf_Decode R old commits) (is_proof R old commits).
Proof.
  eapply consumes_iff; [intros; symmetry; apply pf_shape|]. unfold pf_rel, pf_Decode.
  apply consumes_seq; [destruct commits; [exact parses_coms|apply parses_ret]|destruct commits; [exact det_coms|apply det_ret]|]. intros V.
  do 4 (apply consumes_seq; [exact parses_point|exact det_point|]; intros ?).
  do 3 (apply consumes_seq; [exact parses_scalar|exact det_scalar|]; intros ?).
  intros r F Z. rewrite exec_rbind. destruct (ipp_cases (mkIPP R [] [] f0 f0) r F Z) as [(p & X & I & U)|((q & e & X) & _ & N)].
  - left. rewrite X. eexists. split; [reflexivity|]. split; [exists p; auto|]. intros w (ip & I' & ->). now rewrite (U ip I').
  - right. destruct (exec (ipp_Decode R _) r) as [x r1]. cbn in X. subst x. split; [exists e; reflexivity|]. intros v (ip & I' & _). exact (N _ I').
Qed.
End Decoders.

Lemma consumes_decodes {A} (p : rprog (res A)) E r : consumes p E -> fault_free r ->
  let b := concat (map (fun x => match x with RChunk b => b | RFault _ => [] end) r) in
  (Z.of_nat (length b) < 2 ^ 38)%Z ->
  (forall v, exec p r = (Ok v, []) <-> E b v) /\
  ((exists err, fst (exec p r) = Err err) <-> forall v, ~ E b v) /\
  (forall v r', exec p r = (Ok v, r') -> r' = []).
Proof.
  intros P F. cbv beta zeta. rewrite (rbytes_concat r F). intros Z. destruct (P r F Z) as [(v & X & H & U)|((err & X) & N)].
  - split; [|split].
    + intros w. rewrite X. split; [intros Q; injection Q as <-; exact H|intros Hw; now rewrite (U w Hw)].
    + rewrite X. cbn. split; [intros [? ?]; discriminate|]. intros N. exfalso. exact (N _ H).
    + rewrite X. intros w r' Q. now injection Q.
  - split; [|split].
    + intros w. split; [intros Q; rewrite Q in X; discriminate|intros H; exfalso; exact (N _ H)].
    + split; [intros _; exact N|intros _; exists err; exact X].
    + intros w r' Q. rewrite Q in X. discriminate.
Qed.
