(** More on receivers: failing readers, Verify after a failed Decode *)
From Coq Require Import String ZArith List Arith Lia Bool.
From Verif Require Import GoModel GoFacts Fld Rist ReadModel ReadFacts PedersenModel InnerProductModel RangeProofModel MlsagModel MlsagProps DecodeFacts StreamFacts RecvModel SpecRecv RecvFacts.
Import ListNotations.
Local Open Scope nat_scope.
Local Open Scope list_scope.

(** ** Failing readers *)
Lemma read_fault e r1 r0 : forall need acc, fault_free r0 ->
  (exists q, fst (read_full_acc need acc r0) = Ok (acc ++ firstn need (rbytes r0)) /\ snd (read_full_acc need acc r0) = q /\ fault_free q /\
     read_full_acc need acc (r0 ++ RFault e :: r1) = (Ok (acc ++ firstn need (rbytes r0)), q ++ RFault e :: r1)) \/
  (exists q er, fst (read_full_acc need acc r0) = Err er /\ read_full_acc need acc (r0 ++ RFault e :: r1) = (Err e, q)).
Proof.
  intros need acc Fr. pose proof (read_full_acc_spec r0 need acc Fr) as S. cbv zeta in S. destruct (Nat.leb_spec need (length (rbytes r0))) as [L|L].
  - destruct (read_full_acc_fault e r1 r0 need acc Fr) as [[q [E [Fq D]]]|[q D]].
    + left. exists q. rewrite E. auto.
    + exfalso. clear S. revert need acc Fr L D. induction r0 as [|[b|x] r0 IH]; intros need acc Fr L D.
      * cbn in L. assert (need = 0) by lia. subst. discriminate.
      * destruct need as [|need]; [discriminate|]. cbn [app read_full_acc] in D. cbn [rbytes] in L. rewrite app_length in L. destruct (Nat.leb_spec (length b) (S need)) as [K|K]; [|discriminate].
        eapply IH; [eapply fault_free_cons; exact Fr| |exact D]. lia.
      * apply (Fr x). left. reflexivity.
  - right. destruct (read_full_acc_fault e r1 r0 need acc Fr) as [[q [E _]]|[q D]].
    + exfalso. rewrite S in E. destruct (acc ++ rbytes r0); discriminate.
    + rewrite S. destruct (acc ++ rbytes r0); eexists _, _; (split; [reflexivity|exact D]).
Qed.
Definition bad (o : res unit) : Prop := match o with Ok _ => False | _ => True end.
Fixpoint stable {A} (p : rprog (A * res unit)) : Prop :=
  match p with
  | RRet _ => True
  | RRead n k => (exists s, forall e, exists o, bad o /\ k (Err e) = RRet (s, o)) /\ forall b, stable (k (Ok b))
  | RAll k => False
  | RAlloc _ k => stable k
  end.
Lemma stable_fault {A} (p : rprog (A * res unit)) e r1 : stable p -> forall r0, fault_free r0 -> fst (fst (exec p (r0 ++ RFault e :: r1))) = fst (fst (exec p r0)).
Proof.
  induction p as [x|n k IH|k IH|n k IH]; cbn [stable]; intros S r0 Fr.
  - reflexivity.
  - destruct S as [[s S1] S2]. rewrite !exec_RRead. unfold read_full. destruct (read_fault e r1 r0 n [] Fr) as [[q [E1 [E2 [Fq D]]]]|[q [er [E1 D]]]].
    + rewrite D. destruct (read_full_acc n [] r0) as [b r']. cbn in E1, E2. subst b r'. apply IH; auto.
    + rewrite D. destruct (read_full_acc n [] r0) as [b r']. cbn in E1. subst b. destruct (S1 e) as [o1 [_ H1]]. destruct (S1 er) as [o2 [_ H2]]. rewrite H1, H2. reflexivity.
  - contradiction.
  - rewrite !exec_RAlloc. apply IH; assumption.
Qed.
Lemma stable_bind {A B} (p : rprog (A * res unit)) (f : A * res unit -> rprog (B * res unit)) :
  stable p -> (forall s, exists s', forall o, bad o -> exists o', bad o' /\ f (s, o) = RRet (s', o')) -> (forall s o, stable (f (s, o))) -> stable (rbind p f).
Proof.
  intros S H K. induction p as [[s o]|n k IH|k IH|n k IH]; cbn [stable rbind] in *; [apply K| |contradiction|auto].
  destruct S as [[s S1] S2]. split; [|intros b; apply IH, S2]. destruct (H s) as [s' H']. exists s'. intros e. destruct (S1 e) as [o1 [B1 E1]]. rewrite E1. cbn [rbind]. apply H', B1.
Qed.
Lemma stable_then {A} (d1 d2 : A -> rprog (A * res unit)) s : stable (d1 s) -> (forall s', stable (d2 s')) -> stable (then_ d1 d2 s).
Proof. intros H K. unfold then_. apply stable_bind; [exact H| |]. - intros s'. exists s'. intros [u|e|] []; eexists; (split; [|reflexivity]; exact I). - intros s' [u|e|]; [apply K|exact I|exact I]. Qed.
Lemma stable_on {A T} (get : A -> T) set d (s : A) : stable (d (get s)) -> stable (on_ get set d s).
Proof. intros H. unfold on_. apply stable_bind; [exact H| |]. - intros t. eexists. intros o B. exists o. split; [exact B|reflexivity]. - intros t o. exact I. Qed.
Lemma stable_bytes {A} n (k : bytes -> A -> rprog (A * res unit)) s : (forall x, stable (k x s)) -> stable (read_ (r_bytes n) k s).
Proof. intros H. unfold read_, r_bytes. cbn [rbind stable]. split; [exists s; intros e; exists (Err e); split; [exact I|reflexivity]|exact H]. Qed.
Lemma stable_u32 {A} (k : Z -> A -> rprog (A * res unit)) s : (forall x, stable (k x s)) -> stable (read_ r_u32 k s).
Proof. intros H. unfold read_, r_u32, r_bytes, rret. cbn [rbind stable]. split; [exists s; intros e; exists (Err e); split; [exact I|reflexivity]|]. intros b. apply H. Qed.
Lemma stable_for {A} n (body : nat -> A -> rprog (A * res unit)) : (forall i s, stable (body i s)) -> forall lo s, stable (for_ lo n body s).
Proof. intros H. induction n as [|n IH]; intros lo s; cbn [for_]; [exact I|]. apply stable_then; auto. Qed.
Lemma stable_at {T} (d : T -> rprog (T * res unit)) i rows : (forall t, stable (d t)) -> stable (at_ d i rows).
Proof.
  intros H. unfold at_. destruct (idx rows i) as [t|e|]; [|exact I|exact I]. apply stable_bind; [apply H| |].
  - intros t'. destruct (set_idx rows i t') as [l|e|].
    + exists l. intros o B. exists o. split; [exact B|reflexivity].
    + exists rows. intros o B. exists (Err e). split; [exact I|reflexivity].
    + exists rows. intros o B. exists Panic. split; [exact I|reflexivity].
  - intros t' o. destruct (set_idx rows i t'); exact I.
Qed.
Section More.
Context (R : rist).
Lemma rsp_stable n a : stable (rsp_DecodeR R n a).
Proof. apply stable_for. intros i s. apply stable_bytes. intros x. exact I. Qed.
Lemma pk_stable n p : stable (pk_DecodeR R n p).
Proof. apply stable_for. intros i s. apply stable_bytes. intros x. destruct (pset R x); exact I. Qed.
Lemma com_stable junk c : stable (com_DecodeR R junk c).
Proof. apply stable_bytes. intros x. destruct (pset R x); exact I. Qed.
Lemma sig_stable k s : stable (sig_DecodeR R k s).
Proof.
  unfold sig_DecodeR. apply stable_then; [apply stable_bytes; intros x; exact I|]. intros s'. apply stable_u32. intros m. apply stable_u32. intros n. cbn [stable].
  apply stable_then; [exact I|]. intros s1. apply stable_then.
  - apply stable_for. intros i s2. apply stable_on, stable_at. intros t. apply rsp_stable.
  - intros s2. destruct k; cbn [negb]; [|exact I]. cbn [stable]. apply stable_then; [exact I|]. intros s3. apply stable_for. intros i s4. apply stable_on, stable_at. intros t. apply pk_stable.
Qed.

(** ** Summaries *)
Lemma ends_value {A} (p : rprog (A * res unit)) r s o : fault_free r -> ends p (bytes_of r) s o -> fst (fst (exec p r)) = s.
Proof. intros Fr H. destruct (H r Fr (eq_sym (bytes_of_rbytes r Fr))) as (s' & x & r' & E & -> & _). rewrite E. reflexivity. Qed.
Lemma com_ends junk c b : ends (com_DecodeR R junk c) b
  (if length b <? 32 then c else mkCom R (match pset R (firstn 32 b) with Some p => p | None => junk (c_val R c) (firstn 32 b) end) (c_blind R c))
  (if length b <? 32 then None else match pset R (firstn 32 b) with Some _ => Some (skipn 32 b) | None => None end).
Proof.
  unfold com_DecodeR. destruct (Nat.ltb_spec (length b) 32) as [L|L]; [apply ends_eof, L|]. apply ends_read; [exact L|]. destruct (pset R (firstn 32 b)); [apply ends_ret|apply ends_err].
Qed.

(** ** Verify after a failed Decode *)
Lemma blocks_len n : forall b, 32 * n <= length b -> length (blocks n b) = n.
Proof. induction n as [|n IH]; intros b L; [reflexivity|]. rewrite blocks_S by lia. cbn [length]. rewrite IH; [reflexivity|]. rewrite skipn_length. lia. Qed.
Lemma blocks_lt n : forall b, length b < 32 * n -> length (blocks n b) < n.
Proof.
  induction n as [|n IH]; intros b L; [lia|]. destruct (le_lt_dec 32 (length b)) as [K|K]; [|rewrite blocks_short by exact K; cbn; lia].
  rewrite blocks_S by exact K. cbn [length]. specialize (IH (skipn 32 b)). rewrite skipn_length in IH. lia.
Qed.
Lemma left_rows_len m n : forall b, length (left_rows R m n b) = m.
Proof. induction m as [|m IH]; intros b; [reflexivity|]. cbn [left_rows length]. rewrite IH. reflexivity. Qed.
Lemma left_key_rows_len m n : forall b, length (left_key_rows R m n b) = m.
Proof. induction m as [|m IH]; intros b; [reflexivity|]. cbn [left_key_rows length]. destruct (_ =? n); [rewrite IH|rewrite repeat_length]; reflexivity. Qed.
Lemma rows_short m n : forall b, length b < m * (32 * n) -> exists i row, nth_error (left_rows R m n b) i = Some row /\ length row < n.
Proof.
  induction m as [|m IH]; intros b L; [cbn in L; lia|]. cbn [left_rows]. destruct (le_lt_dec (32 * n) (length b)) as [K|K].
  - change (S m * (32 * n)) with (32 * n + m * (32 * n)) in L. destruct (IH (skipn (32 * n) b)) as (i & row & E & Lr); [rewrite skipn_length; lia|]. exists (S i), row. auto.
  - exists 0, (map (sset R) (blocks n b)). split; [reflexivity|]. rewrite map_length. apply blocks_lt, K.
Qed.
Lemma keys_short m n : forall b, rows_next (fun b => if length (points R (blocks n b)) =? n then Some (skipn (32 * n) b) else None) m b = None ->
  exists i row, nth_error (left_key_rows R m n b) i = Some row /\ length (pk_keys R row) < n.
Proof.
  induction m as [|m IH]; intros b N; [discriminate|]. cbn [rows_next left_key_rows] in *. destruct (Nat.eqb_spec (length (points R (blocks n b))) n) as [E|E].
  - destruct (IH _ N) as (i & row & H & L). exists (S i), row. auto.
  - exists 0. eexists. split; [reflexivity|]. cbn [pk_keys]. pose proof (points_le R (blocks n b)). pose proof (blocks_le n b). lia.
Qed.
Lemma Exists_combine {X Y} (P : X * Y -> Prop) : forall (l : list X) (l' : list Y) i x y, nth_error l i = Some x -> nth_error l' i = Some y -> P (x, y) -> Exists P (combine l l').
Proof.
  induction l as [|a l IH]; intros l' i x y H H' p; [destruct i; discriminate|]. destruct l' as [|a' l']; [destruct i; discriminate|]. destruct i as [|i]; cbn in *.
  - injection H as ->. injection H' as ->. left. exact p.
  - right. eapply IH; eauto.
Qed.
Lemma sig_failed k s s' r e : fault_free r -> fst (exec (sig_DecodeR R k s) r) = (s', Err e) -> s' = left_signature R s k (bytes_of r) /\ sig_rest R k (bytes_of r) None.
Proof.
  intros Fr X. destruct (sig_ends R k s (bytes_of r)) as (o & O & H). destruct (H r Fr (eq_sym (bytes_of_rbytes r Fr))) as (s1 & x & r' & E & -> & K).
  rewrite E in X. cbn in X. injection X as <- ->. destruct o as [b|]; [destruct K as [K _]; discriminate|]. auto.
Qed.
Lemma ltb_f a b : b <= a -> (a <? b) = false. Proof. apply Nat.ltb_ge. Qed.
Lemma verify_keys s s' r J e : fault_free r -> fst (exec (sig_DecodeR R true s) r) = (s', Err e) ->
  40 + rows_in (bytes_of r) * (32 * row_len (bytes_of r)) <= length (bytes_of r) -> row_len (bytes_of r) <= length J -> sig_Verify R s' J = Panic.
Proof.
  intros Fr X L LJ. destruct (sig_failed _ _ _ _ _ Fr X) as [-> O]. clear X. revert O L LJ. generalize (bytes_of r). clear r Fr. intros b O L LJ.
  unfold sig_rest, left_signature in *. set (m := rows_in b) in *. set (n := row_len b) in *.
  assert (L40 : 40 <= length b) by (revert L; generalize (m * (32 * n)); lia).
  rewrite (ltb_f (length b) 40) in * by lia. rewrite (ltb_f (length b) 32) by lia.
  assert (C : (m * (32 * n) <=? length (skipn 40 b)) = true) by (apply Nat.leb_le; rewrite skipn_length; lia). rewrite C in *. cbn [andb].
  symmetry in O. destruct (keys_short _ _ _ O) as (i & row & E & Lr).
  assert (Ri : i < m) by (rewrite <- (left_key_rows_len m n (skipn (m * (32 * n)) (skipn 40 b))); apply nth_error_Some; congruence).
  apply (proj2 (Verify_outcomes _ J)); cbn [sg_pub sg_r].
  - intros Z. rewrite Z in E. destruct i; discriminate.
  - intros Z. apply (f_equal (@length _)) in Z. rewrite left_rows_len in Z. cbn in Z. lia.
  - intros ->. cbn in LJ. lia.
  - right. destruct (nth_error (left_rows R m n (skipn 40 b)) i) as [rr|] eqn:Er; [|apply nth_error_None in Er; rewrite left_rows_len in Er; lia].
    eapply (Exists_combine _ _ _ i (pk_keys R row) rr); [apply map_nth_error, E|exact Er|]. right. cbn [fst]. lia.
Qed.
Lemma verify_responses k s s' r J e : fault_free r -> fst (exec (sig_DecodeR R k s) r) = (s', Err e) ->
  40 <= length (bytes_of r) < 40 + rows_in (bytes_of r) * (32 * row_len (bytes_of r)) ->
  sg_pub R s <> [] -> J <> [] -> (forall p, In p (sg_pub R s) -> row_len (bytes_of r) <= length (pk_keys R p)) -> sig_Verify R s' J = Panic.
Proof.
  intros Fr X L NP NJ A. destruct (sig_failed _ _ _ _ _ Fr X) as [-> O]. clear X. revert O L A. generalize (bytes_of r). clear r Fr. intros b O L A.
  unfold sig_rest, left_signature in *. set (m := rows_in b) in *. set (n := row_len b) in *.
  rewrite (ltb_f (length b) 40) in * by lia. rewrite (ltb_f (length b) 32) by lia.
  assert (C : (m * (32 * n) <=? length (skipn 40 b)) = false) by (apply Nat.leb_gt; rewrite skipn_length; lia). rewrite C in *. rewrite andb_false_r.
  destruct (rows_short m n (skipn 40 b)) as (i & row & E & Lr); [rewrite skipn_length; lia|].
  assert (Ri : i < m) by (rewrite <- (left_rows_len m n (skipn 40 b)); apply nth_error_Some; congruence).
  apply (proj2 (Verify_outcomes _ J)); cbn [sg_pub sg_r]; [exact NP| |exact NJ|].
  - intros Z. rewrite Z in E. destruct i; discriminate.
  - rewrite left_rows_len. destruct (nth_error (sg_pub R s) i) as [p|] eqn:Ep; [right|left; apply nth_error_None in Ep; lia].
    eapply (Exists_combine _ _ _ i (pk_keys R p) row); [apply map_nth_error, Ep|exact E|]. left. cbn [fst snd]. apply nth_error_In in Ep. specialize (A _ Ep). lia.
Qed.

(** ** Trying again *)
Lemma pk_retry n p r1 p1 e1 r2 p2 : fault_free r1 -> fault_free r2 -> fst (exec (pk_DecodeR R n p) r1) = (p1, Err e1) -> fst (exec (pk_DecodeR R n p1) r2) = (p2, Ok tt) ->
  exists l, length l = Z.to_nat n /\ pk_keys R p2 = pk_keys R p ++ points R (blocks (Z.to_nat n) (bytes_of r1)) ++ l /\ pk_keys R p1 = pk_keys R p ++ points R (blocks (Z.to_nat n) (bytes_of r1)).
Proof.
  intros F1 F2 X1 X2. destruct (pk_ends R n p (bytes_of r1) r1 F1 (eq_sym (bytes_of_rbytes r1 F1))) as (s1 & x1 & q1 & E1 & -> & K1).
  destruct (pk_ends R n p1 (bytes_of r2) r2 F2 (eq_sym (bytes_of_rbytes r2 F2))) as (s2 & x2 & q2 & E2 & -> & K2).
  rewrite E1 in X1. rewrite E2 in X2. cbn in X1, X2. injection X1 as <- ->. injection X2 as <- ->.
  destruct (Nat.eqb_spec (length (points R (blocks (Z.to_nat n) (bytes_of r2)))) (Z.to_nat n)) as [L|L]; [|destruct K2 as [e K2]; discriminate].
  exists (points R (blocks (Z.to_nat n) (bytes_of r2))). split; [exact L|]. unfold left_keys. cbn [pk_keys]. rewrite <- app_assoc. auto.
Qed.
Lemma sig_retry s1 s2 r s1' : fault_free r -> sg_msg R s1 = sg_msg R s2 -> fst (exec (sig_DecodeR R true s1) r) = (s1', Ok tt) -> fst (exec (sig_DecodeR R true s2) r) = (s1', Ok tt).
Proof.
  intros Fr M X. destruct (sig_ends R true s1 (bytes_of r)) as (o & O & H). destruct (sig_ends R true s2 (bytes_of r)) as (o' & O' & H').
  destruct (H r Fr (eq_sym (bytes_of_rbytes r Fr))) as (t & x & r' & E & -> & K). destruct (H' r Fr (eq_sym (bytes_of_rbytes r Fr))) as (t' & x' & r'' & E' & -> & K').
  rewrite E in X. cbn in X. injection X as <- ->. assert (o' = o) by (unfold sig_rest in *; congruence). subst o'. destruct o as [b|]; [|destruct K as [e K]; discriminate].
  rewrite E'. destruct K' as [-> _]. cbn [fst]. f_equal. unfold sig_rest, left_signature in *. destruct (length (bytes_of r) <? 40) eqn:B; [discriminate|].
  apply Nat.ltb_ge in B. rewrite (ltb_f (length (bytes_of r)) 32) by lia. destruct (_ <=? _); [|discriminate]. cbn [andb]. rewrite M. reflexivity.
Qed.
End More.
