(** Lemmas on the receivers of Decode *)
From Coq Require Import String ZArith List Arith Lia Bool.
From Verif Require Import GoModel GoFacts Fld Rist ReadModel ReadFacts PedersenModel InnerProductModel RangeProofModel MlsagModel DecodeFacts StreamFacts RecvModel SpecRecv.
Import ListNotations.
Local Open Scope nat_scope.
Local Open Scope list_scope.

(** ** The two forms of a decoder *)
Inductive sim {X Y} (Q : X -> Y -> Prop) : rprog X -> rprog Y -> Prop :=
| sim_ret x y : Q x y -> sim Q (RRet x) (RRet y)
| sim_read n k k' : (forall b, sim Q (k b) (k' b)) -> sim Q (RRead n k) (RRead n k')
| sim_all k k' : (forall b, sim Q (k b) (k' b)) -> sim Q (RAll k) (RAll k')
| sim_alloc n k k' : sim Q k k' -> sim Q (RAlloc n k) (RAlloc n k').
Lemma sim_run {X Y} (Q : X -> Y -> Prop) p q : sim Q p q -> forall r,
  Q (fst (fst (run p r))) (fst (fst (run q r))) /\ snd (fst (run p r)) = snd (fst (run q r)) /\ snd (run p r) = snd (run q r).
Proof.
  induction 1 as [x y H|n k k' H IH|k k' H IH|n k k' H IH]; intros r; cbn [run].
  - auto.
  - destruct (read_full n r) as [b r']. apply IH.
  - destruct (read_all r) as [b r']. apply IH.
  - specialize (IH r). destruct (run k r) as [[x q1] al]. destruct (run k' r) as [[y q2] al']. cbn in *. destruct IH as [A [B C]]. subst. auto.
Qed.
Lemma sim_bind {X Y X' Y'} (Q : X -> Y -> Prop) (Q' : X' -> Y' -> Prop) p q f g :
  sim Q p q -> (forall x y, Q x y -> sim Q' (f x) (g y)) -> sim Q' (rbind p f) (rbind q g).
Proof. intros H K. induction H; cbn [rbind]; [auto|constructor; auto..]. Qed.
Lemma sim_refl {X} (p : rprog X) : sim eq p p.
Proof. induction p; constructor; auto. Qed.
Lemma sim_imp {X Y} (Q Q' : X -> Y -> Prop) p q : (forall x y, Q x y -> Q' x y) -> sim Q p q -> sim Q' p q.
Proof. intros H K. induction K; constructor; auto. Qed.

Definition W {A T} (P : A -> T -> Prop) (x : A * res unit) (y : res T) : Prop :=
  match snd x, y with Ok _, Ok t => P (fst x) t | Err e, Err e' => e = e' | Panic, Panic => True | _, _ => False end.
Lemma sim_same {A} (p : rprog (A * res unit)) q : sim (W eq) p q -> same_outcome p q.
Proof.
  intros H r. destruct (sim_run _ _ _ H r) as [A1 [B C]]. unfold allocs, exec. split; [exact C|split; [exact B|]].
  unfold W in A1. destruct (fst (fst (run p r))) as [s [u|e|]]; destruct (fst (fst (run q r))) as [t|e'|]; cbn in A1; try contradiction; congruence.
Qed.
Lemma sim_then {A T T'} (P : A -> T -> Prop) (P' : A -> T' -> Prop) d1 d2 s p (f : T -> rprog (res T')) :
  sim (W P) (d1 s) p -> (forall s' t, P s' t -> sim (W P') (d2 s') (f t)) -> sim (W P') (then_ d1 d2 s) (let? x := p in f x).
Proof.
  intros H K. unfold then_. apply (sim_bind _ _ _ _ _ _ H). intros [s' [u|e|]] [t|e'|] Q; unfold W in Q; cbn in Q; try contradiction; [apply K, Q| |]; constructor; unfold W; cbn; auto.
Qed.
Lemma sim_read_ {A B T} (P : A -> T -> Prop) (p : rprog (res B)) k s (f : B -> rprog (res T)) :
  (forall x, sim (W P) (k x s) (f x)) -> sim (W P) (read_ p k s) (let? x := p in f x).
Proof.
  intros K. unfold read_. apply (sim_bind eq _ _ _ _ _ (sim_refl p)). intros x y <-. destruct x as [b|e|]; [apply K| |]; constructor; unfold W; cbn; auto.
Qed.
Lemma sim_map {A T T'} (P : A -> T -> Prop) (P' : A -> T' -> Prop) p q (f : T -> T') :
  sim (W P) p q -> (forall s t, P s t -> P' s (f t)) -> sim (W P') p (let? x := q in rret (f x)).
Proof. intros H K. induction H as [[s r] y Q| | |]; cbn [rbind]; [|constructor; auto..]. unfold W in Q. cbn in Q. destruct r; destruct y; try contradiction; constructor; unfold W; cbn; auto. Qed.
Lemma sim_assign {A T} (P : A -> T -> Prop) g s t : P (g s) t -> sim (W P) (assign_ g s) (rret t).
Proof. intros H. constructor. exact H. Qed.
Lemma sim_for {A T} (P : nat -> A -> T -> Prop) (body : nat -> A -> rprog (A * res unit)) (body' : nat -> T -> rprog (res T)) n :
  forall lo s t, (forall i s t, lo <= i < lo + n -> P i s t -> sim (W (P (Datatypes.S i))) (body i s) (body' i t)) -> P lo s t ->
  sim (W (P (lo + n))) (for_ lo n body s) (r_for lo n body' t).
Proof.
  induction n as [|n IH]; intros lo s t H Q; cbn [for_ r_for].
  - constructor. unfold W. cbn. rewrite Nat.add_0_r. exact Q.
  - apply (sim_then (P (Datatypes.S lo))); [apply H; [lia|exact Q]|]. intros s' t' Q'. replace (lo + Datatypes.S n) with (Datatypes.S lo + n) by lia. apply IH; [|exact Q']. intros i s0 t0 L. apply H. lia.
Qed.
(** rows filled in place against rows appended *)
Definition filled {A T} (get : A -> list T) (set : list T -> A -> A) (e : T) (m : nat) (s0 : A) (i : nat) (s : A) (rows : list T) : Prop :=
  length rows = i /\ s = set (rows ++ repeat e (m - i)) s0.
Lemma sim_row {A T} (get : A -> list T) (set : list T -> A -> A) (e : T) m s0 (d : T -> rprog (T * res unit)) (q : rprog (res T)) i s rows :
  (forall l x, get (set l x) = l) -> (forall l l' x, set l (set l' x) = set l x) -> sim (W eq) (d e) q -> i < m -> filled get set e m s0 i s rows ->
  sim (W (filled get set e m s0 (Datatypes.S i))) (on_ get set (at_ d i) s) (let? a := q in rret (rows ++ [a])).
Proof.
  intros GS SS D L [H ->]. unfold on_, at_. rewrite GS.
  assert (I : idx (rows ++ repeat e (m - i)) i = Ok e).
  { unfold idx. rewrite nth_error_app2 by lia. replace (i - length rows) with 0 by lia. destruct (m - i) eqn:E; [lia|reflexivity]. }
  rewrite I.
  assert (U : forall x, set_idx (rows ++ repeat e (m - i)) i x = Ok (rows ++ x :: repeat e (m - Datatypes.S i))).
  { intros x. replace (m - i) with (Datatypes.S (m - Datatypes.S i)) by lia. cbn [repeat]. unfold set_idx. rewrite app_length. cbn [length].
    rewrite (proj2 (Nat.ltb_lt _ _)) by lia. f_equal. generalize (repeat e (m - Datatypes.S i)). intros tl. rewrite <- H. clear. induction rows as [|a rows IH]; cbn; [reflexivity|]. f_equal. exact IH. }
  revert D. generalize (d e) as p. intros p D.
  induction D as [x y Q|n k k' K IH|k k' K IH|n k k' K IH]; cbn [rbind]; try (constructor; auto).
  destruct x as [row r]. rewrite U. cbn [rbind]. rewrite SS. unfold W in Q. cbn in Q. destruct r as [u|er|]; destruct y as [t|er'|]; try contradiction; constructor; unfold W; cbn [fst snd]; auto.
  split; [rewrite app_length; cbn; lia|]. subst t. rewrite <- app_assoc. reflexivity.
Qed.

Section Facts.
Context (R : rist).

Lemma rsp_sim n a : sim (W eq) (rsp_DecodeR R n a) (rsp_Decode R a n).
Proof.
  unfold rsp_DecodeR, rsp_Decode. apply (sim_for (fun _ => eq)); [|reflexivity]. intros i s t _ <-. apply (sim_read_ eq (r_bytes 32)). intros x. constructor. reflexivity.
Qed.
Lemma pk_sim n p : sim (W eq) (pk_DecodeR R n p) (pk_Decode R p n).
Proof.
  unfold pk_DecodeR, pk_Decode. apply (sim_for (fun _ => eq)); [|reflexivity]. intros i s t _ <-. apply (sim_read_ eq (r_bytes 32)). intros x. destruct (pset R x); constructor; reflexivity.
Qed.
Lemma sig_sim k s : sim (W eq) (sig_DecodeR R k s) (sig_Decode R s k).
Proof.
  unfold sig_DecodeR, sig_Decode. unfold then_ at 1. unfold read_ at 1. unfold r_bytes. cbn [rbind]. constructor. intros b.
  destruct b as [x|e|]; cbn [rbind assign_]; [|constructor; reflexivity..].
  refine (sim_read_ eq r_u32 _ _ (fun lenR => _) _). intros lenR.
  refine (sim_read_ eq r_u32 _ _ (fun num => _) _). intros num. constructor.
  unfold then_ at 1. cbn [assign_ rbind].
  set (s1 := set_c R (sset R x) s). set (m := Z.to_nat lenR).
  apply (sim_then (filled (sg_r R) (set_r R) [] m s1 (0 + m))).
  - apply (sim_for (filled (sg_r R) (set_r R) [] m s1)); [|split; [reflexivity|rewrite Nat.sub_0_r; reflexivity]].
    intros i s' t L Q. apply sim_row; auto; [apply rsp_sim|lia].
  - intros s' rows [L ->]. cbn [plus]. rewrite Nat.sub_diag, app_nil_r. destruct k; cbn [negb]; [|constructor; reflexivity].
    constructor. unfold then_. cbn [assign_ rbind]. set (s2 := set_r R rows s1).
    apply (sim_map (filled (sg_pub R) (set_pub R) (mkPK R false []) m s2 (0 + m))).
    + apply (sim_for (filled (sg_pub R) (set_pub R) (mkPK R false []) m s2)); [|split; [reflexivity|rewrite Nat.sub_0_r; reflexivity]].
      intros i s' t L' Q. apply sim_row; auto; [apply pk_sim|lia].
    + intros s' ks [L' ->]. cbn [plus]. rewrite Nat.sub_diag, app_nil_r. reflexivity.
Qed.

Context (junk : pt R -> bytes -> pt R).
Lemma com_sim c : sim (W eq) (com_DecodeR R junk c) (com_Decode R c).
Proof. unfold com_DecodeR, com_Decode. apply (sim_read_ eq (r_bytes 32)). intros x. destruct (pset R x); constructor; reflexivity. Qed.
Lemma point_sim old : sim (W eq) (readerToPointR R junk old) (readerToPoint R).
Proof. unfold readerToPointR, readerToPoint. apply (sim_read_ eq (r_bytes 32)). intros x. destruct (pset R x); constructor; reflexivity. Qed.
Lemma scalar_sim old : sim (W eq) (readerToScalarR R old) (readerToScalar R).
Proof. unfold readerToScalarR, readerToScalar. apply (sim_read_ eq (r_bytes 32)). intros x. constructor. reflexivity. Qed.
Lemma on_sim {A T} (get : A -> T) (set : T -> A -> A) (d : T -> rprog (T * res unit)) q s :
  sim (W eq) (d (get s)) q -> sim (W (fun s' t => s' = set t s)) (on_ get set d s) q.
Proof.
  intros H. unfold on_. induction H as [[t r] y Q| | |]; cbn [rbind]; [|constructor; auto..].
  unfold W in Q. cbn in Q. destruct r; destruct y; try contradiction; constructor; unfold W; cbn; subst; auto.
Qed.
Lemma pf_sim k p : sim (W eq) (pf_DecodeR R junk k p) (pf_Decode R p k).
Proof.
  unfold pf_DecodeR, pf_Decode.
  refine (sim_then (fun s V => s = set_V R V p) eq _ _ _ _ (fun V => _) _ _).
  { destruct k; [|constructor; destruct p; reflexivity]. unfold read_. generalize (DecodeCommitments R). intros q. induction q as [x|n q IH|q IH|n q IH]; cbn [rbind]; [|constructor; auto..].
    destruct x; constructor; reflexivity. }
  intros s V ->.
  refine (sim_then (fun s A => s = set_A R A (set_V R V p)) eq _ _ _ _ (fun A => _) _ _); [apply on_sim, point_sim|]. intros s A ->.
  refine (sim_then (fun s pS => s = set_S R pS (set_A R A (set_V R V p))) eq _ _ _ _ (fun pS => _) _ _); [apply on_sim, point_sim|]. intros s pS ->.
  refine (sim_then (fun s T1 => s = set_T1 R T1 (set_S R pS (set_A R A (set_V R V p)))) eq _ _ _ _ (fun T1 => _) _ _); [apply on_sim, point_sim|]. intros s T1 ->.
  refine (sim_then (fun s T2 => s = set_T2 R T2 (set_T1 R T1 (set_S R pS (set_A R A (set_V R V p))))) eq _ _ _ _ (fun T2 => _) _ _); [apply on_sim, point_sim|]. intros s T2 ->.
  refine (sim_then (fun s x => s = set_taux R x (set_T2 R T2 (set_T1 R T1 (set_S R pS (set_A R A (set_V R V p)))))) eq _ _ _ _ (fun taux => _) _ _); [apply on_sim, scalar_sim|]. intros s taux ->.
  refine (sim_then (fun s x => s = set_mu R x (set_taux R taux (set_T2 R T2 (set_T1 R T1 (set_S R pS (set_A R A (set_V R V p))))))) eq _ _ _ _ (fun mu => _) _ _); [apply on_sim, scalar_sim|]. intros s mu ->.
  refine (sim_then (fun s x => s = set_t R x (set_mu R mu (set_taux R taux (set_T2 R T2 (set_T1 R T1 (set_S R pS (set_A R A (set_V R V p)))))))) eq _ _ _ _ (fun t => _) _ _); [apply on_sim, scalar_sim|]. intros s t ->.
  apply (sim_bind eq _ _ _ _ _ (sim_refl _)). intros [ip r] y <-. destruct r; constructor; reflexivity.
Qed.

(** ** What is left *)
End Facts.
Lemma bytes_of_rbytes r : fault_free r -> bytes_of r = rbytes r.
Proof. apply rbytes_concat. Qed.
Lemma r_bytes_cases n r : fault_free r ->
  (n <= length (rbytes r) /\ exists r', exec (r_bytes n) r = (Ok (firstn n (rbytes r)), r') /\ fault_free r' /\ rbytes r' = skipn n (rbytes r)) \/
  (length (rbytes r) < n /\ exists e, exec (r_bytes n) r = (Err e, [])).
Proof.
  intros Fr. destruct (le_lt_dec n (length (rbytes r))) as [L|L]; [left|right; split; [exact L|apply r_bytes_short; assumption]].
  split; [exact L|]. destruct (reads_bytes n (firstn n (rbytes r)) (firstn_length_le _ L) r (skipn n (rbytes r)) Fr) as (r' & X & Y & Z); [symmetry; apply firstn_skipn|]. exists r'. auto.
Qed.

(** [ends p b s o]: on input b the receiver becomes s; o is the rest of the input, None after an error *)
Definition gives {A} (p : rprog (A * res unit)) (b : bytes) (Q : A -> res unit -> reader -> Prop) : Prop :=
  forall r, fault_free r -> rbytes r = b -> exists s o r', exec p r = ((s, o), r') /\ Q s o r'.
Definition ending (o : option bytes) (x : res unit) (r : reader) : Prop :=
  match o with Some rest => x = Ok tt /\ fault_free r /\ rbytes r = rest | None => exists e, x = Err e end.
Definition ends {A} (p : rprog (A * res unit)) (b : bytes) (s : A) (o : option bytes) : Prop :=
  gives p b (fun s' x r => s' = s /\ ending o x r).
Lemma ends_ret {A} (s : A) b : ends (RRet (s, Ok tt)) b s (Some b).
Proof. intros r Fr B. rewrite exec_RRet. exists s, (Ok tt), r. cbn. auto. Qed.
Lemma ends_err {A} (s : A) b e : ends (RRet (s, Err e)) b s None.
Proof. intros r Fr B. rewrite exec_RRet. exists s, (Err e), r. cbn. eauto. Qed.
Lemma ends_alloc {A} n (p : rprog (A * res unit)) b s o : ends p b s o -> ends (RAlloc n p) b s o.
Proof. intros H r Fr B. rewrite exec_RAlloc. apply H; assumption. Qed.
Lemma gives_then {A} (d1 d2 : A -> rprog (A * res unit)) s b s1 b1 Q : ends (d1 s) b s1 (Some b1) -> gives (d2 s1) b1 Q -> gives (then_ d1 d2 s) b Q.
Proof.
  intros H1 H2 r Fr B. unfold then_. rewrite exec_rbind. destruct (H1 r Fr B) as (s' & o & r' & E & -> & -> & Fr' & B'). rewrite E. apply H2; assumption.
Qed.
Lemma gives_stop {A} (d1 d2 : A -> rprog (A * res unit)) s b s1 (Q : A -> res unit -> reader -> Prop) : ends (d1 s) b s1 None -> (forall e r, Q s1 (Err e) r) -> gives (then_ d1 d2 s) b Q.
Proof.
  intros H1 H2 r Fr B. unfold then_. rewrite exec_rbind. destruct (H1 r Fr B) as (s' & o & r' & E & -> & [e ->]). rewrite E. rewrite exec_RRet. exists s1, (Err e), r'. auto.
Qed.
Lemma ends_then {A} (d1 d2 : A -> rprog (A * res unit)) s b s1 b1 s2 o : ends (d1 s) b s1 (Some b1) -> ends (d2 s1) b1 s2 o -> ends (then_ d1 d2 s) b s2 o.
Proof. apply gives_then. Qed.
Lemma ends_stop {A} (d1 d2 : A -> rprog (A * res unit)) s b s1 : ends (d1 s) b s1 None -> ends (then_ d1 d2 s) b s1 None.
Proof. intros H. apply (gives_stop d1 d2 s b s1 _ H). cbn. eauto. Qed.
Lemma ends_read {A} n (k : bytes -> A -> rprog (A * res unit)) s b s' o : n <= length b -> ends (k (firstn n b) s) (skipn n b) s' o -> ends (read_ (r_bytes n) k s) b s' o.
Proof.
  intros L H r Fr B. unfold read_. rewrite exec_rbind. destruct (r_bytes_cases n r Fr) as [[_ (r' & E & Fr' & B')]|[L' _]]; [|rewrite B in L'; lia].
  rewrite E. rewrite B in *. apply H; assumption.
Qed.
Lemma ends_eof {A} n (k : bytes -> A -> rprog (A * res unit)) s b : length b < n -> ends (read_ (r_bytes n) k s) b s None.
Proof.
  intros L r Fr B. unfold read_. rewrite exec_rbind. destruct (r_bytes_cases n r Fr) as [[L' _]|[_ (e & E)]]; [rewrite B in L'; lia|].
  rewrite E, exec_RRet. exists s, (Err e), []. cbn. eauto.
Qed.
Lemma ends_u32 {A} (k : Z -> A -> rprog (A * res unit)) s b s' o : 4 <= length b -> ends (k (get_u32 (firstn 4 b)) s) (skipn 4 b) s' o -> ends (read_ r_u32 k s) b s' o.
Proof.
  intros L H r Fr B. unfold read_, r_u32. rewrite !exec_rbind. destruct (r_bytes_cases 4 r Fr) as [[_ (r' & E & Fr' & B')]|[L' _]]; [|rewrite B in L'; lia].
  rewrite E. unfold rret. rewrite exec_RRet. rewrite B in *. apply H; assumption.
Qed.
Lemma ends_u32_eof {A} (k : Z -> A -> rprog (A * res unit)) s b : length b < 4 -> ends (read_ r_u32 k s) b s None.
Proof.
  intros L r Fr B. unfold read_, r_u32. rewrite !exec_rbind. destruct (r_bytes_cases 4 r Fr) as [[L' _]|[_ (e & E)]]; [rewrite B in L'; lia|].
  rewrite E, !exec_RRet. exists s, (Err e), []. cbn. eauto.
Qed.
Lemma ends_on {A T} (get : A -> T) (set : T -> A -> A) d s b t o : ends (d (get s)) b t o -> ends (on_ get set d s) b (set t s) o.
Proof.
  intros H r Fr B. unfold on_. rewrite exec_rbind. destruct (H r Fr B) as (t' & x & r' & E & -> & K). rewrite E, exec_RRet. exists (set t s), x, r'. auto.
Qed.

Lemma blocks_S n b : 32 <= length b -> blocks (S n) b = firstn 32 b :: blocks n (skipn 32 b).
Proof. intros L. cbn [blocks]. rewrite (proj2 (Nat.ltb_ge _ _) L). reflexivity. Qed.
Lemma blocks_short n b : length b < 32 -> blocks n b = [].
Proof. intros L. destruct n; [reflexivity|]. cbn [blocks]. rewrite (proj2 (Nat.ltb_lt _ _) L). reflexivity. Qed.

Lemma blocks_le n : forall b, length (blocks n b) <= n.
Proof. induction n as [|n IH]; intros b; cbn [blocks]; [cbn; lia|]. destruct (length b <? 32); cbn [length]; [lia|]. specialize (IH (skipn 32 b)). lia. Qed.

Section Left.
Context (R : rist).
Lemma rsp_ends_n n : forall lo a b, ends (for_ lo n (fun _ => read_ (r_bytes 32) (fun x => assign_ (fun a => a ++ [sset R x]))) a) b
  (left_responses R a n b) (if 32 * n <=? length b then Some (skipn (32 * n) b) else None).
Proof.
  unfold left_responses. induction n as [|n IH]; intros lo a b.
  - cbn [for_ blocks map]. rewrite app_nil_r. apply ends_ret.
  - cbn [for_]. destruct (le_lt_dec 32 (length b)) as [L|L].
    + eapply ends_then; [apply ends_read; [exact L|apply ends_ret]|]. rewrite blocks_S by exact L. cbn [map].
      specialize (IH (S lo) (a ++ [sset R (firstn 32 b)]) (skipn 32 b)). rewrite <- app_assoc in IH. cbn [app] in IH.
      rewrite skipn_length, skip2 in IH. replace (32 + 32 * n) with (32 * S n) in IH by lia.
      replace (32 * S n <=? length b) with (32 * n <=? length b - 32); [exact IH|].
      destruct (Nat.leb_spec (32 * n) (length b - 32)); destruct (Nat.leb_spec (32 * S n) (length b)); try reflexivity; lia.
    + rewrite blocks_short by exact L. cbn [map]. rewrite app_nil_r. rewrite (proj2 (Nat.leb_gt _ _)) by lia. apply ends_stop, ends_eof, L.
Qed.
Lemma rsp_ends n a b : ends (rsp_DecodeR R n a) b (left_responses R a (Z.to_nat n) b) (if 32 * Z.to_nat n <=? length b then Some (skipn (32 * Z.to_nat n) b) else None).
Proof. apply rsp_ends_n. Qed.
Lemma points_le bs : length (points R bs) <= length bs.
Proof. induction bs as [|x bs IH]; cbn; [lia|]. destruct (pset R x); cbn; lia. Qed.
Lemma pk_ends_n n : forall lo p b, ends (for_ lo n (fun _ => read_ (r_bytes 32) (fun x =>
    match pset R x with
    | Some k => assign_ (fun p => mkPK R (pk_decoy R p) (pk_keys R p ++ [k]))
    | None => fun p => RRet (p, Err "point not encodable"%string)
    end)) p) b
  (left_keys R p n b) (if length (points R (blocks n b)) =? n then Some (skipn (32 * n) b) else None).
Proof.
  unfold left_keys. induction n as [|n IH]; intros lo p b.
  - cbn [for_ blocks points]. rewrite app_nil_r. destruct p. apply ends_ret.
  - cbn [for_]. destruct (le_lt_dec 32 (length b)) as [L|L].
    + rewrite blocks_S by exact L. cbn [points]. destruct (pset R (firstn 32 b)) as [k|] eqn:K.
      * eapply ends_then; [apply ends_read; [exact L|rewrite K; apply ends_ret]|].
        specialize (IH (S lo) (mkPK R (pk_decoy R p) (pk_keys R p ++ [k])) (skipn 32 b)). cbn [pk_keys pk_decoy] in IH. rewrite <- app_assoc in IH. cbn [app] in IH.
        rewrite skip2 in IH. replace (32 + 32 * n) with (32 * S n) in IH by lia. cbn [length Nat.eqb]. exact IH.
      * cbn [length Nat.eqb]. rewrite app_nil_r. destruct p as [d ks]. apply ends_stop. apply ends_read; [exact L|rewrite K; apply ends_err].
    + rewrite blocks_short by exact L. cbn [points length Nat.eqb]. rewrite app_nil_r. destruct p. apply ends_stop, ends_eof, L.
Qed.
Lemma pk_ends n p b : ends (pk_DecodeR R n p) b (left_keys R p (Z.to_nat n) b) (if length (points R (blocks (Z.to_nat n) b)) =? Z.to_nat n then Some (skipn (32 * Z.to_nat n) b) else None).
Proof. apply pk_ends_n. Qed.

(** rows *)
Section Rows.
Context {A T : Type} (get : A -> list T) (set : list T -> A -> A) (GS : forall l x, get (set l x) = l) (SS : forall l l' x, set l (set l' x) = set l x).
Context (d : T -> rprog (T * res unit)) (e : T) (row : bytes -> T) (next : bytes -> option bytes) (D : forall b, ends (d e) b (row b) (next b)).
Fixpoint rows_left (m : nat) (b : bytes) : list T :=
  match m with O => [] | S k => row b :: match next b with Some b' => rows_left k b' | None => repeat e k end end.
Fixpoint rows_next (m : nat) (b : bytes) : option bytes :=
  match m with O => Some b | S k => match next b with Some b' => rows_next k b' | None => None end end.
Lemma row_ends done k s b : ends (on_ get set (at_ d (length done)) (set (done ++ repeat e (S k)) s)) b (set (done ++ row b :: repeat e k) s) (next b).
Proof.
  replace (set (done ++ row b :: repeat e k) s) with (set (done ++ row b :: repeat e k) (set (done ++ repeat e (S k)) s)) by apply SS.
  apply ends_on. rewrite GS. unfold at_. intros r Fr B.
  assert (I : idx (done ++ repeat e (S k)) (length done) = Ok e) by (unfold idx; rewrite nth_error_app2, Nat.sub_diag by lia; reflexivity).
  rewrite I, exec_rbind. destruct (D b r Fr B) as (t & x & r' & E & -> & K). rewrite E.
  assert (U : set_idx (done ++ repeat e (S k)) (length done) (row b) = Ok (done ++ row b :: repeat e k)).
  { unfold set_idx. rewrite app_length. cbn [repeat length]. rewrite (proj2 (Nat.ltb_lt _ _)) by lia. f_equal. generalize (repeat e k). clear. intros tl. induction done as [|a l IH]; cbn; [reflexivity|]. f_equal. exact IH. }
  rewrite U, exec_RRet. exists (done ++ row b :: repeat e k), x, r'. auto.
Qed.
Lemma rows_ends k : forall done s b, ends (for_ (length done) k (fun i => on_ get set (at_ d i)) (set (done ++ repeat e k) s)) b (set (done ++ rows_left k b) s) (rows_next k b).
Proof.
  induction k as [|k IH]; intros done s b; [apply ends_ret|]. cbn [for_ rows_left rows_next].
  pose proof (row_ends done k s b) as H. destruct (next b) as [b'|] eqn:N.
  - eapply ends_then; [exact H|]. specialize (IH (done ++ [row b]) s b'). rewrite app_length, <- !app_assoc in IH. cbn [app length] in IH. rewrite Nat.add_1_r in IH. exact IH.
  - apply ends_stop. exact H.
Qed.
End Rows.
Lemma rsp_rows n m : forall b, rows_left [] (fun b => left_responses R [] n b) (fun b => if 32 * n <=? length b then Some (skipn (32 * n) b) else None) m b = left_rows R m n b /\
  rows_next (fun b => if 32 * n <=? length b then Some (skipn (32 * n) b) else None) m b = if m * (32 * n) <=? length b then Some (skipn (m * (32 * n)) b) else None.
Proof.
  induction m as [|m IH]; intros b; [split; reflexivity|]. cbn [rows_left left_rows rows_next]. unfold left_responses at 1. cbn [app].
  destruct (Nat.leb_spec (32 * n) (length b)) as [L|L].
  - destruct (IH (skipn (32 * n) b)) as [A B]. rewrite A, B, skipn_length, skip2. split; [reflexivity|]. change (S m * (32 * n)) with (32 * n + m * (32 * n)). generalize (m * (32 * n)). intros q.
    destruct (Nat.leb_spec q (length b - 32 * n)); destruct (Nat.leb_spec (32 * n + q) (length b)); try reflexivity; lia.
  - split.
    + f_equal. rewrite skipn_all2 by lia. destruct n as [|n]; [lia|]. clear. induction m as [|m IH]; [reflexivity|]. cbn [repeat left_rows]. rewrite skipn_nil, blocks_short by (cbn; lia). cbn [map]. f_equal. exact IH.
    + change (S m * (32 * n)) with (32 * n + m * (32 * n)). rewrite (proj2 (Nat.leb_gt _ _)) by lia. reflexivity.
Qed.
Lemma pk_rows n m : forall b, rows_left (mkPK R false []) (fun b => left_keys R (mkPK R false []) n b) (fun b => if length (points R (blocks n b)) =? n then Some (skipn (32 * n) b) else None) m b = left_key_rows R m n b.
Proof.
  induction m as [|m IH]; intros b; [reflexivity|]. cbn [rows_left left_key_rows]. f_equal. destruct (length (points R (blocks n b)) =? n); [apply IH|reflexivity].
Qed.
Definition sig_rest (keys : bool) (b : bytes) (o : option bytes) : Prop :=
  let m := rows_in b in
  let n := row_len b in
  o = if length b <? 40 then None else if m * (32 * n) <=? length (skipn 40 b) then
      if keys then rows_next (fun b => if length (points R (blocks n b)) =? n then Some (skipn (32 * n) b) else None) m (skipn (m * (32 * n)) (skipn 40 b))
      else Some (skipn (m * (32 * n)) (skipn 40 b))
    else None.
Lemma sig_ends keys s b : exists o, sig_rest keys b o /\ ends (sig_DecodeR R keys s) b (left_signature R s keys b) o.
Proof.
  eexists. split; [reflexivity|]. unfold sig_DecodeR, left_signature. destruct (Nat.ltb_spec (length b) 32) as [L|L].
  { rewrite (proj2 (Nat.ltb_lt _ _)) by lia. apply ends_stop, ends_eof, L. }
  eapply ends_then; [apply ends_read; [exact L|apply ends_ret]|]. set (b1 := skipn 32 b). assert (L1 : length b1 = length b - 32) by apply skipn_length.
  destruct (Nat.ltb_spec (length b) 40) as [L'|L'].
  { destruct (le_lt_dec 4 (length b1)) as [K|K]; [|apply ends_u32_eof, K]. apply ends_u32; [exact K|]. apply ends_u32_eof. rewrite (skipn_length 4 b1). lia. }
  apply ends_u32; [lia|]. apply ends_u32; [rewrite skipn_length; lia|]. apply ends_alloc. subst b1.
  replace (skipn 4 (skipn 4 (skipn 32 b))) with (skipn 40 b) by (rewrite !skip2; reflexivity). replace (skipn 4 (skipn 32 b)) with (skipn 36 b) by (rewrite skip2; reflexivity).
  change (Z.to_nat (get_u32 (firstn 4 (skipn 32 b)))) with (rows_in b). unfold row_len. set (m := rows_in b). set (nz := get_u32 (firstn 4 (skipn 36 b))). set (b2 := skipn 40 b).
  eapply ends_then; [apply ends_ret|].
  pose proof (rows_ends (sg_r R) (set_r R) (fun l x => eq_refl) (fun l l' x => eq_refl) (rsp_DecodeR R nz) [] (fun b => left_responses R [] (Z.to_nat nz) b) (fun b => if 32 * Z.to_nat nz <=? length b then Some (skipn (32 * Z.to_nat nz) b) else None) (rsp_ends nz []) m [] (set_c R (sset R (firstn 32 b)) s) b2) as H.
  destruct (rsp_rows (Z.to_nat nz) m b2) as [E1 E2]. cbn [length app] in H. rewrite E1, E2 in H.
  destruct (m * (32 * Z.to_nat nz) <=? length b2).
  - eapply ends_then; [exact H|]. destruct keys; cbn [negb andb].
    + apply ends_alloc. eapply ends_then; [apply ends_ret|].
      pose proof (rows_ends (sg_pub R) (set_pub R) (fun l x => eq_refl) (fun l l' x => eq_refl) (pk_DecodeR R nz) (mkPK R false []) (fun b => left_keys R (mkPK R false []) (Z.to_nat nz) b) (fun b => if length (points R (blocks (Z.to_nat nz) b)) =? Z.to_nat nz then Some (skipn (32 * Z.to_nat nz) b) else None) (pk_ends nz (mkPK R false [])) m []
        (set_r R (left_rows R m (Z.to_nat nz) b2) (set_c R (sset R (firstn 32 b)) s)) (skipn (m * (32 * Z.to_nat nz)) b2)) as H2.
      cbn [length app] in H2. rewrite pk_rows in H2. exact H2.
    + apply ends_ret.
  - rewrite andb_false_r. apply ends_stop. exact H.
Qed.

(** ** Range proofs *)
Context (junk : pt R -> bytes -> pt R).
Lemma point_ends old b x : 32 <= length b -> pset R (firstn 32 b) = Some x -> ends (readerToPointR R junk old) b x (Some (skipn 32 b)).
Proof. intros L P. apply ends_read; [exact L|]. rewrite P. apply ends_ret. Qed.
Lemma point_bad old b : 32 <= length b -> pset R (firstn 32 b) = None -> ends (readerToPointR R junk old) b (junk old (firstn 32 b)) None.
Proof. intros L P. apply ends_read; [exact L|]. rewrite P. apply ends_err. Qed.
Lemma point_eof old b : length b < 32 -> ends (readerToPointR R junk old) b old None.
Proof. apply ends_eof. Qed.
Lemma scalar_ends old b : 32 <= length b -> ends (readerToScalarR R old) b (sset R (firstn 32 b)) (Some (skipn 32 b)).
Proof. intros L. apply ends_read; [exact L|]. apply ends_ret. Qed.
Lemma scalar_eof old b : length b < 32 -> ends (readerToScalarR R old) b old None.
Proof. apply ends_eof. Qed.
Definition ip_stage (p : proof R) : rprog (proof R * res unit) :=
  rbind (ipp_Decode R (mkIPP R [] [] f0 f0)) (fun '(ip, r) => RRet (set_ip R (Some ip) p, r)).
Definition pf_fields : proof R -> rprog (proof R * res unit) :=
  (then_ (on_ (pf_A R) (set_A R) (readerToPointR R junk))
  (then_ (on_ (pf_S R) (set_S R) (readerToPointR R junk))
  (then_ (on_ (pf_T1 R) (set_T1 R) (readerToPointR R junk))
  (then_ (on_ (pf_T2 R) (set_T2 R) (readerToPointR R junk))
  (then_ (on_ (pf_taux R) (set_taux R) (readerToScalarR R))
  (then_ (on_ (pf_mu R) (set_mu R) (readerToScalarR R))
  (then_ (on_ (pf_t R) (set_t R) (readerToScalarR R))
  ip_stage))))))).
Definition fails_with {A} (q : A) (s : A) (o : res unit) (r : reader) : Prop := o = Ok tt \/ (exists e, o = Err e) /\ s = q.
Lemma ip_gives p b : gives (ip_stage p) b (fails_with (set_ip R (Some (if length b <? 64 then mkIPP R [] [] f0 f0 else mkIPP R [] [] (sset R (firstn 32 b)) (sset R (firstn 32 (skipn 32 b))))) p)).
Proof.
  intros r Fr B. unfold ip_stage, ipp_Decode. rewrite !exec_rbind. destruct (r_bytes_cases 32 r Fr) as [[L (r1 & E1 & Fr1 & B1)]|[L (e & E1)]]; rewrite E1.
  - rewrite exec_rbind. destruct (r_bytes_cases 32 r1 Fr1) as [[L2 (r2 & E2 & Fr2 & B2)]|[L2 (e & E2)]]; rewrite E2.
    + rewrite exec_RAll, (read_all_ok r2 Fr2). destruct (negb (length (rbytes r2) mod 32 =? 0)).
      * rewrite !exec_RRet. eexists _, _, _. split; [reflexivity|]. right. split; [eauto|]. rewrite B1, skipn_length in L2. rewrite B in *.
        rewrite (proj2 (Nat.ltb_ge _ _)) by lia. cbn [ip_L ip_R]. rewrite B1. reflexivity.
      * rewrite !exec_RAlloc. destruct (lr_decode R _ _) as [Ls Rs]. rewrite !exec_RRet. eexists _, _, _. split; [reflexivity|]. left. reflexivity.
    + rewrite !exec_RRet. eexists _, _, _. split; [reflexivity|]. right. split; [eauto|]. rewrite B1, skipn_length in L2. rewrite B in *. rewrite (proj2 (Nat.ltb_lt _ _)) by lia. reflexivity.
  - rewrite !exec_RRet. eexists _, _, _. split; [reflexivity|]. right. split; [eauto|]. rewrite B in *. rewrite (proj2 (Nat.ltb_lt _ _)) by lia. reflexivity.
Qed.
Lemma gives_imp {A} (p : rprog (A * res unit)) b (Q Q' : A -> res unit -> reader -> Prop) : (forall s o r, Q s o r -> Q' s o r) -> gives p b Q -> gives p b Q'.
Proof. intros H K r Fr B. destruct (K r Fr B) as (s & o & r' & E & X). exists s, o, r'. auto. Qed.
Lemma fields_give p b0 : gives (pf_fields p) b0 (fails_with (left_proof R junk p b0)).
Proof.
  assert (X : forall q, left_proof R junk p b0 = q -> forall e r, fails_with (left_proof R junk p b0) q (Err e) r) by (intros q <- e r; right; eauto).
  unfold pf_fields.
  Ltac fin := unfold left_proof, left_point, left_scalar, left_ip.
  destruct (le_lt_dec 32 (length b0)) as [L0|L0]; [|eapply gives_stop; [apply ends_on, point_eof, L0|]; pose proof (blocks_short 7 b0 L0) as B0; apply X; fin; rewrite B0; cbn [decoded Nat.ltb Nat.leb Nat.eqb nth_error]; destruct p; reflexivity].
  pose proof (blocks_S 6 b0 L0) as B0. set (b1 := skipn 32 b0) in *.
  destruct (pset R (firstn 32 b0)) as [a0|] eqn:P0; [|eapply gives_stop; [apply ends_on, point_bad; [exact L0|exact P0]|]; apply X; fin; rewrite B0; cbn [decoded Nat.ltb Nat.leb Nat.eqb nth_error]; rewrite ?P0; cbn [decoded Nat.ltb Nat.leb Nat.eqb nth_error]; rewrite ?P0; cbn [decoded Nat.ltb Nat.leb Nat.eqb nth_error]; destruct p; reflexivity].
  eapply gives_then; [apply ends_on, point_ends; [exact L0|exact P0]|]. change (skipn 32 b0) with b1.
  destruct (le_lt_dec 32 (length b1)) as [L1|L1]; [|eapply gives_stop; [apply ends_on, point_eof, L1|]; pose proof (blocks_short 6 b1 L1) as B1; apply X; fin; rewrite B0, B1; cbn [decoded Nat.ltb Nat.leb Nat.eqb nth_error]; rewrite ?P0; cbn [decoded Nat.ltb Nat.leb Nat.eqb nth_error]; rewrite ?P0; cbn [decoded Nat.ltb Nat.leb Nat.eqb nth_error]; destruct p; reflexivity].
  pose proof (blocks_S 5 b1 L1) as B1. set (b2 := skipn 32 b1) in *.
  destruct (pset R (firstn 32 b1)) as [a1|] eqn:P1; [|eapply gives_stop; [apply ends_on, point_bad; [exact L1|exact P1]|]; apply X; fin; rewrite B0, B1; cbn [decoded Nat.ltb Nat.leb Nat.eqb nth_error]; rewrite ?P0; rewrite ?P1; cbn [decoded Nat.ltb Nat.leb Nat.eqb nth_error]; rewrite ?P0; rewrite ?P1; cbn [decoded Nat.ltb Nat.leb Nat.eqb nth_error]; destruct p; reflexivity].
  eapply gives_then; [apply ends_on, point_ends; [exact L1|exact P1]|]. change (skipn 32 b1) with b2.
  destruct (le_lt_dec 32 (length b2)) as [L2|L2]; [|eapply gives_stop; [apply ends_on, point_eof, L2|]; pose proof (blocks_short 5 b2 L2) as B2; apply X; fin; rewrite B0, B1, B2; cbn [decoded Nat.ltb Nat.leb Nat.eqb nth_error]; rewrite ?P0; rewrite ?P1; cbn [decoded Nat.ltb Nat.leb Nat.eqb nth_error]; rewrite ?P0; rewrite ?P1; cbn [decoded Nat.ltb Nat.leb Nat.eqb nth_error]; destruct p; reflexivity].
  pose proof (blocks_S 4 b2 L2) as B2. set (b3 := skipn 32 b2) in *.
  destruct (pset R (firstn 32 b2)) as [a2|] eqn:P2; [|eapply gives_stop; [apply ends_on, point_bad; [exact L2|exact P2]|]; apply X; fin; rewrite B0, B1, B2; cbn [decoded Nat.ltb Nat.leb Nat.eqb nth_error]; rewrite ?P0; rewrite ?P1; rewrite ?P2; cbn [decoded Nat.ltb Nat.leb Nat.eqb nth_error]; rewrite ?P0; rewrite ?P1; rewrite ?P2; cbn [decoded Nat.ltb Nat.leb Nat.eqb nth_error]; destruct p; reflexivity].
  eapply gives_then; [apply ends_on, point_ends; [exact L2|exact P2]|]. change (skipn 32 b2) with b3.
  destruct (le_lt_dec 32 (length b3)) as [L3|L3]; [|eapply gives_stop; [apply ends_on, point_eof, L3|]; pose proof (blocks_short 4 b3 L3) as B3; apply X; fin; rewrite B0, B1, B2, B3; cbn [decoded Nat.ltb Nat.leb Nat.eqb nth_error]; rewrite ?P0; rewrite ?P1; rewrite ?P2; cbn [decoded Nat.ltb Nat.leb Nat.eqb nth_error]; rewrite ?P0; rewrite ?P1; rewrite ?P2; cbn [decoded Nat.ltb Nat.leb Nat.eqb nth_error]; destruct p; reflexivity].
  pose proof (blocks_S 3 b3 L3) as B3. set (b4 := skipn 32 b3) in *.
  destruct (pset R (firstn 32 b3)) as [a3|] eqn:P3; [|eapply gives_stop; [apply ends_on, point_bad; [exact L3|exact P3]|]; apply X; fin; rewrite B0, B1, B2, B3; cbn [decoded Nat.ltb Nat.leb Nat.eqb nth_error]; rewrite ?P0; rewrite ?P1; rewrite ?P2; rewrite ?P3; cbn [decoded Nat.ltb Nat.leb Nat.eqb nth_error]; rewrite ?P0; rewrite ?P1; rewrite ?P2; rewrite ?P3; cbn [decoded Nat.ltb Nat.leb Nat.eqb nth_error]; destruct p; reflexivity].
  eapply gives_then; [apply ends_on, point_ends; [exact L3|exact P3]|]. change (skipn 32 b3) with b4.
  destruct (le_lt_dec 32 (length b4)) as [L4|L4]; [|eapply gives_stop; [apply ends_on, scalar_eof, L4|]; pose proof (blocks_short 3 b4 L4) as B4; apply X; fin; rewrite B0, B1, B2, B3, B4; cbn [decoded Nat.ltb Nat.leb Nat.eqb nth_error]; rewrite ?P0; rewrite ?P1; rewrite ?P2; rewrite ?P3; cbn [decoded Nat.ltb Nat.leb Nat.eqb nth_error]; rewrite ?P0; rewrite ?P1; rewrite ?P2; rewrite ?P3; cbn [decoded Nat.ltb Nat.leb Nat.eqb nth_error]; destruct p; reflexivity].
  pose proof (blocks_S 2 b4 L4) as B4. set (b5 := skipn 32 b4) in *.
  eapply gives_then; [apply ends_on, scalar_ends; exact L4|]. change (skipn 32 b4) with b5.
  destruct (le_lt_dec 32 (length b5)) as [L5|L5]; [|eapply gives_stop; [apply ends_on, scalar_eof, L5|]; pose proof (blocks_short 2 b5 L5) as B5; apply X; fin; rewrite B0, B1, B2, B3, B4, B5; cbn [decoded Nat.ltb Nat.leb Nat.eqb nth_error]; rewrite ?P0; rewrite ?P1; rewrite ?P2; rewrite ?P3; cbn [decoded Nat.ltb Nat.leb Nat.eqb nth_error]; rewrite ?P0; rewrite ?P1; rewrite ?P2; rewrite ?P3; cbn [decoded Nat.ltb Nat.leb Nat.eqb nth_error]; destruct p; reflexivity].
  pose proof (blocks_S 1 b5 L5) as B5. set (b6 := skipn 32 b5) in *.
  eapply gives_then; [apply ends_on, scalar_ends; exact L5|]. change (skipn 32 b5) with b6.
  destruct (le_lt_dec 32 (length b6)) as [L6|L6]; [|eapply gives_stop; [apply ends_on, scalar_eof, L6|]; pose proof (blocks_short 1 b6 L6) as B6; apply X; fin; rewrite B0, B1, B2, B3, B4, B5, B6; cbn [decoded Nat.ltb Nat.leb Nat.eqb nth_error]; rewrite ?P0; rewrite ?P1; rewrite ?P2; rewrite ?P3; cbn [decoded Nat.ltb Nat.leb Nat.eqb nth_error]; rewrite ?P0; rewrite ?P1; rewrite ?P2; rewrite ?P3; cbn [decoded Nat.ltb Nat.leb Nat.eqb nth_error]; destruct p; reflexivity].
  pose proof (blocks_S 0 b6 L6) as B6. set (b7 := skipn 32 b6) in *.
  eapply gives_then; [apply ends_on, scalar_ends; exact L6|]. change (skipn 32 b6) with b7.
  eapply gives_imp; [|apply ip_gives]. intros q o r [H|[H1 H2]]; [left; exact H|right; split; [exact H1|]]. rewrite H2. fin.
  replace (skipn 224 b0) with b7 by (unfold b7, b6, b5, b4, b3, b2, b1; rewrite !skip2; reflexivity).
  rewrite B0, B1, B2, B3, B4, B5, B6. cbn [blocks decoded Nat.ltb Nat.leb Nat.eqb nth_error]. rewrite P0, P1, P2, P3. cbn [blocks decoded Nat.ltb Nat.leb Nat.eqb nth_error]. destruct p; reflexivity.
Qed.
Lemma pf_gives p b : gives (pf_DecodeR R junk false p) b (fails_with (left_proof R junk p b)).
Proof. unfold pf_DecodeR. eapply gives_then; [apply ends_ret|]. apply fields_give. Qed.
Lemma pf_gives_commits p V e rest : SpecDecode.is_commitments R e V -> gives (pf_DecodeR R junk true p) (e ++ rest) (fails_with (left_proof R junk (set_V R V p) rest)).
Proof.
  intros C. unfold pf_DecodeR. eapply gives_then; [|apply fields_give]. intros r Fr B. unfold read_. rewrite exec_rbind.
  destruct (parses_coms R r Fr) as [(V' & r' & e' & E & Fr' & B' & C')|[_ N]]; [|exfalso; exact (N _ _ _ B C)].
  rewrite B in B'. destruct (det_coms R _ _ _ _ _ _ C C' B') as [<- <-]. apply app_inv_head in B'. rewrite E. unfold assign_. rewrite exec_RRet. eexists _, _, _. split; [reflexivity|]. split; [reflexivity|]. cbn. auto.
Qed.
Lemma pf_no_commits p b : (forall V rest e, b = e ++ rest -> ~ SpecDecode.is_commitments R e V) -> gives (pf_DecodeR R junk true p) b (fun q o _ => q = p /\ exists e, o = Err e).
Proof.
  intros N. unfold pf_DecodeR. apply (gives_stop _ _ _ _ p); [|cbn; eauto]. intros r Fr B. unfold read_. rewrite exec_rbind.
  destruct (parses_coms R r Fr) as [(V' & r' & e' & E & Fr' & B' & C')|[[er E] _]]; [exfalso; rewrite B in B'; exact (N _ _ _ B' C')|].
  destruct (exec (DecodeCommitments R) r) as [x r']. cbn in E. subst x. rewrite exec_RRet. eexists _, _, _. split; [reflexivity|]. cbn. eauto.
Qed.
End Left.
