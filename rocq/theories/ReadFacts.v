(** Facts about reader programs: all decoders are insensitive to chunking. *)
From Coq Require Import String ZArith List Lia Bool Arith.
From Verif Require Import GoModel GoFacts ReadModel.
Import ListNotations.
Local Open Scope nat_scope.

Lemma run_rbind {X Y} (p : rprog X) (f : X -> rprog Y) r :
  run (rbind p f) r =
  (let '(x, r1, al) := run p r in let '(y, r2, al') := run (f x) r1 in (y, r2, al ++ al')).
Proof.
  revert r. induction p as [x|n k IH|k IH|n k IH]; intros r; cbn [rbind run].
  - destruct (run (f x) r) as [[y r2] al']. reflexivity.
  - destruct (read_full n r) as [b r']. apply IH.
  - destruct (read_all r) as [b r']. apply IH.
  - rewrite IH. destruct (run k r) as [[x r1] al]. destruct (run (f x) r1) as [[y r2] al']. reflexivity.
Qed.

Lemma exec_rbind {X Y} (p : rprog X) (f : X -> rprog Y) r :
  exec (rbind p f) r = (let (x, r1) := exec p r in exec (f x) r1).
Proof.
  unfold exec. rewrite run_rbind. destruct (run p r) as [[x r1] al]. cbn.
  destruct (run (f x) r1) as [[y r2] al']. reflexivity.
Qed.
Lemma exec_RAlloc {X} n (k : rprog X) r : exec (RAlloc n k) r = exec k r.
Proof. unfold exec. cbn. destruct (run k r) as [[x r'] al]. reflexivity. Qed.
Lemma exec_RRead {X} n (k : res bytes -> rprog X) r :
  exec (RRead n k) r = (let (b, r') := read_full n r in exec (k b) r').
Proof. unfold exec. cbn. destruct (read_full n r). reflexivity. Qed.
Lemma exec_RAll {X} (k : res bytes -> rprog X) r :
  exec (RAll k) r = (let (b, r') := read_all r in exec (k b) r').
Proof. unfold exec. cbn. destruct (read_all r). reflexivity. Qed.
Lemma exec_RRet {X} (x : X) r : exec (RRet x) r = (x, r).
Proof. reflexivity. Qed.

(** ** Chunking *)
Lemma read_full_chunking n r1 r2 : fault_free r1 -> fault_free r2 -> rbytes r1 = rbytes r2 ->
  fst (read_full n r1) = fst (read_full n r2) /\
  rbytes (snd (read_full n r1)) = rbytes (snd (read_full n r2)) /\
  fault_free (snd (read_full n r1)) /\ fault_free (snd (read_full n r2)).
Proof.
  intros F1 F2 E. unfold read_full.
  pose proof (read_full_acc_spec r1 n [] F1) as H1. pose proof (read_full_acc_spec r2 n [] F2) as H2.
  cbn zeta in *. rewrite <- E in H2. destruct (Nat.leb n (List.length (rbytes r1))).
  - destruct H1 as [q1 [E1 [A1 B1]]]. destruct H2 as [q2 [E2 [A2 B2]]]. rewrite E1, E2. cbn.
    repeat split; congruence || assumption.
  - rewrite H1, H2. cbn. repeat split; intros e [].
Qed.

Lemma run_chunking {X} (p : rprog X) : forall r1 r2, fault_free r1 -> fault_free r2 -> rbytes r1 = rbytes r2 ->
  fst (fst (run p r1)) = fst (fst (run p r2)) /\ rbytes (snd (fst (run p r1))) = rbytes (snd (fst (run p r2))) /\
  snd (run p r1) = snd (run p r2).
Proof.
  induction p as [x|n k IH|k IH|n k IH]; intros r1 r2 F1 F2 E; cbn [run].
  - auto.
  - destruct (read_full_chunking n r1 r2 F1 F2 E) as [A [B [C D]]].
    destruct (read_full n r1) as [b1 q1]. destruct (read_full n r2) as [b2 q2]. cbn [fst snd] in *. subst b2.
    apply IH; assumption.
  - rewrite (read_all_ok r1 F1), (read_all_ok r2 F2), E.
    assert (N : fault_free []) by (intros e []).
    apply (IH (Ok (rbytes r2)) [] [] N N). reflexivity.
  - destruct (IH r1 r2 F1 F2 E) as [A [B C]].
    destruct (run k r1) as [[x1 q1] al1]. destruct (run k r2) as [[x2 q2] al2]. cbn [fst snd] in *.
    repeat split; congruence.
Qed.

(** ** Faults.  [errs X] says which results report an error. *)
Section Fault.
Context {X : Type} (good : X -> bool).

(** the program reports an error whenever a read fails *)
Fixpoint strict (p : rprog X) : Prop :=
  match p with
  | RRet _ => True
  | RRead n k => (forall e r, good (fst (exec (k (Err e)) r)) = false) /\ forall b, strict (k (Ok b))
  | RAll k => (forall e r, good (fst (exec (k (Err e)) r)) = false) /\ forall b, strict (k (Ok b))
  | RAlloc _ k => strict k
  end.

Lemma read_full_acc_fault e r1 r0 : forall need acc, fault_free r0 ->
  (exists q, read_full_acc need acc r0 = (Ok (acc ++ firstn need (rbytes r0)), q) /\ fault_free q /\
     read_full_acc need acc (r0 ++ RFault e :: r1) = (Ok (acc ++ firstn need (rbytes r0)), q ++ RFault e :: r1)) \/
  (exists q, read_full_acc need acc (r0 ++ RFault e :: r1) = (Err e, q)).
Proof.
  induction r0 as [|x r0 IH]; intros need acc Hff.
  - destruct need as [|need]; cbn.
    + left. exists []. rewrite app_nil_r. repeat split. exact Hff.
    + right. eexists. reflexivity.
  - destruct x as [bs|e']; [|exfalso; apply (Hff e'); left; reflexivity].
    pose proof (fault_free_cons _ _ Hff) as Hff'.
    destruct need as [|need]; cbn [app read_full_acc].
    + left. exists (RChunk bs :: r0). cbn. rewrite app_nil_r. repeat split. exact Hff.
    + cbn [rbytes].
      destruct (Nat.leb_spec (List.length bs) (S need)) as [C|C].
      * destruct (IH (S need - List.length bs) (acc ++ bs) Hff') as [[q [A [B D]]]|[q A]].
        -- left. exists q. rewrite A, D. rewrite firstn_app, (firstn_all2 (n := S need) bs) by lia.
           rewrite app_assoc. auto.
        -- right. exists q. exact A.
      * left. eexists. rewrite firstn_app. replace (S need - List.length bs) with 0 by lia.
        cbn [firstn]. rewrite app_nil_r. split; [reflexivity|]. split; [|reflexivity].
        intros e' [H|H]; [discriminate|]. exact (Hff' e' H).
Qed.

Lemma read_all_fault e r1 r0 : fault_free r0 -> forall acc, exists q, read_all_acc acc (r0 ++ RFault e :: r1) = (Err e, q).
Proof.
  induction r0 as [|x r0 IH]; intros Hff acc.
  - cbn. eexists. reflexivity.
  - destruct x as [bs|e']; [|exfalso; apply (Hff e'); left; reflexivity].
    cbn. apply IH. eapply fault_free_cons. exact Hff.
Qed.

(** If the stream fails after delivering the chunks [r0], a successful result was already
    determined by [r0]: the failing read was never reached. *)
Lemma run_fault (p : rprog X) : forall r0 e r1, strict p -> fault_free r0 ->
  good (fst (exec p (r0 ++ RFault e :: r1))) = true ->
  fst (exec p (r0 ++ RFault e :: r1)) = fst (exec p r0).
Proof.
  induction p as [x|n k IH|k IH|n k IH]; intros r0 e r1 S F G; cbn [strict] in S.
  - reflexivity.
  - rewrite !exec_RRead in *. unfold read_full in *.
    destruct (read_full_acc_fault e r1 r0 n [] F) as [[q [A [B D]]]|[q A]].
    + rewrite D in G |- *. rewrite A. cbn in G |- *. destruct S as [_ S]. apply IH; auto.
    + rewrite A in G. destruct S as [S _]. rewrite S in G. discriminate.
  - rewrite !exec_RAll in *. unfold read_all in *.
    destruct (read_all_fault e r1 r0 F []) as [q A]. rewrite A in G.
    destruct S as [S _]. rewrite S in G. discriminate.
  - rewrite !exec_RAlloc in *. apply IH; auto.
Qed.
End Fault.

Definition res_good {A} (r : res A) : bool := match r with Ok _ => true | _ => false end.

Lemma strict_rbind {A B} (p : rprog (res A)) (f : A -> rprog (res B)) :
  strict res_good p -> (forall a, strict res_good (f a)) ->
  strict res_good (let? x := p in f x).
Proof.
  induction p as [x|n k IH|k IH|n k IH]; cbn [strict rbind]; intros S H.
  - destruct x; cbn; auto.
  - destruct S as [S1 S2]. split.
    + intros e r. rewrite exec_rbind. specialize (S1 e r). destruct (exec (k (Err e)) r) as [[a|e'|] q]; cbn in *;
        [discriminate|reflexivity|reflexivity].
    + intros b. apply IH; auto.
  - destruct S as [S1 S2]. split.
    + intros e r. rewrite exec_rbind. specialize (S1 e r). destruct (exec (k (Err e)) r) as [[a|e'|] q]; cbn in *;
        [discriminate|reflexivity|reflexivity].
    + intros b. apply IH; auto.
  - apply IH; auto.
Qed.
Lemma strict_r_bytes n : strict res_good (r_bytes n).
Proof. cbn. auto. Qed.
Lemma strict_r_u32 : strict res_good r_u32.
Proof. unfold r_u32. apply (strict_rbind (r_bytes 4) (fun b => rret (get_u32 b))); [apply strict_r_bytes|cbn; auto]. Qed.
Lemma strict_r_for {S} (body : nat -> S -> rprog (res S)) n : (forall i s, strict res_good (body i s)) ->
  forall lo st, strict res_good (r_for lo n body st).
Proof.
  intros H. induction n as [|n IH]; intros lo st; cbn [r_for]; [cbn; auto|].
  apply (strict_rbind (body lo st) (fun st' => r_for (1 + lo) n body st')); auto.
Qed.

(** ** Reading an expected encoding *)
Definition reads {A} (p : rprog (res A)) (enc : bytes) (a : A) : Prop :=
  forall r rest, fault_free r -> rbytes r = enc ++ rest ->
  exists r', exec p r = (Ok a, r') /\ rbytes r' = rest /\ fault_free r'.

Lemma reads_r_bytes b : reads (r_bytes (length b)) b b.
Proof.
  intros r rest F E. destruct (read_full_ok (length b) r b rest F E eq_refl) as [r' [H1 H2]].
  exists r'. unfold r_bytes. rewrite exec_RRead, H1. auto.
Qed.
Lemma reads_bytes n b : length b = n -> reads (r_bytes n) b b.
Proof. intros <-. apply reads_r_bytes. Qed.
Lemma reads_bind {A B} (p : rprog (res A)) (f : A -> rprog (res B)) e1 a e2 b :
  reads p e1 a -> reads (f a) e2 b -> reads (let? x := p in f x) (e1 ++ e2) b.
Proof.
  intros H1 H2 r rest F E. rewrite <- app_assoc in E.
  destruct (H1 r (e2 ++ rest) F E) as [r1 [X1 [Y1 Z1]]].
  destruct (H2 r1 rest Z1 Y1) as [r2 [X2 [Y2 Z2]]].
  exists r2. rewrite exec_rbind, X1. auto.
Qed.
Lemma reads_ret {A} (a : A) : reads (rret a) [] a.
Proof. intros r rest F E. exists r. auto. Qed.
Lemma reads_alloc {A} n (p : rprog (res A)) e a : reads p e a -> reads (RAlloc n p) e a.
Proof. intros H r rest F E. rewrite exec_RAlloc. apply H; assumption. Qed.
Lemma reads_u32 z : reads r_u32 (put_u32 z) (z mod 2 ^ 32)%Z.
Proof.
  unfold r_u32. rewrite <- (app_nil_r (put_u32 z)).
  eapply (reads_bind (r_bytes 4) (fun b => rret (get_u32 b))).
  - apply reads_bytes. reflexivity.
  - replace (get_u32 (put_u32 z)) with (z mod 2 ^ 32)%Z; [apply reads_ret|].
    rewrite <- (get_put_u32 z []). rewrite app_nil_r. reflexivity.
Qed.
Lemma reads_for {S E} (body : nat -> S -> rprog (res S)) (enc : E -> bytes) (step : nat -> S -> E -> S) :
  forall (l : list E) lo st,
  (forall i s x, lo <= i < lo + length l -> In x l -> reads (body i s) (enc x) (step i s x)) ->
  reads (r_for lo (length l) body st) (concat (map enc l))
    (snd (fold_left (fun '(i, s) x => (1 + i, step i s x)) l (lo, st))).
Proof.
  induction l as [|x l IH]; intros lo st H; cbn [length r_for map concat fold_left].
  - cbn. apply reads_ret.
  - eapply (reads_bind (body lo st) (fun st' => r_for (1 + lo) (length l) body st')).
    + apply H; [cbn; lia|left; reflexivity].
    + apply IH. intros i s y Hi Hy. apply H; [cbn; lia|right; exact Hy].
Qed.

(** short input: reads fail *)
Lemma r_bytes_short n r : fault_free r -> length (rbytes r) < n -> exists e, exec (r_bytes n) r = (Err e, []).
Proof.
  intros F L. unfold r_bytes. rewrite exec_RRead.
  destruct (read_full_short n r F L) as [e E]. rewrite E. exists e. reflexivity.
Qed.
