(** Facts about decoders on input that ends too early *)
From Coq Require Import String ZArith List Lia Bool Arith.
From Verif Require Import GoModel GoFacts Fld Rist ReadModel ReadFacts SpecTrunc PedersenModel InnerProductModel RangeProofModel MlsagModel StreamFacts DecodeFacts.
Import ListNotations.
Local Open Scope nat_scope.

Lemma delivers_rbytes r : (forall e, ~ In (RFault e) r) -> delivers r = rbytes r.
Proof. intros F. exact (rbytes_concat r F). Qed.
Lemma read_full_eof n r : fault_free r -> length (rbytes r) < n -> read_full n r = (Err (eof (Nat.eqb (length (rbytes r)) 0)), []).
Proof.
  intros F L. unfold read_full. pose proof (read_full_acc_spec r n [] F) as H. cbn zeta in H.
  destruct (Nat.leb_spec n (length (rbytes r))) as [C|C]; [lia|]. rewrite H. cbn [app]. destruct (rbytes r); reflexivity.
Qed.
Lemma read_full_split n r : fault_free r -> n <= length (rbytes r) ->
  exists r1, read_full n r = (Ok (firstn n (rbytes r)), r1) /\ rbytes r1 = skipn n (rbytes r) /\ fault_free r1.
Proof. intros F L. apply read_full_ok; [exact F|symmetry; apply firstn_skipn|rewrite firstn_length; lia]. Qed.

(** all reads of p, begun at offset off, are on the grid; Q holds where p ends well *)
Fixpoint grid {A} (on : nat -> bool) (Q : nat -> A -> Prop) (off : nat) (p : rprog (res A)) : Prop :=
  match p with
  | RRet (Ok a) => Q off a
  | RRet _ => True
  | RRead n k => on off = true /\ (forall i, 0 < i < n -> on (off + i) = false) /\ (forall e, k (Err e) = RRet (Err e)) /\
      forall b, length b = n -> grid on Q (off + n) (k (Ok b))
  | RAll k => True
  | RAlloc _ k => grid on Q off k
  end.
Lemma grid_bind {A B} on (p : rprog (res A)) (f : A -> rprog (res B)) Q : forall off,
  grid on (fun off' a => grid on Q off' (f a)) off p -> grid on Q off (let? x := p in f x).
Proof.
  induction p as [[a|e|]|n k IH|k IH|n k IH]; intros off G; cbn [grid rbind] in *; auto.
  destruct G as (G1 & G2 & G3 & G4). split; [exact G1|]. split; [exact G2|]. split; [intros e; rewrite G3; reflexivity|]. intros b L. apply IH; auto.
Qed.
Lemma grid_weak {A} on (Q Q' : nat -> A -> Prop) p : (forall o a, Q o a -> Q' o a) -> forall off, grid on Q off p -> grid on Q' off p.
Proof.
  intros H. induction p as [[a|e|]|m k IH|k IH|m k IH]; intros off G; cbn [grid] in *; auto.
  destruct G as (G1 & G2 & G3 & G4). repeat (split; [assumption|]). intros b L. apply IH; auto.
Qed.
Lemma grid_for {S} on (P : nat -> Prop) (body : nat -> S -> rprog (res S)) : (forall i st off, P off -> grid on (fun o _ => P o) off (body i st)) ->
  forall n lo st off, P off -> grid on (fun o _ => P o) off (r_for lo n body st).
Proof.
  intros H. induction n as [|n IH]; intros lo st off HP; cbn [r_for]; [exact HP|]. apply grid_bind.
  apply (grid_weak on (fun o _ => P o)); [|exact (H lo st off HP)]. intros o a Ho. exact (IH _ a o Ho).
Qed.

(** the bytes that p asks for, until it reads all that is left *)
Fixpoint asked {X} (p : rprog X) (r : reader) : nat :=
  match p with
  | RRet _ => 0
  | RRead n k => n + asked (k (fst (read_full n r))) (snd (read_full n r))
  | RAll _ => 0
  | RAlloc _ k => asked k r
  end.
Lemma cut {A} on Q (p : rprog (res A)) : forall off r r' tail, grid on Q off p -> fault_free r -> fault_free r' -> rbytes r = rbytes r' ++ tail ->
  length (rbytes r') < asked p r -> fst (exec p r') = Err (eof (on (off + length (rbytes r')))).
Proof.
  induction p as [x|n k IH|k IH|n k IH]; intros off r r' tail G F F' E L; cbn [asked] in L; [lia| |lia|rewrite exec_RAlloc; exact (IH off r r' tail G F F' E L)].
  cbn [grid] in G. destruct G as (G1 & G2 & G3 & G4). rewrite exec_RRead. destruct (Nat.lt_ge_cases (length (rbytes r')) n) as [C|C].
  - rewrite (read_full_eof n r' F' C), G3. cbn [exec run fst]. unfold exec. cbn [run fst]. do 2 f_equal.
    destruct (Nat.eqb_spec (length (rbytes r')) 0) as [Z|Z]; [rewrite Z, Nat.add_0_r; symmetry; exact G1|symmetry; apply G2; lia].
  - destruct (read_full_split n r' F' C) as (r1' & X' & B' & F1'). assert (C2 : n <= length (rbytes r)) by (rewrite E, app_length; lia).
    destruct (read_full_split n r F C2) as (r1 & X & B & F1). rewrite X in L. cbn [fst snd] in L. rewrite X'.
    assert (EF : firstn n (rbytes r) = firstn n (rbytes r')) by (rewrite E, firstn_app; replace (n - length (rbytes r')) with 0 by lia; rewrite firstn_O, app_nil_r; reflexivity).
    rewrite EF in L. assert (LB : length (rbytes r1') = length (rbytes r') - n) by (rewrite B', skipn_length; reflexivity).
    replace (off + length (rbytes r')) with (off + n + length (rbytes r1')) by lia.
    apply (IH (Ok (firstn n (rbytes r'))) (off + n) r1 r1' tail); [apply G4; rewrite firstn_length; lia|exact F1|exact F1'| |lia].
    rewrite B, B', E, skipn_app. replace (n - length (rbytes r')) with 0 by lia. reflexivity.
Qed.
(** without reading all that is left, what is asked for is what is taken *)
Fixpoint bounded {X} (p : rprog X) : Prop := match p with RRet _ => True | RRead n k => forall b, bounded (k b) | RAll _ => False | RAlloc _ k => bounded k end.
Lemma asked_taken {A} on Q (p : rprog (res A)) : forall off r a, bounded p -> grid on Q off p -> fault_free r -> fst (exec p r) = Ok a ->
  fault_free (snd (exec p r)) /\ length (rbytes r) = asked p r + length (rbytes (snd (exec p r))).
Proof.
  induction p as [x|n k IH|k IH|n k IH]; intros off r a BD G F E; cbn [asked bounded grid] in *; [split; [exact F|reflexivity]| |contradiction|rewrite exec_RAlloc in *; exact (IH off r a BD G F E)].
  destruct G as (G1 & G2 & G3 & G4). rewrite exec_RRead in *. destruct (Nat.lt_ge_cases (length (rbytes r)) n) as [C|C].
  - rewrite (read_full_eof n r F C), G3 in E. discriminate.
  - destruct (read_full_split n r F C) as (r1 & X & B & F1). rewrite X in *. cbn [fst snd].
    assert (LF : length (firstn n (rbytes r)) = n) by (rewrite firstn_length; lia).
    destruct (IH _ (off + n) r1 a (BD _) (G4 _ LF) F1 E) as [K1 K2]. split; [exact K1|]. rewrite B, skipn_length in K2. lia.
Qed.
Lemma bounded_bind {A B} (p : rprog (res A)) (f : A -> rprog (res B)) : bounded p -> (forall a, bounded (f a)) -> bounded (let? x := p in f x).
Proof. intros Bp Bf. induction p as [[a|e|]|n k IH|k IH|n k IH]; cbn [bounded rbind] in *; auto. Qed.
Lemma bounded_for {S} (body : nat -> S -> rprog (res S)) : (forall i st, bounded (body i st)) -> forall n lo st, bounded (r_for lo n body st).
Proof. intros H. induction n as [|n IH]; intros lo st; cbn [r_for]; [exact I|]. apply bounded_bind; auto. Qed.
Lemma grid_cut {A} on Q (p : rprog (res A)) : grid on Q 0 p -> bounded p -> cut_error on p.
Proof.
  intros G BD r r' tail a F F' E X L. destruct (asked_taken on Q p 0 r a BD G F X) as [F1 T].
  rewrite (delivers_rbytes _ F), (delivers_rbytes _ F'), (delivers_rbytes _ F1) in *. apply (cut on Q p 0 r r' tail G F F' E). lia.
Qed.

(** ** The decoders *)
Lemma plain_step j : plain_fields (32 * j) = true /\ forall i, 0 < i < 32 -> plain_fields (32 * j + i) = false.
Proof.
  unfold plain_fields. split; [rewrite Nat.mul_comm, Nat.mod_mul by lia; reflexivity|]. intros i Hi. apply Nat.eqb_neq.
  rewrite Nat.add_comm, Nat.mul_comm, Nat.mod_add, Nat.mod_small by lia. lia.
Qed.
Lemma counted_step j : counted_fields (4 + 32 * j) = true /\ forall i, 0 < i < 32 -> counted_fields (4 + 32 * j + i) = false.
Proof.
  unfold counted_fields. destruct (plain_step j) as [P1 P2]. unfold plain_fields in *. split.
  - replace (4 + 32 * j - 4) with (32 * j) by lia. rewrite P1. destruct (Nat.leb_spec 4 (4 + 32 * j)); [|lia]. apply orb_true_r.
  - intros i Hi. replace (4 + 32 * j + i - 4) with (32 * j + i) by lia. rewrite (P2 i Hi), andb_false_r. destruct (Nat.eqb_spec (4 + 32 * j + i) 0); [lia|reflexivity].
Qed.
Lemma sig_step j : sig_fields (40 + 32 * j) = true /\ forall i, 0 < i < 32 -> sig_fields (40 + 32 * j + i) = false.
Proof.
  unfold sig_fields. destruct (plain_step j) as [P1 P2]. unfold plain_fields in *. split.
  - replace (40 + 32 * j - 40) with (32 * j) by lia. rewrite P1. destruct (Nat.leb_spec 40 (40 + 32 * j)); [|lia]. apply orb_true_r.
  - intros i Hi. replace (40 + 32 * j + i - 40) with (32 * j + i) by lia. rewrite (P2 i Hi), andb_false_r.
    destruct (Nat.eqb_spec (40 + 32 * j + i) 0), (Nat.eqb_spec (40 + 32 * j + i) 32), (Nat.eqb_spec (40 + 32 * j + i) 36); try lia; reflexivity.
Qed.
Lemma lt_cases (f : nat -> bool) n : forallb (fun i => negb (f i)) (seq 1 (n - 1)) = true -> forall i, 0 < i < n -> f i = false.
Proof. intros H i Hi. rewrite forallb_forall in H. apply negb_true_iff, H, in_seq. lia. Qed.

(** a grid of 32-byte fields from offset b on *)
Section Blocks.
Context (on : nat -> bool) (b0 : nat) (ST : forall j, on (b0 + 32 * j) = true /\ forall i, 0 < i < 32 -> on (b0 + 32 * j + i) = false).
Definition at_field (o : nat) : Prop := exists j, o = b0 + 32 * j.
Lemma grid_block {A} (k : bytes -> rprog (res A)) Q off : at_field off -> (forall b o, at_field o -> grid on Q o (k b)) -> grid on Q off (let? x := r_bytes 32 in k x).
Proof.
  intros [j ->] H. cbn [r_bytes rbind grid]. destruct (ST j) as [S1 S2]. split; [exact S1|]. split; [exact S2|]. split; [reflexivity|]. intros b _. apply H. exists (j + 1). lia.
Qed.
Context (R : rist).
Lemma com_grid c off : at_field off -> grid on (fun o _ => at_field o) off (com_Decode R c).
Proof. intros H. apply grid_block; [exact H|]. intros b o Ho. destruct (pset R b); [exact Ho|exact I]. Qed.
Lemma pk_grid p n off : at_field off -> grid on (fun o _ => at_field o) off (pk_Decode R p n).
Proof. intros H. apply grid_for; [|exact H]. intros i st o Ho. apply grid_block; [exact Ho|]. intros b o' Ho'. destruct (pset R b); [exact Ho'|exact I]. Qed.
Lemma rsp_grid p n off : at_field off -> grid on (fun o _ => at_field o) off (rsp_Decode R p n).
Proof. intros H. apply grid_for; [|exact H]. intros i st o Ho. apply grid_block; [exact Ho|]. intros b o' Ho'. exact Ho'. Qed.
Lemma coms_grid n off : at_field off -> grid on (fun o _ => at_field o) off (r_for 0 n (fun i comms => let? c := com_Decode R (com_zero R) in rret (comms ++ [c])) []).
Proof. intros H. apply grid_for; [|exact H]. intros i st o Ho. apply grid_bind. apply (grid_weak on (fun o _ => at_field o)); [|apply com_grid; exact Ho]. intros o' a Ho'. exact Ho'. Qed.
Lemma rows_grid {X} (p : rprog (res X)) n off : (forall o, at_field o -> grid on (fun o _ => at_field o) o p) -> at_field off ->
  grid on (fun o _ => at_field o) off (r_for 0 n (fun _ rows => let? a := p in rret (rows ++ [a])) []).
Proof. intros G H. apply grid_for; [|exact H]. intros i st o Ho. apply grid_bind. apply (grid_weak on (fun o _ => at_field o)); [|apply G; exact Ho]. intros o' a Ho'. exact Ho'. Qed.
End Blocks.
Section Decoders.
Context (R : rist).
Lemma bounded_bytes n : bounded (r_bytes n). Proof. intros b. exact I. Qed.
Lemma bounded_u32 : bounded r_u32. Proof. intros [b|e|]; exact I. Qed.
Lemma com_bounded c : bounded (com_Decode R c). Proof. apply bounded_bind; [apply bounded_bytes|]. intros b. destruct (pset R b); exact I. Qed.
Lemma pk_bounded p n : bounded (pk_Decode R p n).
Proof. apply bounded_for. intros i st. apply bounded_bind; [apply bounded_bytes|]. intros b. destruct (pset R b); exact I. Qed.
Lemma rsp_bounded p n : bounded (rsp_Decode R p n).
Proof. apply bounded_for. intros i st. apply bounded_bind; [apply bounded_bytes|]. intros b. exact I. Qed.
Lemma coms_bounded : bounded (DecodeCommitments R).
Proof. apply bounded_bind; [apply bounded_u32|]. intros n. cbn [bounded]. apply bounded_for. intros i st. apply bounded_bind; [apply com_bounded|]. intros c. exact I. Qed.
Lemma sig_bounded s b : bounded (sig_Decode R s b).
Proof.
  unfold sig_Decode. apply bounded_bind; [apply bounded_bytes|]. intros x. apply bounded_bind; [apply bounded_u32|]. intros n. apply bounded_bind; [apply bounded_u32|]. intros m.
  cbn [bounded]. apply bounded_bind; [apply bounded_for; intros i st; apply bounded_bind; [apply rsp_bounded|intros a; exact I]|]. intros rows.
  destruct (negb b); [exact I|]. cbn [bounded]. apply bounded_bind; [apply bounded_for; intros i st; apply bounded_bind; [apply pk_bounded|intros a; exact I]|]. intros ks. exact I.
Qed.
Definition P0 : at_field 0 0 := ex_intro _ 0 eq_refl.
Lemma com_cut c : cut_error plain_fields (com_Decode R c).
Proof. eapply grid_cut; [apply (com_grid plain_fields 0 plain_step R c 0 P0)|apply com_bounded]. Qed.
Lemma pk_cut p n : cut_error plain_fields (pk_Decode R p n).
Proof. eapply grid_cut; [apply (pk_grid plain_fields 0 plain_step R p n 0 P0)|apply pk_bounded]. Qed.
Lemma rsp_cut p n : cut_error plain_fields (rsp_Decode R p n).
Proof. eapply grid_cut; [apply (rsp_grid plain_fields 0 plain_step R p n 0 P0)|apply rsp_bounded]. Qed.
Lemma coms_on : grid counted_fields (fun o _ => at_field 4 o) 0 (DecodeCommitments R).
Proof.
  unfold DecodeCommitments, r_u32. cbn [r_bytes rbind grid]. split; [reflexivity|]. split; [intros i Hi; exact (lt_cases counted_fields 4 eq_refl i Hi)|].
  split; [reflexivity|]. intros b _. unfold rret. cbn [rbind grid]. apply (coms_grid counted_fields 4 counted_step). exists 0. reflexivity.
Qed.
Lemma coms_cut : cut_error counted_fields (DecodeCommitments R).
Proof. eapply grid_cut; [apply coms_on|apply coms_bounded]. Qed.
Lemma sig_cut s b : cut_error sig_fields (sig_Decode R s b).
Proof.
  apply (grid_cut sig_fields (fun _ _ => True)); [|apply sig_bounded]. unfold sig_Decode, r_u32. cbn [r_bytes rbind grid].
  split; [reflexivity|]. split; [intros i Hi; exact (lt_cases sig_fields 32 eq_refl i Hi)|]. split; [reflexivity|]. intros x _. cbn [rbind grid].
  split; [reflexivity|]. split; [intros i Hi; exact (lt_cases (fun i => sig_fields (0 + 32 + i)) 4 eq_refl i Hi)|]. split; [reflexivity|]. intros y _. unfold rret at 1. cbn [rbind grid].
  split; [reflexivity|]. split; [intros i Hi; exact (lt_cases (fun i => sig_fields (0 + 32 + 4 + i)) 4 eq_refl i Hi)|]. split; [reflexivity|]. intros z _. unfold rret at 1. cbn [rbind grid].
  change (0 + 32 + 4 + 4) with 40. apply grid_bind.
  apply (grid_weak sig_fields (fun o _ => at_field 40 o)); [|apply rows_grid; [intros o Ho; apply rsp_grid; [exact sig_step|exact Ho]|exists 0; reflexivity]].
  intros o rows Ho. destruct (negb b); [exact I|]. cbn [grid]. apply grid_bind.
  apply (grid_weak sig_fields (fun o _ => at_field 40 o)); [|apply rows_grid; [intros o' Ho'; apply pk_grid; [exact sig_step|exact Ho']|exact Ho]]. intros; exact I.
Qed.
End Decoders.

(** ** The proofs that end in a field of any length *)
Lemma asked_bind {X Y} (p : rprog X) (f : X -> rprog Y) : bounded p -> forall r, asked (rbind p f) r = asked p r + asked (f (fst (exec p r))) (snd (exec p r)).
Proof.
  induction p as [x|n k IH|k IH|n k IH]; cbn [bounded]; intros BD r; [reflexivity| |contradiction|].
  - cbn [rbind asked]. rewrite exec_RRead. destruct (read_full n r) as [b r1]. cbn [fst snd]. rewrite IH by apply BD. lia.
  - cbn [rbind asked]. rewrite exec_RAlloc. apply IH. exact BD.
Qed.
Section Proofs.
Context (R : rist).
Lemma com_asked c r v : fst (exec (com_Decode R c) r) = Ok v -> asked (com_Decode R c) r = 32.
Proof.
  unfold com_Decode. rewrite (asked_bind (r_bytes 32)) by (intros b; exact I). rewrite exec_rbind. cbn [r_bytes asked]. destruct (exec (r_bytes 32) r) as [[b|e|] r1]; cbn [fst snd]; intros E; try discriminate.
  destruct (pset R b); reflexivity.
Qed.
Lemma coms_for_asked n : forall lo st r V, fst (exec (r_for lo n (fun i comms => let? c := com_Decode R (com_zero R) in rret (comms ++ [c])) st) r) = Ok V ->
  asked (r_for lo n (fun i comms => let? c := com_Decode R (com_zero R) in rret (comms ++ [c])) st) r = 32 * n /\ length V = length st + n.
Proof.
  induction n as [|n IH]; intros lo st r V; cbn [r_for].
  - intros E. injection E as <-. split; [reflexivity|lia].
  - intros E. pose proof (bounded_bind (com_Decode R (com_zero R)) (fun c => rret (st ++ [c])) (com_bounded R _) (fun _ => I)) as BD.
    rewrite (asked_bind _ _ BD). rewrite exec_rbind in E.
    rewrite (asked_bind (com_Decode R (com_zero R))) by apply com_bounded. pose proof (com_asked (com_zero R) r) as CA.
    rewrite exec_rbind in *. destruct (exec (com_Decode R (com_zero R)) r) as [[c|e|] r1]; cbn [fst snd] in *; try discriminate.
    change (exec (rret (st ++ [c])) r1) with (Ok (st ++ [c]), r1) in *. change (asked (rret (st ++ [c])) r1) with 0. cbv beta iota in *. cbn [fst snd] in *. rewrite (CA c eq_refl).
    destruct (IH _ _ _ _ E) as [E1 E2]. rewrite E1, E2, app_length. cbn [length]. lia.
Qed.
Lemma coms_asked r V : fst (exec (DecodeCommitments R) r) = Ok V -> asked (DecodeCommitments R) r = 4 + 32 * length V.
Proof.
  unfold DecodeCommitments. rewrite (asked_bind r_u32) by apply bounded_u32. rewrite exec_rbind. 
  assert (A4 : asked r_u32 r = 4) by (unfold r_u32; cbn [r_bytes rbind asked]; destruct (fst (read_full 4 r)); reflexivity).
  rewrite A4. destruct (exec r_u32 r) as [[n|e|] r1]; cbn [fst snd]; intros E; try discriminate. rewrite exec_RAlloc in E. cbn [asked].
  destruct (coms_for_asked _ _ _ _ _ E) as [E1 E2]. rewrite E1, E2. reflexivity.
Qed.
(** the seven fields and the two scalars of the inner product proof *)
Definition pf_rest (V : list (commitment R)) : rprog (res (proof R)) :=
  let? A := readerToPoint R in
  let? pS := readerToPoint R in
  let? T1 := readerToPoint R in
  let? T2 := readerToPoint R in
  let? taux := readerToScalar R in
  let? mu := readerToScalar R in
  let? t := readerToScalar R in
  rbind (ipp_Decode R (mkIPP R [] [] f0 f0)) (fun '(ip, r) =>
    match r with
    | Ok _ => rret (mkProof R V A pS T1 T2 taux mu t (Some ip))
    | Err e => rerr e
    | Panic => RRet Panic
    end).
Lemma pf_Decode_rest p b : pf_Decode R p b = let? V := (if b then DecodeCommitments R else rret (pf_V R p)) in pf_rest V.
Proof. reflexivity. Qed.
Lemma point_grid on b0 : (forall j, on (b0 + 32 * j) = true /\ forall i, 0 < i < 32 -> on (b0 + 32 * j + i) = false) -> forall off, at_field b0 off ->
  grid on (fun o _ => at_field b0 o) off (readerToPoint R).
Proof. intros ST off H. apply (grid_block on b0 ST); [exact H|]. intros b o Ho. destruct (pset R b); [exact Ho|exact I]. Qed.
Lemma scalar_grid on b0 : (forall j, on (b0 + 32 * j) = true /\ forall i, 0 < i < 32 -> on (b0 + 32 * j + i) = false) -> forall off, at_field b0 off ->
  grid on (fun o _ => at_field b0 o) off (readerToScalar R).
Proof. intros ST off H. apply (grid_block on b0 ST); [exact H|]. intros b o Ho. exact Ho. Qed.
Lemma rest_grid on b0 V : (forall j, on (b0 + 32 * j) = true /\ forall i, 0 < i < 32 -> on (b0 + 32 * j + i) = false) -> forall off, at_field b0 off ->
  grid on (fun _ _ => True) off (pf_rest V).
Proof.
  intros ST off H. unfold pf_rest. revert off H.
  assert (SP : forall {B} (f : pt R -> rprog (res B)) Q off, at_field b0 off -> (forall x o, at_field b0 o -> grid on Q o (f x)) -> grid on Q off (let? x := readerToPoint R in f x)).
  { intros B f Q off H G. apply grid_bind. apply (grid_weak on (fun o _ => at_field b0 o)); [intros o a Ho; apply G; exact Ho|apply point_grid; assumption]. }
  assert (SS : forall {B} (f : F -> rprog (res B)) Q off, at_field b0 off -> (forall x o, at_field b0 o -> grid on Q o (f x)) -> grid on Q off (let? x := readerToScalar R in f x)).
  { intros B f Q off H G. apply grid_bind. apply (grid_weak on (fun o _ => at_field b0 o)); [intros o a Ho; apply G; exact Ho|apply scalar_grid; assumption]. }
  intros off H. do 4 (apply SP; [assumption|]; clear off H; intros ? off H). do 3 (apply SS; [assumption|]; clear off H; intros ? off H).
  unfold ipp_Decode. cbn [r_bytes rbind grid]. destruct H as [j ->]. destruct (ST j) as [S1 S2]. split; [exact S1|]. split; [exact S2|]. split; [reflexivity|]. intros b _.
  cbn [rbind grid]. replace (b0 + 32 * j + 32) with (b0 + 32 * (j + 1)) by lia. destruct (ST (j + 1)) as [S3 S4]. split; [exact S3|]. split; [exact S4|]. split; [reflexivity|]. intros b' _. exact I.
Qed.
Lemma point_bounded : bounded (readerToPoint R). Proof. apply bounded_bind; [apply bounded_bytes|]. intros b. destruct (pset R b); exact I. Qed.
Lemma scalar_bounded : bounded (readerToScalar R). Proof. apply bounded_bind; [apply bounded_bytes|]. intros b. exact I. Qed.
Lemma point_asked r x : fst (exec (readerToPoint R) r) = Ok x -> asked (readerToPoint R) r = 32.
Proof.
  unfold readerToPoint. rewrite (asked_bind (r_bytes 32)) by (intros b; exact I). rewrite exec_rbind. cbn [r_bytes asked]. destruct (exec (r_bytes 32) r) as [[b|e|] r1]; cbn [fst snd]; intros E; try discriminate.
  destruct (pset R b); reflexivity.
Qed.
Lemma scalar_asked r x : fst (exec (readerToScalar R) r) = Ok x -> asked (readerToScalar R) r = 32.
Proof.
  unfold readerToScalar. rewrite (asked_bind (r_bytes 32)) by (intros b; exact I). rewrite exec_rbind. cbn [r_bytes asked]. destruct (exec (r_bytes 32) r) as [[b|e|] r1]; cbn [fst snd]; intros E; try discriminate.
  reflexivity.
Qed.
Lemma rest_asked V r q : fst (exec (pf_rest V) r) = Ok q -> asked (pf_rest V) r = 288 /\ pf_V R q = V.
Proof.
  unfold pf_rest.
  do 4 (rewrite (asked_bind (readerToPoint R)) by apply point_bounded; rewrite exec_rbind;
    match goal with |- context [exec (readerToPoint R) ?r] => pose proof (point_asked r) as PA; destruct (exec (readerToPoint R) r) as [[?|?|] ?]; cbn [fst snd] in *; try (intros E; discriminate E); rewrite (PA _ eq_refl); clear PA end).
  do 3 (rewrite (asked_bind (readerToScalar R)) by apply scalar_bounded; rewrite exec_rbind;
    match goal with |- context [exec (readerToScalar R) ?r] => pose proof (scalar_asked r) as PA; destruct (exec (readerToScalar R) r) as [[?|?|] ?]; cbn [fst snd] in *; try (intros E; discriminate E); rewrite (PA _ eq_refl); clear PA end).
  unfold ipp_Decode. cbn [r_bytes rbind asked]. rewrite exec_RRead. destruct (read_full 32 _) as [[?|?|] ?]; cbn [fst snd rbind asked]; try (intros E; discriminate E).
  rewrite exec_RRead. destruct (read_full 32 _) as [[?|?|] ?]; cbn [fst snd rbind asked]; try (intros E; discriminate E). intros E. split; [reflexivity|].
  rewrite exec_RAll in E. destruct (read_all _) as [[buf|?|] ?]; cbn [rbind] in E; try discriminate E. destruct (negb _) in E; [discriminate E|].
  cbn [rbind] in E. rewrite !exec_RAlloc in E. destruct (lr_decode R _ buf) as [Ls Rs]. cbn [rbind] in E. unfold rret in E. rewrite exec_RRet in E. cbn [fst] in E. apply (f_equal (fun x => match x with Ok q => pf_V R q | _ => V end)) in E. symmetry. exact E.
Qed.
Lemma pf_cut p b r r' tail q : fault_free r -> fault_free r' -> rbytes r = rbytes r' ++ tail -> fst (exec (pf_Decode R p b) r) = Ok q ->
  length (rbytes r') < (if b then 4 + 32 * length (pf_V R q) else 0) + 288 ->
  fst (exec (pf_Decode R p b) r') = Err (eof ((if b then counted_fields else plain_fields) (length (rbytes r')))).
Proof.
  intros F F' E X L. apply (cut (if b then counted_fields else plain_fields) (fun _ _ => True) _ 0 r r' tail); [|exact F|exact F'|exact E|]; rewrite pf_Decode_rest in *.
  - apply grid_bind. destruct b.
    + apply (grid_weak counted_fields (fun o _ => at_field 4 o)); [|apply coms_on]. intros o V Ho. apply (rest_grid counted_fields 4 V counted_step o Ho).
    + cbn [rret grid]. apply (rest_grid plain_fields 0 _ plain_step 0 P0).
  - destruct b.
    + rewrite (asked_bind (DecodeCommitments R)) by apply coms_bounded. rewrite exec_rbind in X. pose proof (coms_asked r) as CA.
      destruct (exec (DecodeCommitments R) r) as [[V|?|] r1]; cbn [fst snd] in *; try discriminate X. rewrite (CA V eq_refl). destruct (rest_asked V r1 q X) as [E1 E2]. rewrite E1, <- E2. lia.
    + unfold rret in *. cbn [rbind] in *. destruct (rest_asked _ r q X) as [E1 _]. rewrite E1. exact L.
Qed.
Lemma ipp_cut p0 r : fault_free r -> length (rbytes r) < 64 -> fst (exec (ipp_Decode R p0) r) = (p0, Err (eof (plain_fields (length (rbytes r))))).
Proof.
  intros F L. unfold ipp_Decode. cbn [r_bytes rbind]. rewrite exec_RRead. destruct (plain_step 0) as [A1 A2]. destruct (plain_step 1) as [B1 B2]. destruct (Nat.lt_ge_cases (length (rbytes r)) 32) as [C|C].
  - rewrite (read_full_eof 32 r F C). cbn [rbind]. rewrite exec_RRet. cbn [fst]. do 3 f_equal. destruct (Nat.eqb_spec (length (rbytes r)) 0) as [Z|Z]; [rewrite Z; reflexivity|symmetry; apply (A2 (length (rbytes r))); lia].
  - destruct (read_full_split 32 r F C) as (r1 & X & B & F1). rewrite X. cbn [rbind]. rewrite exec_RRead. assert (L1 : length (rbytes r1) = length (rbytes r) - 32) by (rewrite B; apply skipn_length).
    rewrite (read_full_eof 32 r1 F1 ltac:(lia)). cbn [rbind]. rewrite exec_RRet. cbn [fst]. do 3 f_equal. rewrite L1. destruct (Nat.eqb_spec (length (rbytes r) - 32) 0) as [Z|Z].
    + replace (length (rbytes r)) with 32 by lia. reflexivity.
    + symmetry. replace (length (rbytes r)) with (32 * 1 + (length (rbytes r) - 32)) by lia. apply B2. lia.
Qed.
End Proofs.
