(** Several byte strings for one scalar *)
From Coq Require Import String ZArith List Lia Bool Arith.
From Coq Require Import Init.Byte.
From Verif Require Import GoModel GoFacts ReadModel ReadFacts StreamFacts Prime Fld Rist RistFacts RistInst SpecVector VectorFacts PedersenFacts PedersenModel InnerProductModel RangeProofModel
  SpecMlsag MlsagModel MlsagSessions MlsagFacts MlsagProve MlsagProps SpecDecode DecodeFacts SpecCanon.
Import ListNotations.
Local Open Scope nat_scope.

(** ** Counting *)
Lemma dup_or_nodup {A} (f : A -> nat) (l : list A) : NoDup l ->
  NoDup (map f l) \/ exists x y, In x l /\ In y l /\ x <> y /\ f x = f y.
Proof.
  induction l as [|a l IH]; intros N; [left; constructor|]. inversion N as [|? ? Na Nl]; subst. destruct (IH Nl) as [D|(x & y & Hx & Hy & D)].
  - destruct (in_dec Nat.eq_dec (f a) (map f l)) as [I|I].
    + right. apply in_map_iff in I. destruct I as (y & E & Hy). exists a, y. split; [left; reflexivity|]. split; [right; exact Hy|]. split; [intros ->; contradiction|congruence].
    + left. cbn [map]. constructor; assumption.
  - right. exists x, y. split; [right; exact Hx|]. split; [right; exact Hy|exact D].
Qed.
Lemma pigeon {A} (f : A -> nat) (l : list A) n : NoDup l -> (forall x, f x < n) -> n < length l ->
  exists x y, In x l /\ In y l /\ x <> y /\ f x = f y.
Proof.
  intros N B L. destruct (dup_or_nodup f l N) as [D|D]; [|exact D]. exfalso.
  assert (X : incl (map f l) (seq 0 n)). { intros v Hv. apply in_map_iff in Hv. destruct Hv as (x & <- & _). apply in_seq. specialize (B x). lia. }
  pose proof (NoDup_incl_length D X) as Y. rewrite map_length, seq_length in Y. lia.
Qed.
Definition all_bytes : list byte := map (fun n => Z_byte (Z.of_nat n)) (seq 0 256).
Fixpoint strings (n : nat) : list bytes := match n with O => [[]] | S n => flat_map (fun x => map (cons x) (strings n)) all_bytes end.
Lemma all_bytes_length : length all_bytes = 256. Proof. unfold all_bytes. rewrite map_length. apply seq_length. Qed.
Lemma all_bytes_nodup : NoDup all_bytes.
Proof.
  unfold all_bytes. apply NoDup_nth_error. intros i j Hi E. rewrite map_length, seq_length in Hi.
  assert (Hj : j < 256).
  { destruct (Nat.lt_ge_cases j 256) as [C|C]; [exact C|]. exfalso.
    rewrite (proj2 (nth_error_None _ j)) in E by (rewrite map_length, seq_length; exact C).
    apply nth_error_None in E. rewrite map_length, seq_length in E. lia. }
  assert (S : forall i, i < 256 -> nth_error (map (fun n => Z_byte (Z.of_nat n)) (seq 0 256)) i = Some (Z_byte (Z.of_nat i))).
  { intros k Hk. apply (map_nth_error (fun n => Z_byte (Z.of_nat n))). rewrite (nth_error_nth' _ 0) by (rewrite seq_length; exact Hk). f_equal. rewrite seq_nth by exact Hk. reflexivity. }
  rewrite !S in E by assumption. assert (E' : Z_byte (Z.of_nat i) = Z_byte (Z.of_nat j)) by congruence.
  apply (f_equal byte_Z) in E'. rewrite !byte_Z_byte in E'. rewrite !Z.mod_small in E' by lia. lia.
Qed.
Lemma strings_in n b : In b (strings n) -> length b = n.
Proof.
  revert b. induction n as [|n IH]; intros b H; cbn [strings] in H; [destruct H as [<-|[]]; reflexivity|].
  apply in_flat_map in H. destruct H as (x & _ & H). apply in_map_iff in H. destruct H as (t & <- & H). cbn [length]. f_equal. exact (IH t H).
Qed.
Lemma strings_step (l : list byte) (t : list bytes) : NoDup l -> NoDup t ->
  NoDup (flat_map (fun x => map (cons x) t) l) /\ length (flat_map (fun x => map (cons x) t) l) = length l * length t.
Proof.
  intros Nl Nt. induction l as [|a l IH]; cbn [flat_map length]; [split; [constructor|reflexivity]|]. inversion Nl as [|? ? Na Nl']; subst. destruct (IH Nl') as [A B].
  split; [|rewrite app_length, map_length, B; reflexivity].
  assert (N1 : NoDup (map (cons a) t)). { apply FinFun.Injective_map_NoDup; [intros x y E; congruence|exact Nt]. }
  assert (D : forall x, In x (map (cons a) t) -> ~ In x (flat_map (fun x => map (cons x) t) l)).
  { intros x H1 H2. apply in_map_iff in H1. destruct H1 as (u & <- & _). apply in_flat_map in H2. destruct H2 as (c & Hc & H2).
    apply in_map_iff in H2. destruct H2 as (w & E & _). injection E as -> _. contradiction. }
  clear - N1 A D. induction (map (cons a) t) as [|x u IH]; [exact A|]. inversion N1; subst. cbn [app]. constructor.
  - intros H. apply in_app_or in H. destruct H as [H|H]; [contradiction|]. exact (D x (or_introl eq_refl) H).
  - apply IH; [assumption|]. intros y Hy. apply D. right. exact Hy.
Qed.
Lemma strings_nodup n : NoDup (strings n) /\ length (strings n) = Nat.pow 256 n.
Proof.
  induction n as [|n [IH1 IH2]]; [split; [constructor; [intros []|constructor]|reflexivity]|].
  destruct (strings_step all_bytes (strings n) all_bytes_nodup IH1) as [A B]. split; [exact A|].
  transitivity (length all_bytes * length (strings n)); [exact B|]. rewrite all_bytes_length, IH2. symmetry. apply Nat.pow_succ_r'.
Qed.
Lemma same_scalar (D : bytes -> F) : exists b b', length b = 32 /\ length b' = 32 /\ b <> b' /\ D b = D b'.
Proof.
  destruct (pigeon (fun b => Z.to_nat (to_Z (D b))) (strings 32) (Z.to_nat ell)) as (b & b' & H1 & H2 & N & E).
  - apply strings_nodup.
  - intros x. pose proof (to_Z_range (D x)). lia.
  - rewrite (proj2 (strings_nodup 32)). apply Nat2Z.inj_lt. rewrite Nat2Z.inj_pow, Z2Nat.id by (apply Z.lt_le_incl, ell_pos). reflexivity.
  - exists b, b'. split; [apply strings_in; exact H1|]. split; [apply strings_in; exact H2|]. split; [exact N|]. apply to_Z_inj.
    pose proof (to_Z_range (D b)). pose proof (to_Z_range (D b')). lia.
Qed.

(** ** The responses of an honest signature *)
Lemma generateResponses_const s m n skip : Forall (fun row => Forall (eq s) row) (generateResponses (fun _ => s) m n skip).
Proof.
  unfold generateResponses. assert (G : forall l st, Forall (fun row => Forall (eq s) row) (fst st) -> Forall (fun row => Forall (eq s) row)
    (fst (fold_left (fun '(rows, t) i => if Nat.eqb i skip then (rows ++ [[]], t) else (rows ++ [map (fun _ : nat => s) (seq 0 n)], t + n)) l st))).
  { induction l as [|i l IH]; intros [rows t] H; [exact H|]. cbn [fold_left fst] in *. apply IH. destruct (Nat.eqb i skip); cbn [fst]; apply Forall_app; split; auto.
    constructor; [|constructor]. apply Forall_forall. intros x Hx. apply in_map_iff in Hx. destruct Hx as (? & <- & _). reflexivity. }
  apply G. constructor.
Qed.
Section Canon.
Context {R : rist} (OK : rist_ok R).
Lemma prove_const p sk js s : minv p -> regular p -> mp_matrix R p <> [] -> mp_priv R p <> [] ->
  exists sg J p' l1 row l2, prove R p sk js (fun _ => s) = (Ok (sg, J), p') /\ sg_r R sg = l1 ++ (s :: row) :: l2 /\
    Forall (fun r => length r = length (mp_priv R p)) (sg_r R sg) /\ Forall (fun k => length (pk_keys R k) = length (mp_priv R p)) (sg_pub R sg) /\
    length (sg_r R sg) = length (mp_matrix R p) + 1 /\ length (sg_pub R sg) = length (mp_matrix R p) + 1.
Proof.
  intros I0 HR HM HP. destruct (prove_snd p sk js (fun _ => s)) as [p' [_ [S E]]]. rewrite E.
  destruct (shuffled_ring p p' I0 S HR) as [G1 [G2 [G3 G4]]].
  assert (HN : 2 <= length (mp_matrix R p')) by (rewrite G4; destruct (mp_matrix R p); [congruence|cbn; lia]).
  pose proof S as [S1 [_ [S3 _]]].
  assert (NP : length (mp_priv R p') <> 0) by (rewrite S1; destruct (mp_priv R p); [congruence|discriminate]).
  pose proof (prove_shuffled_ok p' sk (fun _ => s) G1 G2 G3 HN) as X. rewrite (proj2 (Nat.eqb_neq _ _) NP), andb_false_r in X. specialize (X eq_refl).
  rewrite X. unfold honest_sig. cbn [sg_r sg_pub].
  set (rows := generateResponses _ _ _ _). set (re := real _ _ _). assert (LR : length re = length (mp_priv R p')) by apply real_length.
  pose proof (generateResponses_shape (fun _ => s) (length (mp_matrix R p')) (length (mp_priv R p')) (mp_index R p')) as [L1 L2]. fold rows in L1, L2.
  pose proof (generateResponses_const s (length (mp_matrix R p')) (length (mp_priv R p')) (mp_index R p')) as L3. fold rows in L3.
  set (i := if Nat.eqb (mp_index R p') 0 then 1 else 0). assert (Ni : mp_index R p' <> i) by (unfold i; destruct (Nat.eqb_spec (mp_index R p') 0); lia).
  assert (Hi : i < length rows) by (unfold i; destruct (Nat.eqb _ _); lia).
  destruct (nth_error rows i) as [row|] eqn:Ei; [|apply nth_error_None in Ei; lia].
  assert (Lrow : length row = length (mp_priv R p')). { rewrite (L2 i row Ei). destruct (Nat.eqb_spec i (mp_index R p')); [congruence|reflexivity]. }
  assert (Ei' : nth_error (upd rows (mp_index R p') re) i = Some row) by (rewrite upd_other by congruence; exact Ei).
  destruct row as [|x row]; [cbn in Lrow; lia|]. assert (x = s). { rewrite Forall_forall in L3. specialize (L3 _ (nth_error_In _ _ Ei)). inversion L3; auto. } subst x.
  destruct (nth_error_split _ _ Ei') as (l1 & l2 & El & _).
  do 6 eexists. split; [reflexivity|]. cbn [sg_r sg_pub]. split; [exact El|]. rewrite <- S1. split; [|split; [|split; [rewrite upd_length, L1; exact G4|exact G4]]].
  - apply Forall_forall. intros r Hr. apply In_nth_error in Hr. destruct Hr as [k Ek].
    destruct (Nat.eq_dec (mp_index R p') k) as [<-|N].
    + rewrite upd_same in Ek; [injection Ek as <-; exact LR|]. rewrite L1. destruct G3 as (row' & G3 & _). apply nth_error_Some. rewrite G3. discriminate.
    + rewrite upd_other in Ek by congruence. rewrite (L2 k r Ek). destruct (Nat.eqb_spec k (mp_index R p')); [congruence|reflexivity].
  - apply Forall_forall. intros r Hr. apply In_nth_error in Hr. destruct Hr as [k Ek]. exact (G1 k r Ek).
Qed.

(** ** Encodings with one scalar written as b *)
Lemma scalars_of l : seq_of (is_scalar R) (concat (map (sbytes R) l)) l.
Proof.
  exists (map (sbytes R) l). split; [reflexivity|]. induction l as [|x l IH]; constructor; [|exact IH]. split; [apply (sbytes_len R OK)|apply (sset_sbytes R OK)].
Qed.
Lemma points_of l : seq_of (is_point R) (concat (map (pbytes R) l)) l.
Proof.
  exists (map (pbytes R) l). split; [reflexivity|]. induction l as [|x l IH]; constructor; [|exact IH]. split; [apply (pbytes_len R OK)|apply (pset_pbytes R OK)].
Qed.
Lemma rows_of k rows : Forall (fun r => length r = k) rows ->
  Forall2 (is_responses R [] (Z.of_nat k)) (map (fun r => concat (map (sbytes R) r)) rows) rows.
Proof.
  induction 1 as [|r rows L _ IH]; cbn [map]; constructor; [|exact IH]. exists r. split; [apply scalars_of|]. split; [lia|reflexivity].
Qed.
Definition flagless (s : sig R) : sig R := mkSig R (sg_c R s) (sg_r R s) (map (fun k => mkPK R false (pk_keys R k)) (sg_pub R s)) (sg_msg R s).
Definition sig_pre (s : sig R) (k : nat) (l1 : list (list F)) : bytes :=
  sbytes R (sg_c R s) ++ put_u32 (Z.of_nat (length (sg_r R s))) ++ put_u32 (Z.of_nat k) ++ concat (map (fun r => concat (map (sbytes R) r)) l1).
Definition sig_post (s : sig R) (row : list F) (l2 : list (list F)) : bytes :=
  concat (map (sbytes R) row) ++ concat (map (fun r => concat (map (sbytes R) r)) l2) ++ concat (map (fun k => concat (map (pbytes R) (pk_keys R k))) (sg_pub R s)).
Lemma sig_written s k l1 x row l2 b old : sg_r R s = l1 ++ (x :: row) :: l2 -> Forall (fun r => length r = k) (sg_r R s) ->
  Forall (fun a => length (pk_keys R a) = k) (sg_pub R s) -> length (sg_pub R s) = length (sg_r R s) ->
  (Z.of_nat (length (sg_r R s)) < 2 ^ 32)%Z -> (Z.of_nat k < 2 ^ 32)%Z -> length b = 32 -> sset R b = x -> sg_msg R old = sg_msg R s ->
  is_signature R old true (sig_pre s k l1 ++ b ++ sig_post s row l2) (flagless s).
Proof.
  intros Er Fr Fk Lk B1 B2 Lb Eb Em.
  exists (sbytes R (sg_c R s)), (put_u32 (Z.of_nat (length (sg_r R s)))), (put_u32 (Z.of_nat k)),
    (concat (map (fun r => concat (map (sbytes R) r)) l1) ++ b ++ concat (map (sbytes R) row) ++ concat (map (fun r => concat (map (sbytes R) r)) l2)),
    (concat (map (fun k => concat (map (pbytes R) (pk_keys R k))) (sg_pub R s))), (Z.of_nat k).
  split; [unfold sig_pre, sig_post; rewrite <- !app_assoc; reflexivity|]. unfold flagless. cbn [sg_c sg_r sg_pub sg_msg].
  split; [split; [apply (sbytes_len R OK)|apply (sset_sbytes R OK)]|]. split; [split; [lia|reflexivity]|]. split; [split; [lia|reflexivity]|].
  split.
  - rewrite Er in Fr |- *. apply Forall_app in Fr. destruct Fr as [F1 F2]. inversion F2 as [|? ? F3 F4]; subst.
    exists (map (fun r => concat (map (sbytes R) r)) l1 ++ (b ++ concat (map (sbytes R) row)) :: map (fun r => concat (map (sbytes R) r)) l2).
    split; [rewrite concat_app; cbn [concat]; rewrite <- !app_assoc; reflexivity|]. apply Forall2_app; [apply rows_of; exact F1|]. constructor; [|apply rows_of; exact F4].
    exists (sset R b :: row). split; [|split; [cbn [length] in *; lia|reflexivity]]. destruct (scalars_of row) as (bs & E & H). exists (b :: bs). split; [cbn [concat]; rewrite <- E; reflexivity|].
    constructor; [split; [exact Lb|reflexivity]|exact H].
  - split; [|symmetry; exact Em]. split; [|rewrite map_length; exact Lk].
    exists (map (fun k => concat (map (pbytes R) (pk_keys R k))) (sg_pub R s)). split; [reflexivity|].
    clear Lk. induction Fk as [|a l La Fl IH]; cbn [map]; [constructor|]. constructor; [|exact IH]. exists (pk_keys R a). split; [apply points_of|]. split; [lia|reflexivity].
Qed.
Lemma flagless_verify s J : sig_Verify R (flagless s) J = sig_Verify R s J.
Proof.
  unfold sig_Verify, flagless. cbn [sg_c sg_r sg_pub sg_msg]. rewrite map_length. destruct (orb _ _); [reflexivity|].
  assert (G : forall q x, (let! fakeResponses := idx (sg_r R s) q in let! decoyPubKeys := idx (map (fun k => mkPK R false (pk_keys R k)) (sg_pub R s)) q in
      generateChallenge R (sg_msg R s) fakeResponses J decoyPubKeys x) =
    (let! fakeResponses := idx (sg_r R s) q in let! decoyPubKeys := idx (sg_pub R s) q in generateChallenge R (sg_msg R s) fakeResponses J decoyPubKeys x)).
  { intros q x. destruct (idx (sg_r R s) q); cbn [bind]; try reflexivity. unfold idx. rewrite nth_error_map. destruct (nth_error (sg_pub R s) q); reflexivity. }
  assert (L : forall fuel k stop n f g (st : F), (forall k st, f k st = g k st) -> ring_loop fuel k stop n f st = ring_loop fuel k stop n g st).
  { induction fuel as [|fuel IH]; intros k stop n f g st H; [reflexivity|]. cbn [ring_loop]. destruct (Nat.eqb k stop); [reflexivity|]. rewrite H.
    destruct (g k st); cbn [bind]; try reflexivity. apply IH. exact H. }
  rewrite (L _ _ _ _ _ (fun k prev => (fun i prev => let! fakeResponses := idx (sg_r R s) (prev_index i (length (sg_r R s))) in
      let! decoyPubKeys := idx (sg_pub R s) (prev_index i (length (sg_r R s))) in generateChallenge R (sg_msg R s) fakeResponses J decoyPubKeys prev) (k mod length (sg_r R s)) prev)).
  2:{ intros k st. apply G. }
  destruct (ring_loop _ _ _ _ _ _); cbn [bind]; try reflexivity. rewrite G. reflexivity.
Qed.

Lemma sig_exec old keys r s e : is_signature R old keys e s -> fault_free r -> rbytes r = e ->
  fst (exec (sig_Decode R old keys) r) = Ok s /\ rbytes (snd (exec (sig_Decode R old keys) r)) = [].
Proof.
  intros H F B. destruct (parses_sig R old keys r F) as [(v & r' & e' & X & F' & B' & Ev)|(_ & N)].
  - rewrite X. cbn [fst snd]. rewrite B in B'. destruct (det_sig R old keys e s e' v [] (rbytes r') H Ev) as [E V].
    + rewrite app_nil_r. exact B'.
    + subst e' v. split; [reflexivity|]. apply (app_inv_head e). rewrite app_nil_r. symmetry. exact B'.
  - exfalso. apply (N s [] e); [rewrite app_nil_r; exact B|exact H].
Qed.

(** ** Reduction modulo the group order *)
Lemma le_value_le b : le_value b = le_Z b. Proof. induction b as [|x b IH]; [reflexivity|]. cbn [le_value le_Z]. rewrite IH. reflexivity. Qed.
Lemma le_Z_range b : (0 <= le_Z b < 256 ^ Z.of_nat (length b))%Z.
Proof.
  induction b as [|x b IH]; [cbn; lia|]. cbn [le_Z length]. rewrite Nat2Z.inj_succ, Z.pow_succ_r by lia. pose proof (byte_Z_range x). lia.
Qed.
Context (RED : forall b, length b = 32 -> sset R b = of_Z (le_value b)).
Lemma another b : length b = 32 -> exists b', length b' = 32 /\ b' <> b /\ sset R b' = sset R b.
Proof.
  intros L. pose proof (le_Z_range b) as B. rewrite L in B.
  set (v := (le_Z b mod ell)%Z). assert (V : (0 <= v < ell)%Z) by (apply Z.mod_pos_bound, ell_pos).
  assert (TOP : (2 * ell < 256 ^ Z.of_nat 32)%Z) by reflexivity.
  set (w := if Z.eqb (le_Z b) v then (v + ell)%Z else v).
  assert (W : (0 <= w < 256 ^ Z.of_nat 32)%Z) by (unfold w; destruct (Z.eqb _ _); lia).
  assert (N : w <> le_Z b). { unfold w. destruct (Z.eqb_spec (le_Z b) v); pose proof ell_pos; lia. }
  assert (M : (w mod ell = v)%Z). { unfold w. destruct (Z.eqb _ _); [rewrite <- (Z.mul_1_l ell) at 1; rewrite Z.mod_add by (pose proof ell_pos; lia)|]; apply Z.mod_small; exact V. }
  exists (le_bytes 32 w). split; [apply le_bytes_length|]. split.
  - intros E. apply N. rewrite <- E. symmetry. apply le_Z_bytes. exact W.
  - rewrite !RED by (exact L || apply le_bytes_length). rewrite !le_value_le, le_Z_bytes by exact W. apply to_Z_inj. rewrite !to_Z_of_Z. exact M.
Qed.
Lemma sig_another old keys e v : is_signature R old keys e v -> exists e', e' <> e /\ length e' = length e /\ is_signature R old keys e' v.
Proof.
  intros (bc & bn & bk & brs & bks & k & -> & [L C] & H). destruct (another bc L) as (b' & L' & N & E).
  exists (b' ++ bn ++ bk ++ brs ++ bks). split; [intros X; apply N; exact (app_inv_tail _ _ _ X)|]. split; [rewrite !app_length; lia|].
  exists b', bn, bk, brs, bks, k. split; [reflexivity|]. split; [split; [exact L'|congruence]|exact H].
Qed.
Lemma ipp_another e v : is_ipp R e v -> exists e', e' <> e /\ length e' = length e /\ is_ipp R e' v.
Proof.
  intros (ba & bb & blr & extra & -> & [L C] & H). destruct (another ba L) as (b' & L' & N & E).
  exists (b' ++ bb ++ blr ++ extra). split; [intros X; apply N; exact (app_inv_tail _ _ _ X)|]. split; [rewrite !app_length; lia|].
  exists b', bb, blr, extra. split; [reflexivity|]. split; [split; [exact L'|congruence]|exact H].
Qed.
Lemma pf_another old commits e v : is_proof R old commits e v -> exists e', e' <> e /\ length e' = length e /\ is_proof R old commits e' v.
Proof.
  intros (bV & bA & bS & b1 & b2 & b3 & b4 & b5 & bip & ip & -> & HV & HA & HS & H1 & H2 & [L C] & H). destruct (another b3 L) as (b' & L' & N & E).
  exists (bV ++ bA ++ bS ++ b1 ++ b2 ++ b' ++ b4 ++ b5 ++ bip). split.
  - intros X. apply N. do 5 apply app_inv_head in X. exact (app_inv_tail _ _ _ X).
  - split; [rewrite !app_length; lia|]. exists bV, bA, bS, b1, b2, b', b4, b5, bip, ip. split; [reflexivity|]. repeat (split; [assumption|]). split; [split; [exact L'|congruence]|exact H].
Qed.
End Canon.
