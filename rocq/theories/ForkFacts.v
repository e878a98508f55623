(** Facts behind the properties of forgers of MLSAG signatures *)
From Coq Require Import String ZArith List Lia Bool Arith Field.
From Coq Require Import Init.Byte.
From Verif Require Import GoModel GoFacts Fld Rist RistFacts SpecVector VectorFacts PedersenFacts SpecMlsag MlsagModel MlsagFacts MlsagProve MlsagProps SpecRewind SpecFork.
Import ListNotations.
Local Open Scope nat_scope.

(** ** Programs *)
Fixpoint obind {A B} (o : oracle A) (k : A -> oracle B) : oracle B :=
  match o with Give a => k a | Ask q c => Ask q (fun x => obind (c x) k) end.
Lemma asked_bind {A B} h (o : oracle A) (k : A -> oracle B) : asked h (obind o k) = asked h o ++ asked h (k (answer h o)).
Proof. induction o as [a|q c IH]; cbn; [reflexivity|]. rewrite IH. reflexivity. Qed.
(** equal answers lead to equal questions *)
Lemma asked_same {A} h h' (o : oracle A) : forall k, (forall q, In q (firstn k (asked h o)) -> h q = h' q) ->
  firstn (S k) (asked h' o) = firstn (S k) (asked h o).
Proof.
  induction o as [a|q c IH]; intros k E; [reflexivity|]. cbn [asked]. rewrite !firstn_cons. destruct k as [|k]; [reflexivity|].
  rewrite <- (E q) by (cbn; auto). rewrite (IH (h q) k); [reflexivity|]. intros q' I. apply E. cbn. auto.
Qed.
Lemma first_of_nth l q : In q l -> nth_error l (first_of l q) = Some q.
Proof.
  induction l as [|x l IH]; intros H; [destruct H|]. cbn [first_of]. destruct (list_eq_dec Byte.byte_eq_dec x q) as [E|E]; [cbn; congruence|].
  destruct H as [H|H]; [congruence|]. cbn. apply IH, H.
Qed.

Lemma nth_error_firstn_lt {A} (l : list A) k : forall i, i < k -> nth_error (firstn k l) i = nth_error l i.
Proof. revert l. induction k as [|k IH]; intros l i L; [lia|]. destruct l as [|x l]; [reflexivity|]. destruct i as [|i]; [reflexivity|]. cbn. apply IH. lia. Qed.

Lemma nth_error_map_inv {A B} (g : A -> B) l i y : nth_error (map g l) i = Some y -> exists x, nth_error l i = Some x /\ g x = y.
Proof. revert i. induction l as [|a l IH]; intros [|i] E; try discriminate; cbn in *; [injection E as <-; eauto|apply IH, E]. Qed.

Section Fork.
Context {R : rist} (OK : rist_ok R).
Local Notation "p [+] q" := (padd R p q) (at level 50, left associativity).
Local Notation "s [*] p" := (smul R s p) (at level 40, left associativity).
Local Notation row := (list (pt R) * list F)%type.

(** ** The chain *)
Fixpoint verifier (msg : bytes) (J : list (pt R)) (rows : list row) (c : F) : oracle unit :=
  match rows with [] => Give tt | r :: rows => Ask (input R msg J r c) (verifier msg J rows) end.
Lemma asked_verifier h msg J rows : forall c, asked h (verifier msg J rows c) = inputs R h msg J rows c.
Proof. induction rows as [|r rows IH]; intros c; cbn; [reflexivity|]. rewrite IH. reflexivity. Qed.
Lemma queries_same ring h h' A k : (forall q, In q (firstn k (queries R ring h A)) -> h q = h' q) ->
  firstn (S k) (queries R ring h' A) = firstn (S k) (queries R ring h A).
Proof.
  set (B := obind A (fun f => verifier (fg_msg R f) (fg_images R f) (passed R ring f) (fg_c R f))).
  assert (E : forall g, queries R ring g A = asked g B).
  { intros g. unfold queries, B, hashed. rewrite asked_bind, asked_verifier. reflexivity. }
  rewrite !E. apply asked_same.
Qed.
Lemma inputs_length h msg J rows : forall c, length (inputs R h msg J rows c) = length rows.
Proof. induction rows as [|r rows IH]; intros c; cbn; [reflexivity|]. rewrite IH. reflexivity. Qed.
Lemma chals_length h msg J rows : forall c, length (chals R h msg J rows c) = length rows.
Proof. induction rows as [|r rows IH]; intros c; cbn; [reflexivity|]. rewrite IH. reflexivity. Qed.
Lemma inputs_at h msg J rows : forall c i r, nth_error rows i = Some r ->
  exists d, nth_error (chals R h msg J rows c) i = Some d /\ nth_error (inputs R h msg J rows c) i = Some (input R msg J r d).
Proof.
  induction rows as [|s rows IH]; intros c [|i] r E; try discriminate; cbn in *; [injection E as <-; eauto|]. apply IH, E.
Qed.
Lemma chals_next h msg J rows : forall c i q, nth_error (inputs R h msg J rows c) i = Some q ->
  (S i < length rows -> nth_error (chals R h msg J rows c) (S i) = Some (h q)) /\
  (S i = length rows -> closing R h msg J rows c = h q).
Proof.
  induction rows as [|s rows IH]; intros c [|i] q E; try discriminate.
  - cbn in E. injection E as <-. split; cbn; intros L; destruct rows as [|t rows]; cbn in *; try lia; reflexivity.
  - cbn [inputs nth_error] in E. destruct (IH _ _ _ E) as [H1 H2]. split; cbn; intros L; [apply H1|apply H2]; lia.
Qed.
(** in a closed chain each row is entered with the hash of the row before *)
Lemma chals_cyclic h msg J rows c i q : closing R h msg J rows c = c -> nth_error (inputs R h msg J rows c) i = Some q ->
  nth_error (chals R h msg J rows c) (S i mod length rows) = Some (h q).
Proof.
  intros C E. destruct (chals_next h msg J rows c i q E) as [H1 H2].
  assert (L : i < length rows) by (rewrite <- (inputs_length h msg J rows c); apply nth_error_Some; congruence).
  destruct (Nat.eq_dec (S i) (length rows)) as [D|D].
  - rewrite D, Nat.mod_same by lia. rewrite <- (H2 D), C. destruct rows; [cbn in *; lia|reflexivity].
  - rewrite Nat.mod_small by lia. apply H1. lia.
Qed.
Lemma closing_chain h msg J rows : forall c, closing R h msg J rows c = fold_left (fun c r => h (input R msg J r c)) rows c.
Proof. induction rows as [|r rows IH]; intros c; cbn; [reflexivity|]. apply IH. Qed.

(** ** Equal strings *)
Lemma zipw_len {A B C} (f : A -> B -> C) u : forall v, length v <= length u -> length (zipw f u v) = length v.
Proof. induction u as [|y u IH]; intros [|z v] L; cbn in *; try lia. rewrite IH; lia. Qed.
Lemma app_inv_len {A} : forall (a b c d : list A), length a = length c -> a ++ b = c ++ d -> a = c /\ b = d.
Proof.
  induction a as [|x a IH]; intros b [|y c] d L E; try discriminate; cbn in *; [auto|].
  injection E as -> E. apply IH in E; [|lia]. destruct E as [-> ->]. auto.
Qed.
Lemma points_length J K r c : length J <= length K -> length K <= length r -> length (row_points R J K r c) = length K + length J.
Proof. intros H1 H2. unfold row_points. rewrite app_length, !zipw_len; rewrite ?combine_length; lia. Qed.
Lemma same_points msg msg' J J' K r r' c c' : length J = length J' -> length J <= length K -> length K <= length r -> length K <= length r' ->
  input R msg J (K, r) c = input R msg' J' (K, r') c' -> msg = msg' /\ row_points R J K r c = row_points R J' K r' c'.
Proof.
  intros LJ H1 H2 H3 E. unfold input in E. cbn [fst snd] in E.
  assert (LC : forall l : list (pt R), length (concat (map (pbytes R) l)) = 32 * length l).
  { induction l as [|p l IH]; [reflexivity|]. cbn [map concat length]. rewrite app_length, IH, (pbytes_len R OK). lia. }
  assert (LM : length msg = length msg').
  { pose proof (f_equal (@length _) E) as L. rewrite !app_length, !LC, !points_length in L by lia. lia. }
  apply app_inv_len in E; [|exact LM]. destruct E as [EM E]. split; [exact EM|].
  apply (concat_fixed_inj 32) in E; [|discriminate| |].
  - revert E. generalize (row_points R J K r c) (row_points R J' K r' c'). induction l as [|x l IH]; intros [|y m] D; try discriminate; [reflexivity|].
    cbn in D. injection D as D1 D2. apply (pbytes_inj OK) in D1. rewrite D1, (IH _ D2). reflexivity.
  - apply Forall_map, Forall_forall. intros x _. apply (pbytes_len R OK).
  - apply Forall_map, Forall_forall. intros x _. apply (pbytes_len R OK).
Qed.
Lemma points_split J J' K r r' c c' : length J <= length K -> length J' <= length K -> length K <= length r -> length K <= length r' ->
  row_points R J K r c = row_points R J' K r' c' ->
  row_points R [] K r c = row_points R [] K r' c' /\
  zipw (fun r ki => r [*] pderive R (pbytes R (fst ki)) [+] c [*] snd ki) r (combine K J) =
  zipw (fun r ki => r [*] pderive R (pbytes R (fst ki)) [+] c' [*] snd ki) r' (combine K J').
Proof.
  intros H1 H2 H3 H4 E. unfold row_points in *. apply app_inv_len in E; [|rewrite !zipw_len by lia; reflexivity].
  destruct E as [E1 E2]. split; [|exact E2]. rewrite !(combine_nil). cbn [zipw].
  replace (zipw _ r []) with (@nil (pt R)) by (destruct r; reflexivity). replace (zipw _ r' []) with (@nil (pt R)) by (destruct r'; reflexivity).
  rewrite E1. reflexivity.
Qed.
(** the same challenge, the same points: the same responses and images *)
Lemma same_images J J' K r r' c : length J = length J' -> length J <= length K -> length K <= length r -> length K <= length r' -> c <> f0 ->
  row_points R J K r c = row_points R J' K r' c -> J = J'.
Proof.
  intros LJ H1 H2 H3 NZ E. apply points_split in E; try lia. destruct E as [E1 E2]. unfold row_points in E1. rewrite !combine_nil in E1.
  replace (zipw _ r []) with (@nil (pt R)) in E1 by (destruct r; reflexivity). replace (zipw _ r' []) with (@nil (pt R)) in E1 by (destruct r'; reflexivity).
  rewrite !app_nil_r in E1. revert r r' J J' LJ H1 H2 H3 E1 E2.
  induction K as [|k K IH]; intros r r' J J' LJ H1 H2 H3 E1 E2.
  - destruct J, J'; cbn in *; try lia. reflexivity.
  - destruct r as [|a r], r' as [|b r']; cbn in H2, H3; try lia. destruct J as [|i J], J' as [|i' J']; cbn in LJ, H1; try lia; [reflexivity|].
    cbn in E1, E2. injection E1 as A1 E1. injection E2 as A2 E2. f_equal; [|apply (IH r r'); first [lia|assumption]].
    apply (padd_cancel_r OK) in A1. apply (smul_inj_l OK) in A1; [|apply (pbase_nz R OK)]. subst b.
    apply (padd_cancel_l OK) in A2. apply (smul_inj_r OK) in A2; assumption.
Qed.
Lemma points_keys J J' K r r' c c' : length J = length J' -> length J <= length K -> length K <= length r -> length K <= length r' -> c <> c' ->
  row_points R J K r c = row_points R J' K r' c' -> keys_found R (K, r) (K, r') c c'.
Proof.
  intros LJ H1 H2 H3 N E. apply points_split in E; try lia. destruct E as [E _]. repeat (split; [first [reflexivity|assumption]|]).
  cbn [fst snd]. intros j k a b Ek Ea Eb. exact (proj1 (extract OK K [] r r' c c' (Nat.le_0_l _) H2 H3 N E j k a b Ek Ea Eb)).
Qed.
Lemma points_images J K r r' c c' : length J <= length K -> length K <= length r -> length K <= length r' -> c <> c' ->
  row_points R J K r c = row_points R J K r' c' -> images_found R J (K, r) (K, r') c c'.
Proof.
  intros H1 H2 H3 N E. split; [exact H1|]. cbn [snd]. intros j im a b Ei Ea Eb.
  assert (exists k, nth_error K j = Some k) as [k Ek].
  { destruct (nth_error K j) eqn:D; [eauto|]. apply nth_error_None in D. assert (j < length J) by (apply nth_error_Some; congruence). lia. }
  destruct (extract OK K J r r' c c' H1 H2 H3 N E j k a b Ek Ea Eb) as [X Y]. cbv zeta in *. unfold key_image, secret. rewrite <- X. apply Y, Ei.
Qed.

(** ** Accepted results *)
Lemma accepted_facts ring m h f : accepted R ring m h f ->
  0 < m /\ 2 <= length (passed R ring f) /\ length (fg_images R f) = m /\
  (forall i r, nth_error (passed R ring f) i = Some r -> row_ok R (fg_images R f) r /\ nth_error ring (i mod length ring) = Some (fst r)) /\
  closing R h (fg_msg R f) (fg_images R f) (passed R ring f) (fg_c R f) = fg_c R f.
Proof.
  intros (E & LR & LM). set (R' := with_hash R h) in *. set (s := mkSig R' _ _ _ _) in E.
  assert (SR : sig_rows s = combine ring (fg_r R f)). { unfold sig_rows. cbn [s sg_pub sg_r]. rewrite map_map. cbn [pk_keys]. rewrite map_id. reflexivity. }
  assert (N : sg_pub R' s <> [] /\ sg_r R' s <> [] /\ fg_images R f <> []).
  { assert (X : ~ (sg_pub R' s = [] \/ sg_r R' s = [] \/ fg_images R f = [])).
    { intros X. destruct (proj1 (Verify_outcomes s (fg_images R f)) X) as [e C]. rewrite E in C. discriminate. } tauto. }
  destruct N as (N1 & N2 & N3).
  assert (SH : shape_ok s (fg_images R f)).
  { destruct (Forall_dec (row_ok R (fg_images R f))) with (l := combine ring (fg_r R f)) as [D|D].
    - intros r. unfold row_ok. destruct (le_dec (length (fg_images R f)) (length (fst r))); [|right; lia]. destruct (le_dec (length (fst r)) (length (snd r))); [left|right]; lia.
    - split; [cbn [s sg_pub sg_r]; rewrite map_length, LR; apply le_n|]. rewrite SR. exact D.
    - exfalso. rewrite Verify_bad in E; [discriminate|assumption..|]. intros [_ C]. rewrite SR in C. exact (D C). }
  rewrite Verify_shape in E by assumption.
  assert (LC : length (combine ring (fg_r R f)) = length ring) by (rewrite combine_length; lia).
  assert (VR : verify_rows s = passed R ring f).
  { unfold verify_rows. rewrite SR. cbn [s sg_r]. unfold passed. rewrite LR, <- LC. destruct (combine ring (fg_r R f)) as [|a [|b l]]; reflexivity. }
  assert (LG : 0 < length ring). { cbn [s sg_pub] in N1. destruct ring; [exfalso; apply N1; reflexivity|cbn; lia]. }
  destruct SH as [_ FA]. rewrite SR in FA. split; [|split; [|split; [|split]]].
  - destruct (fg_images R f); [congruence|cbn in LM; lia].
  - unfold passed. destruct (combine ring (fg_r R f)) as [|a [|b l]]; cbn in *; lia.
  - exact LM.
  - intros i r Ei.
    assert (H : nth_error (combine ring (fg_r R f)) (i mod length ring) = Some r).
    { unfold passed in Ei. rewrite <- LC. destruct (combine ring (fg_r R f)) as [|a [|b l]] eqn:EC.
      - destruct i; discriminate.
      - cbn [length]. rewrite Nat.mod_1_r. destruct i as [|[|[|i]]]; cbn in Ei; try discriminate; exact Ei.
      - rewrite Nat.mod_small; [exact Ei|]. apply nth_error_Some. congruence. }
    split; [exact (proj1 (Forall_forall _ _) FA r (nth_error_In _ _ H))|].
    destruct (nth_error ring (i mod length ring)) as [K|] eqn:EK.
    + destruct (nth_error (fg_r R f) (i mod length ring)) as [rr|] eqn:ER.
      * rewrite (combine_nth_error ring (fg_r R f) _ K rr EK ER) in H. injection H as <-. reflexivity.
      * apply nth_error_None in ER. pose proof (Nat.mod_upper_bound i (length ring)). lia.
    + apply nth_error_None in EK. pose proof (Nat.mod_upper_bound i (length ring)). lia.
  - rewrite VR in E. destruct (feqb _ _) eqn:Q in E; [|discriminate]. apply feqb_eq in Q. rewrite closing_chain. exact Q.
Qed.

(** two accepted results in one ring whose rows i hashed the same string *)
Lemma meet ring m h h' f f' i q r r' : accepted R ring m h f -> accepted R ring m h' f' ->
  nth_error (hashed R ring h f) i = Some q -> nth_error (hashed R ring h' f') i = Some q ->
  nth_error (passed R ring f) i = Some r -> nth_error (passed R ring f') i = Some r' ->
  exists c c', nth_error (entering R ring h f) i = Some c /\ nth_error (entering R ring h' f') i = Some c' /\
    fst r = fst r' /\ length (fg_images R f) = length (fg_images R f') /\ length (fg_images R f) <= length (fst r) /\
    length (fst r) <= length (snd r) /\ length (fst r) <= length (snd r') /\
    row_points R (fg_images R f) (fst r) (snd r) c = row_points R (fg_images R f') (fst r) (snd r') c'.
Proof.
  intros A1 A2 E1 E2 P1 P2. apply accepted_facts in A1. apply accepted_facts in A2.
  destruct A1 as (_ & _ & L1 & W1 & _), A2 as (_ & _ & L2 & W2 & _).
  destruct (W1 i r P1) as [K1 G1]. destruct (W2 i r' P2) as [K2 G2]. rewrite G1 in G2. injection G2 as EK.
  destruct (inputs_at h (fg_msg R f) (fg_images R f) _ (fg_c R f) i r P1) as (c & C1 & Q1).
  destruct (inputs_at h' (fg_msg R f') (fg_images R f') _ (fg_c R f') i r' P2) as (c' & C2 & Q2).
  exists c, c'. unfold hashed in *. rewrite E1 in Q1. rewrite E2 in Q2. injection Q1 as Q1. injection Q2 as Q2.
  unfold row_ok in K1, K2. destruct r as [K a], r' as [K' b]; cbn [fst snd] in *. subst K'.
  do 3 (split; [assumption||reflexivity|]). split; [lia|]. split; [lia|]. split; [lia|]. split; [lia|].
  apply (same_points (fg_msg R f) (fg_msg R f')); try lia. congruence.
Qed.
Lemma places_nth ring h A i k q : nth_error (places R ring h A) i = Some k -> nth_error (hashed R ring h (answer h A)) i = Some q ->
  nth_error (queries R ring h A) k = Some q.
Proof.
  unfold places. intros E Q. rewrite (map_nth_error _ _ _ Q) in E. injection E as <-. apply first_of_nth. unfold queries. apply in_or_app. right.
  exact (nth_error_In _ _ Q).
Qed.
(** equal places up to k: equal strings *)
Lemma same_place ring h h' A i k p : (forall q, In q (firstn k (queries R ring h A)) -> h q = h' q) -> p <= k ->
  nth_error (places R ring h A) i = Some p -> nth_error (places R ring h' A) i = Some p ->
  exists q, nth_error (hashed R ring h (answer h A)) i = Some q /\ nth_error (hashed R ring h' (answer h' A)) i = Some q /\
    nth_error (queries R ring h A) p = Some q.
Proof.
  intros SM L E E'. pose proof (queries_same ring h h' A k SM) as Q.
  assert (X : forall g, nth_error (places R ring g A) i = Some p -> exists q, nth_error (hashed R ring g (answer g A)) i = Some q).
  { intros g G. destruct (nth_error (hashed R ring g (answer g A)) i) eqn:D; [eauto|]. apply nth_error_None in D.
    assert (i < length (places R ring g A)) by (apply nth_error_Some; congruence). unfold places in H. rewrite map_length in H. lia. }
  destruct (X h E) as [q Hq]. destruct (X h' E') as [q' Hq']. exists q. split; [exact Hq|].
  pose proof (places_nth ring h A i p q E Hq) as P1. pose proof (places_nth ring h' A i p q' E' Hq') as P2.
  assert (nth_error (queries R ring h' A) p = nth_error (queries R ring h A) p).
  { rewrite <- (nth_error_firstn_lt (queries R ring h' A) (S k) p), <- (nth_error_firstn_lt (queries R ring h A) (S k) p) by lia. rewrite Q. reflexivity. }
  split; [congruence|exact P1].
Qed.

Lemma at_passed ring h f i q : nth_error (hashed R ring h f) i = Some q -> exists r, nth_error (passed R ring f) i = Some r.
Proof.
  intros E. destruct (nth_error (passed R ring f) i) eqn:D; [eauto|]. apply nth_error_None in D.
  assert (i < length (hashed R ring h f)) by (apply nth_error_Some; congruence). unfold hashed in H. rewrite inputs_length in H. lia.
Qed.
Lemma passed_length ring m h f : accepted R ring m h f -> length (passed R ring f) = Nat.max 2 (length ring).
Proof.
  intros A. pose proof (accepted_facts ring m h f A) as (_ & L & _). destruct A as (_ & LR & _). unfold passed in *.
  assert (length (combine ring (fg_r R f)) = length ring) by (rewrite combine_length; lia).
  destruct (combine ring (fg_r R f)) as [|a [|b l]]; cbn [length] in *; lia.
Qed.

(** ** Two runs *)
Section Two.
Context (ring : list (list (pt R))) (m k : nat) (A : oracle (forgery R)) (h h' : bytes -> F) (q : bytes).
Let f := answer h A.
Let f' := answer h' A.
Context (A1 : accepted R ring m h f) (A2 : accepted R ring m h' f')
  (SM : forall q, In q (firstn k (queries R ring h A)) -> h q = h' q)
  (Hq : nth_error (queries R ring h A) k = Some q) (NE : h q <> h' q).
Let n := Nat.max 2 (length ring).

Lemma entered i s : nth_error (hashed R ring h f) i = Some s -> nth_error (hashed R ring h' f') i = Some s ->
  nth_error (entering R ring h f) (S i mod n) = Some (h s) /\ nth_error (entering R ring h' f') (S i mod n) = Some (h' s).
Proof.
  intros E1 E2. pose proof (passed_length _ _ _ _ A1) as L1. pose proof (passed_length _ _ _ _ A2) as L2.
  apply accepted_facts in A1. apply accepted_facts in A2. destruct A1 as (_ & _ & _ & _ & C1), A2 as (_ & _ & _ & _ & C2).
  pose proof (chals_cyclic h _ _ _ _ i s C1 E1) as X1. pose proof (chals_cyclic h' _ _ _ _ i s C2 E2) as X2.
  rewrite L1 in X1. rewrite L2 in X2. split; assumption.
Qed.
(** row l hashed last, row l+1 before, row l+2 at p2 in both runs *)
Lemma fork l p1 p2 : p1 < k -> p2 <= k ->
  nth_error (places R ring h A) l = Some k -> nth_error (places R ring h' A) l = Some k ->
  nth_error (places R ring h A) (S l mod n) = Some p1 -> nth_error (places R ring h' A) (S l mod n) = Some p1 ->
  nth_error (places R ring h A) (S (S l mod n) mod n) = Some p2 -> nth_error (places R ring h' A) (S (S l mod n) mod n) = Some p2 ->
  (forall s, In s (hashed R ring h f) -> h s <> f0) ->
  exists r r' c c', nth_error (passed R ring f) (S l mod n) = Some r /\ nth_error (passed R ring f') (S l mod n) = Some r' /\
    nth_error (entering R ring h f) (S l mod n) = Some c /\ nth_error (entering R ring h' f') (S l mod n) = Some c' /\
    keys_found R r r' c c' /\ fg_images R f = fg_images R f' /\ images_found R (fg_images R f) r r' c c'.
Proof.
  intros L1 L2 E0 E0' E1 E1' E2 E2' NZ.
  destruct (same_place ring h h' A l k k SM (le_n k) E0 E0') as (s0 & S0 & S0' & Q0). rewrite Hq in Q0. injection Q0 as <-.
  destruct (same_place ring h h' A _ k p1 SM ltac:(lia) E1 E1') as (s1 & S1 & S1' & Q1).
  destruct (same_place ring h h' A _ k p2 SM L2 E2 E2') as (s2 & S2 & S2' & _).
  fold f in S0, S1, S2. fold f' in S0', S1', S2'.
  assert (HS : h s1 = h' s1). { apply SM. apply nth_error_In with p1. rewrite nth_error_firstn_lt by exact L1. exact Q1. }
  destruct (entered _ _ S0 S0') as [C1 C1']. destruct (entered _ _ S1 S1') as [C2 C2'].
  destruct (at_passed ring h f _ _ S1) as [r Er]. destruct (at_passed ring h' f' _ _ S1') as [r' Er'].
  destruct (at_passed ring h f _ _ S2) as [t Et]. destruct (at_passed ring h' f' _ _ S2') as [t' Et'].
  destruct (meet ring m h h' f f' _ s1 r r' A1 A2 S1 S1' Er Er') as (c & c' & D & D' & K & LJ & B1 & B2 & B3 & PT).
  rewrite C1 in D. injection D as <-. rewrite C1' in D'. injection D' as <-.
  destruct (meet ring m h h' f f' _ s2 t t' A1 A2 S2 S2' Et Et') as (d & d' & D & D' & K2 & _ & B4 & B5 & B6 & PT2).
  rewrite C2 in D. injection D as <-. rewrite C2' in D'. injection D' as <-. rewrite <- HS in PT2.
  assert (EJ : fg_images R f = fg_images R f').
  { apply (same_images _ _ (fst t) (snd t) (snd t') (h s1)); try assumption. apply NZ. exact (nth_error_In _ _ S1). }
  exists r, r', (h q), (h' q). do 4 (split; [assumption|]). destruct r as [K0 a], r' as [K0' b]. cbn [fst snd] in *. subst K0'. split; [|split].
  - exact (points_keys _ _ _ _ _ _ _ LJ B1 B2 B3 NE PT).
  - exact EJ.
  - rewrite <- EJ in PT. exact (points_images _ _ _ _ _ _ B1 B2 B3 NE PT).
Qed.
(** all rows hashed the same string *)
Lemma fork_all i : (forall i, i < n -> nth_error (places R ring h A) i = Some k) -> (forall i, i < n -> nth_error (places R ring h' A) i = Some k) -> i < n ->
  exists r r', nth_error (passed R ring f) i = Some r /\ nth_error (passed R ring f') i = Some r' /\
    nth_error (hashed R ring h f) i = Some q /\ nth_error (hashed R ring h' f') i = Some q /\ keys_found R r r' (h q) (h' q).
Proof.
  intros E E' L.
  assert (X : forall i, i < n -> nth_error (hashed R ring h f) i = Some q /\ nth_error (hashed R ring h' f') i = Some q).
  { intros j Lj. destruct (same_place ring h h' A j k k SM (le_n k) (E j Lj) (E' j Lj)) as (s & S & S' & Q). rewrite Hq in Q. injection Q as <-. split; assumption. }
  assert (P : exists j, j < n /\ S j mod n = i).
  { destruct i as [|i]; [exists (n - 1)|exists i]; split; try lia.
    - replace (S (n - 1)) with n by lia. apply Nat.mod_same. lia.
    - apply Nat.mod_small. exact L. }
  destruct P as (j & Lj & Ej). destruct (X j Lj) as [Y Y']. destruct (entered _ _ Y Y') as [C C']. rewrite Ej in C, C'.
  destruct (X i L) as [Z Z']. destruct (at_passed ring h f _ _ Z) as [r Er]. destruct (at_passed ring h' f' _ _ Z') as [r' Er'].
  destruct (meet ring m h h' f f' _ q r r' A1 A2 Z Z' Er Er') as (c & c' & D & D' & K & LJ & B1 & B2 & B3 & PT).
  rewrite C in D. injection D as <-. rewrite C' in D'. injection D' as <-.
  exists r, r'. do 4 (split; [assumption|]). destruct r as [K0 a], r' as [K0' b]. cbn [fst snd] in *. subst K0'.
  exact (points_keys _ _ _ _ _ _ _ LJ B1 B2 B3 NE PT).
Qed.
End Two.

(** ** Many runs *)
Lemma repeated : forall l : list nat, NoDup l \/ exists a x b c, l = a ++ x :: b ++ x :: c.
Proof.
  induction l as [|x l [IH|(a & y & b & c & ->)]]; [left; constructor| |right; exists (x :: a), y, b, c; reflexivity].
  destruct (in_dec Nat.eq_dec x l) as [H|H]; [|left; constructor; assumption].
  right. apply in_split in H. destruct H as (b & c & ->). exists [], x, b, c. reflexivity.
Qed.
Lemma pigeons {B} (g : B -> nat) N (l : list B) : (forall x, In x l -> g x < N) -> N < length l ->
  exists i j x y, i < j /\ nth_error l i = Some x /\ nth_error l j = Some y /\ g x = g y.
Proof.
  intros H L. destruct (repeated (map g l)) as [D|(a & v & b & c & E)].
  - exfalso. assert (I : incl (map g l) (seq 0 N)).
    { intros v Hv. apply in_map_iff in Hv. destruct Hv as (x & <- & Hx). apply in_seq. specialize (H x Hx). lia. }
    apply (NoDup_incl_length D) in I. rewrite map_length, seq_length in I. lia.
  - assert (E1 : nth_error (map g l) (length a) = Some v).
    { rewrite E, nth_error_app2 by lia. rewrite Nat.sub_diag. reflexivity. }
    assert (E2 : nth_error (map g l) (length a + 1 + length b) = Some v).
    { rewrite E, nth_error_app2 by lia. replace (length a + 1 + length b - length a) with (S (length b)) by lia. cbn [nth_error].
      rewrite nth_error_app2, Nat.sub_diag by lia. reflexivity. }
    apply nth_error_map_inv in E1. apply nth_error_map_inv in E2. destruct E1 as (x & X1 & X2), E2 as (y & Y1 & Y2).
    exists (length a), (length a + 1 + length b), x, y. split; [lia|]. split; [exact X1|]. split; [exact Y1|]. congruence.
Qed.

Lemma list_max_in : forall l, l <> [] -> In (list_max l) l.
Proof.
  induction l as [|x l IH]; intros N; [congruence|]. destruct l as [|y l]; [left; cbn; lia|].
  change (list_max (x :: y :: l)) with (Nat.max x (list_max (y :: l))).
  destruct (Nat.max_spec x (list_max (y :: l))) as [[_ E]|[_ E]]; rewrite E; [right; apply IH; discriminate|left; reflexivity].
Qed.
(** the row hashed last whose successor was hashed before, and the places of the two rows after it *)
Definition turn (n k : nat) (ps : list nat) : option nat :=
  find (fun l => andb (Nat.eqb (nth l ps 0) k) (Nat.ltb (nth (S l mod n) ps 0) k)) (seq 0 n).
Definition code (n k : nat) (ps : list nat) : nat :=
  match turn n k ps with
  | Some l => S ((l * k + nth (S l mod n) ps 0) * (k + 1) + nth (S (S l mod n) mod n) ps 0)
  | None => 0
  end.
Lemma turn_none n k ps : length ps = n -> 0 < n -> list_max ps = k -> turn n k ps = None -> forall i, i < n -> nth i ps 0 = k.
Proof.
  intros L N M T.
  assert (LE : forall i, i < n -> nth i ps 0 <= k).
  { intros i Hi. subst k. pose proof (proj1 (list_max_le ps (list_max ps)) (le_n _)) as FA. rewrite Forall_forall in FA. apply FA, nth_In. lia. }
  assert (IN : In k ps). { rewrite <- M. apply list_max_in. intros ->. cbn in L. lia. }
  apply (In_nth _ _ 0) in IN. destruct IN as (i0 & H0 & E0).
  assert (ST : forall i, i < n -> nth i ps 0 = k -> nth (S i mod n) ps 0 = k).
  { intros i Hi E. pose proof (find_none _ _ T i ltac:(apply in_seq; lia)) as X. cbv beta in X. rewrite E, Nat.eqb_refl in X. cbn [andb] in X. apply Nat.ltb_ge in X.
    pose proof (LE (S i mod n) (Nat.mod_upper_bound (S i) n ltac:(lia))). lia. }
  assert (GO : forall d, nth ((i0 + d) mod n) ps 0 = k).
  { induction d as [|d IH].
    - rewrite Nat.add_0_r, Nat.mod_small by lia. exact E0.
    - replace (i0 + S d) with (S (i0 + d)) by lia. rewrite <- (Nat.add_1_r (i0 + d)), <- Nat.add_mod_idemp_l, Nat.add_1_r by lia.
      apply ST; [apply Nat.mod_upper_bound; lia|exact IH]. }
  intros i Hi. specialize (GO (n - i0 + i)). replace (i0 + (n - i0 + i)) with (i + 1 * n) in GO by lia.
  rewrite Nat.mod_add, Nat.mod_small in GO by lia. exact GO.
Qed.
Lemma turn_some n k ps l : turn n k ps = Some l -> l < n /\ nth l ps 0 = k /\ nth (S l mod n) ps 0 < k.
Proof.
  intros T. apply find_some in T. destruct T as [I B]. apply in_seq in I. apply andb_true_iff in B. destruct B as [B1 B2].
  apply Nat.eqb_eq in B1. apply Nat.ltb_lt in B2. repeat split; [lia|assumption..].
Qed.
Lemma code_bound n k ps : length ps = n -> 0 < n -> list_max ps = k -> code n k ps < n * k * (k + 1) + 1.
Proof.
  intros L N M. unfold code. destruct (turn n k ps) as [l|] eqn:T; [|lia]. apply turn_some in T. destruct T as (H1 & H2 & H3).
  assert (H4 : nth (S (S l mod n) mod n) ps 0 <= k).
  { subst k. pose proof (proj1 (list_max_le ps (list_max ps)) (le_n _)) as FA. rewrite Forall_forall in FA. apply FA, nth_In.
    pose proof (Nat.mod_upper_bound (S (S l mod n)) n). lia. }
  assert (l * k + nth (S l mod n) ps 0 + 1 <= n * k) by nia. nia.
Qed.
Lemma digits b u u' v v' : v < b -> v' < b -> u * b + v = u' * b + v' -> u = u' /\ v = v'.
Proof.
  intros H H' E. assert (D : u = u').
  { destruct (Nat.lt_trichotomy u u') as [C|[C|C]]; [|exact C|]; exfalso; nia. }
  split; [exact D|]. subst u'. lia.
Qed.
Lemma code_same n k ps ps' : length ps = n -> length ps' = n -> 0 < n -> list_max ps = k -> list_max ps' = k -> code n k ps = code n k ps' ->
  (turn n k ps = None /\ turn n k ps' = None) \/
  exists l, turn n k ps = Some l /\ turn n k ps' = Some l /\ nth (S l mod n) ps 0 = nth (S l mod n) ps' 0 /\
    nth (S (S l mod n) mod n) ps 0 = nth (S (S l mod n) mod n) ps' 0 /\ nth (S (S l mod n) mod n) ps 0 <= k.
Proof.
  intros L L' N M M' E. unfold code in E. destruct (turn n k ps) as [l|] eqn:T, (turn n k ps') as [l'|] eqn:T'; try discriminate; [right|auto].
  apply turn_some in T as U. apply turn_some in T' as U'. destruct U as (H1 & H2 & H3), U' as (H1' & H2' & H3').
  assert (B : forall qs, length qs = n -> list_max qs = k -> forall i, i < n -> nth i qs 0 <= k).
  { intros qs Lq Mq i Hi. subst k. rewrite <- Mq. pose proof (proj1 (list_max_le qs (list_max qs)) (le_n _)) as FA. rewrite Forall_forall in FA. apply FA, nth_In. lia. }
  assert (UB : forall x, x mod n < n) by (intros x; apply Nat.mod_upper_bound; lia).
  pose proof (B ps L M _ (UB (S (S l mod n)))) as X. pose proof (B ps' L' M' _ (UB (S (S l' mod n)))) as X'.
  injection E as E.
  set (a := nth (S l mod n) ps 0) in *. set (a' := nth (S l' mod n) ps' 0) in *.
  set (b := nth (S (S l mod n) mod n) ps 0) in *. set (b' := nth (S (S l' mod n) mod n) ps' 0) in *.
  destruct (digits (k + 1) (l * k + a) (l' * k + a') b b' ltac:(lia) ltac:(lia) E) as [E1 E2].
  destruct (digits k l l' a a' H3 H3' E1) as [E3 E4].
  exists l. subst l'. repeat split; assumption.
Qed.
Lemma nth_some {B} (l : list B) i d : i < length l -> nth_error l i = Some (nth i l d).
Proof. intros H. apply nth_error_nth'. exact H. Qed.

Lemma fork_many ring m k A (hs : list (bytes -> F)) :
  (forall h, In h hs -> accepted R ring m h (answer h A) /\ list_max (places R ring h A) = k /\
     forall s, In s (hashed R ring h (answer h A)) -> h s <> f0) ->
  (forall h h' q, In h hs -> In h' hs -> In q (firstn k (queries R ring h A)) -> h q = h' q) ->
  NoDup (map (fun h => h (nth k (queries R ring h A) [])) hs) ->
  Nat.max 2 (length ring) * k * (k + 1) + 1 < length hs ->
  exists h h', In h hs /\ In h' hs /\
   let f := answer h A in let f' := answer h' A in
   ((exists i r r' c c', nth_error (passed R ring f) i = Some r /\ nth_error (passed R ring f') i = Some r' /\
      nth_error (entering R ring h f) i = Some c /\ nth_error (entering R ring h' f') i = Some c' /\
      keys_found R r r' c c' /\ fg_images R f = fg_images R f' /\ images_found R (fg_images R f) r r' c c') \/
    (exists q, Forall (eq q) (hashed R ring h f) /\ Forall (eq q) (hashed R ring h' f') /\
      forall i r r', nth_error (passed R ring f) i = Some r -> nth_error (passed R ring f') i = Some r' -> keys_found R r r' (h q) (h' q))).
Proof.
  intros HA SM ND LEN. set (n := Nat.max 2 (length ring)) in *. assert (HN : 2 <= n) by (unfold n; lia).
  assert (LP : forall h, In h hs -> length (places R ring h A) = n).
  { intros h Hh. destruct (HA h Hh) as (Ac & _). unfold places. rewrite map_length. unfold hashed. rewrite inputs_length. exact (passed_length _ _ _ _ Ac). }
  destruct (pigeons (fun h => code n k (places R ring h A)) (n * k * (k + 1) + 1) hs) as (i & j & h & h' & Lij & Ei & Ej & EC).
  { intros h Hh. apply code_bound; [apply LP, Hh|lia|]. apply HA, Hh. }
  { exact LEN. }
  assert (Hh : In h hs) by exact (nth_error_In _ _ Ei). assert (Hh' : In h' hs) by exact (nth_error_In _ _ Ej).
  destruct (HA h Hh) as (A1 & M1 & NZ). destruct (HA h' Hh') as (A2 & M2 & _).
  pose proof (LP h Hh) as P1. pose proof (LP h' Hh') as P2.
  assert (SM1 : forall q, In q (firstn k (queries R ring h A)) -> h q = h' q) by (intros q Iq; exact (SM h h' q Hh Hh' Iq)).
  pose proof (queries_same ring h h' A k SM1) as QS.
  assert (KQ : exists q, nth_error (queries R ring h A) k = Some q).
  { assert (IN : In k (places R ring h A)). { rewrite <- M1. apply list_max_in. intros C. apply (f_equal (@length _)) in C. rewrite P1 in C. change (n = 0) in C. lia. }
    apply In_nth_error in IN. destruct IN as [t Et]. pose proof Et as Et'. unfold places in Et'. apply nth_error_map_inv in Et'. destruct Et' as (s & Es & _).
    exists s. exact (places_nth ring h A t k s Et Es). }
  destruct KQ as [q Hq].
  assert (Hq' : nth_error (queries R ring h' A) k = Some q).
  { rewrite <- (nth_error_firstn_lt (queries R ring h' A) (S k) k) by lia. rewrite QS, nth_error_firstn_lt by lia. exact Hq. }
  assert (NE : h q <> h' q).
  { intros C. rewrite NoDup_nth_error in ND. specialize (ND i j). rewrite map_length in ND.
    assert (i = j); [|lia]. apply ND; [apply nth_error_Some; congruence|]. rewrite (map_nth_error _ _ _ Ei), (map_nth_error _ _ _ Ej).
    rewrite (nth_error_nth _ _ _ Hq), (nth_error_nth _ _ _ Hq'), C. reflexivity. }
  exists h, h'. split; [exact Hh|]. split; [exact Hh'|]. cbv zeta.
  destruct (code_same n k _ _ P1 P2 ltac:(lia) M1 M2 EC) as [[T T']|(l & T & T' & X1 & X2 & X3)].
  - right. exists q.
    assert (G : forall g, In g hs -> list_max (places R ring g A) = k -> turn n k (places R ring g A) = None -> forall i, i < n -> nth_error (places R ring g A) i = Some k).
    { intros g Ig Mg Tg t Ht. rewrite (nth_some _ _ 0) by (rewrite LP by exact Ig; exact Ht). f_equal. apply (turn_none n k); try assumption; [apply LP, Ig|lia]. }
    pose proof (G h Hh M1 T) as G1. pose proof (G h' Hh' M2 T') as G2.
    pose proof (fun i => fork_all ring m k A h h' q A1 A2 SM1 Hq NE i G1 G2) as FK.
    assert (AL : forall g, (forall i, i < n -> nth_error (hashed R ring g (answer g A)) i = Some q) -> length (hashed R ring g (answer g A)) = n -> Forall (eq q) (hashed R ring g (answer g A))).
    { intros g H LG. apply Forall_forall. intros s Is. apply In_nth_error in Is. destruct Is as [t Et].
      assert (t < n) by (rewrite <- LG; apply nth_error_Some; congruence). rewrite (H t) in Et by assumption. congruence. }
    split; [|split].
    + apply AL; [intros t Ht; destruct (FK t Ht) as (r & r' & _ & _ & X & _); exact X|]. unfold hashed. rewrite inputs_length. exact (passed_length _ _ _ _ A1).
    + apply AL; [intros t Ht; destruct (FK t Ht) as (r & r' & _ & _ & _ & X & _); exact X|]. unfold hashed. rewrite inputs_length. exact (passed_length _ _ _ _ A2).
    + intros t r r' Er Er'. assert (Ht : t < n) by (unfold n; rewrite <- (passed_length _ _ _ _ A1); apply nth_error_Some; congruence).
      destruct (FK t Ht) as (r0 & r0' & Z & Z' & _ & _ & KF). rewrite Er in Z. rewrite Er' in Z'. injection Z as <-. injection Z' as <-. exact KF.
  - left. exists (S l mod n). apply turn_some in T. apply turn_some in T'. destruct T as (Ll & T1 & T2), T' as (_ & T1' & T2').
    assert (UB : forall x, x mod n < n) by (intros x; apply Nat.mod_upper_bound; lia).
    apply (fork ring m k A h h' q A1 A2 SM1 Hq NE l (nth (S l mod n) (places R ring h A) 0) (nth (S (S l mod n) mod n) (places R ring h A) 0)).
    + exact T2.
    + exact X3.
    + rewrite (nth_some _ l 0), T1; [reflexivity|]. rewrite P1. exact Ll.
    + rewrite (nth_some _ l 0), T1'; [reflexivity|]. rewrite P2. exact Ll.
    + apply nth_some. rewrite P1. apply UB.
    + rewrite X1. apply nth_some. rewrite P2. apply UB.
    + apply nth_some. rewrite P1. apply UB.
    + rewrite X2. apply nth_some. rewrite P2. apply UB.
    + exact NZ.
Qed.

(** two rows of one run that hashed the same string *)
Lemma degenerate ring m h f q i i' r r' j k k' a a' im : accepted R ring m h f -> Forall (eq q) (hashed R ring h f) -> h q <> f0 ->
  nth_error (passed R ring f) i = Some r -> nth_error (passed R ring f) i' = Some r' ->
  nth_error (fst r) j = Some k -> nth_error (fst r') j = Some k' -> nth_error (snd r) j = Some a -> nth_error (snd r') j = Some a' ->
  nth_error (fg_images R f) j = Some im -> k <> k' ->
  a [*] pderive R (pbytes R k) = a' [*] pderive R (pbytes R k') /\ ~ (a = f0 /\ a' = f0).
Proof.
  intros Ac FQ NZ Ei Ei' Ek Ek' Ea Ea' Em NK.
  pose proof (passed_length _ _ _ _ Ac) as LP. apply accepted_facts in Ac. destruct Ac as (_ & L2 & _ & W & CL).
  assert (EN : forall t u, nth_error (passed R ring f) t = Some u ->
    nth_error (entering R ring h f) t = Some (h q) /\ input R (fg_msg R f) (fg_images R f) u (h q) = q).
  { intros t u Et. destruct (inputs_at h (fg_msg R f) (fg_images R f) _ (fg_c R f) t u Et) as (d & D1 & D2).
    assert (Q : q = input R (fg_msg R f) (fg_images R f) u d) by exact (proj1 (Forall_forall _ _) FQ _ (nth_error_In _ _ D2)).
    assert (D : d = h q).
    { assert (HT : t < length (passed R ring f)) by (apply nth_error_Some; congruence).
      assert (P : exists v, v < length (passed R ring f) /\ S v mod length (passed R ring f) = t).
      { destruct t as [|t]; [exists (length (passed R ring f) - 1)|exists t]; split; try lia.
        - replace (S (length (passed R ring f) - 1)) with (length (passed R ring f)) by lia. apply Nat.mod_same. lia.
        - apply Nat.mod_small. exact HT. }
      destruct P as (v & Hv & Ev).
      destruct (nth_error (hashed R ring h f) v) as [s|] eqn:Es.
      - assert (q = s) by exact (proj1 (Forall_forall _ _) FQ _ (nth_error_In _ _ Es)). subst s.
        pose proof (chals_cyclic h _ _ _ _ v q CL Es) as X. rewrite Ev in X. rewrite D1 in X. congruence.
      - apply nth_error_None in Es. unfold hashed in Es. rewrite inputs_length in Es. lia. }
    subst d. split; [exact D1|symmetry; exact Q]. }
  destruct (EN i r Ei) as [_ Q1]. destruct (EN i' r' Ei') as [_ Q2]. destruct (W i r Ei) as [W1 _]. destruct (W i' r' Ei') as [W2 _].
  unfold row_ok in W1, W2. set (c := h q) in *. unfold input in Q1, Q2. rewrite <- Q1 in Q2. clear Q1. apply app_inv_head in Q2.
  apply (concat_fixed_inj 32) in Q2; [|discriminate|apply Forall_map, Forall_forall; intros x _; apply (pbytes_len R OK)..].
  assert (P : row_points R (fg_images R f) (fst r') (snd r') c = row_points R (fg_images R f) (fst r) (snd r) c).
  { revert Q2. generalize (row_points R (fg_images R f) (fst r') (snd r') c) (row_points R (fg_images R f) (fst r) (snd r) c).
    induction l as [|x l IH]; intros [|y l'] D; try discriminate; [reflexivity|].
    cbn in D. injection D as D1 D2. apply (pbytes_inj OK) in D1. rewrite D1, (IH _ D2). reflexivity. }
  assert (LK : length (fst r') = length (fst r)).
  { pose proof (f_equal (@length _) P) as L. rewrite !points_length in L by lia. lia. }
  unfold row_points in P. apply app_inv_len in P; [|rewrite !zipw_len by lia; exact LK]. destruct P as [P1 P2].
  pose proof (zipw_nth (fun r k => r [*] pbase R [+] c [*] k) _ _ j a k Ea Ek) as X1.
  pose proof (zipw_nth (fun r k => r [*] pbase R [+] c [*] k) _ _ j a' k' Ea' Ek') as X2. rewrite P1, X1 in X2. injection X2 as X2.
  pose proof (zipw_nth (fun r ki => r [*] pderive R (pbytes R (fst ki)) [+] c [*] snd ki) _ _ j a (k, im) Ea (combine_nth_error _ _ j k im Ek Em)) as Y1.
  pose proof (zipw_nth (fun r ki => r [*] pderive R (pbytes R (fst ki)) [+] c [*] snd ki) _ _ j a' (k', im) Ea' (combine_nth_error _ _ j k' im Ek' Em)) as Y2.
  rewrite P2, Y1 in Y2. cbn [fst snd] in Y2. injection Y2 as Y2. split; [exact (padd_cancel_r OK _ _ _ Y2)|].
  intros [-> ->]. apply NK. apply (padd_cancel_l OK) in X2. exact (smul_inj_r OK c k k' NZ X2).
Qed.
End Fork.
