(** Which lists of leaf hashes have the same Merkle root *)
From Coq Require Import String ZArith List Arith Lia Bool.
From Verif Require Import GoModel GoFacts MerkleModel SpecMerkle MerkleFacts SpecRoot.
Import ListNotations.

Lemma fill_length d : forall hs, 1 <= length hs <= 2 ^ d -> length (fill d hs) = 2 ^ d.
Proof.
  induction d as [|d IH]; intros hs L; cbn [fill]; [cbn [Nat.pow] in *; lia|]. rewrite Nat.pow_succ_r' in *.
  destruct (Nat.leb_spec (length hs) (2 ^ d)) as [C|C]; rewrite app_length.
  - rewrite IH by lia. lia.
  - rewrite IH by (rewrite skipn_length; lia). rewrite firstn_length. lia.
Qed.
Lemma fill_prefix d : forall hs, length hs <= 2 ^ d -> firstn (length hs) (fill d hs) = hs.
Proof.
  induction d as [|d IH]; intros hs L; cbn [fill]; [apply firstn_all|]. rewrite Nat.pow_succ_r' in *.
  destruct (Nat.leb_spec (length hs) (2 ^ d)) as [C|C].
  - destruct hs as [|a hs]; [reflexivity|]. rewrite firstn_app, fill_length by (cbn [length] in *; lia).
    rewrite IH by lia. replace (length (a :: hs) - 2 ^ d) with 0 by lia. apply app_nil_r.
  - rewrite firstn_app, (firstn_all2 (n := length hs)) by (rewrite firstn_length; lia). rewrite firstn_length.
    replace (length hs - Nat.min (2 ^ d) (length hs)) with (length (skipn (2 ^ d) hs)) by (rewrite skipn_length; lia).
    rewrite IH by (rewrite skipn_length; lia). apply firstn_skipn.
Qed.
Lemma fill_in d : forall hs x, In x (fill d hs) -> In x hs.
Proof.
  induction d as [|d IH]; intros hs x; cbn [fill]; [auto|]. destruct (length hs <=? 2 ^ d); rewrite in_app_iff; intros [I|I]; auto.
  - rewrite <- (firstn_skipn (2 ^ d) hs). apply in_or_app. auto.
  - rewrite <- (firstn_skipn (2 ^ d) hs). apply in_or_app. right. auto.
Qed.

Section Root.
Context (H : bytes -> bytes).
Notation pair_up := (pair_up H).
Notation merkle_root := (merkle_root H).
Notation levels := (levels H).
Lemma pair_up_app a b : Nat.even (length a) = true -> pair_up (a ++ b) = pair_up a ++ pair_up b.
Proof.
  induction a as [|x|x y l IH] using pair_ind; intros E; [reflexivity|discriminate|]. cbn [app SpecMerkle.pair_up]. rewrite IH by exact E. reflexivity.
Qed.
Lemma pair_up_le hs k : length hs <= 2 * k -> length (pair_up hs) <= k.
Proof. intros L. pose proof (pair_up_length H hs) as E. pose proof (Nat.mod_upper_bound (length hs) 2). lia. Qed.
Lemma pair_up_gt hs k : 2 * k < length hs -> k < length (pair_up hs).
Proof. intros L. pose proof (pair_up_length H hs) as E. lia. Qed.
Lemma even_pow d : Nat.even (2 ^ S d) = true.
Proof. rewrite Nat.pow_succ_r'. apply Nat.even_spec. exists (2 ^ d). reflexivity. Qed.
Lemma pair_up_fill d : forall hs, 1 <= length hs <= 2 ^ S d -> pair_up (fill (S d) hs) = fill d (pair_up hs).
Proof.
  induction d as [|d IH]; intros hs L.
  - destruct hs as [|a [|b [|c l]]]; cbn [length Nat.pow] in L; try lia; reflexivity.
  - change (fill (S (S d)) hs) with (if length hs <=? 2 ^ S d then fill (S d) hs ++ fill (S d) hs
      else firstn (2 ^ S d) hs ++ fill (S d) (skipn (2 ^ S d) hs)).
    change (fill (S d) (pair_up hs)) with (if length (pair_up hs) <=? 2 ^ d then fill d (pair_up hs) ++ fill d (pair_up hs)
      else firstn (2 ^ d) (pair_up hs) ++ fill d (skipn (2 ^ d) (pair_up hs))).
    destruct (Nat.leb_spec (length hs) (2 ^ S d)) as [C|C].
    + rewrite pair_up_app by (rewrite fill_length by lia; apply even_pow). rewrite IH by lia.
      rewrite Nat.pow_succ_r' in C. apply pair_up_le in C. destruct (Nat.leb_spec (length (pair_up hs)) (2 ^ d)); [reflexivity|lia].
    + assert (LX : 2 ^ S (S d) = 2 * 2 ^ S d) by apply Nat.pow_succ_r'.
      assert (LF : length (firstn (2 ^ S d) hs) = 2 ^ S d) by (rewrite firstn_length; lia).
      assert (EF : Nat.even (length (firstn (2 ^ S d) hs)) = true) by (rewrite LF; apply even_pow).
      rewrite pair_up_app by exact EF. rewrite IH by (rewrite skipn_length; lia).
      assert (EH : pair_up hs = pair_up (firstn (2 ^ S d) hs) ++ pair_up (skipn (2 ^ S d) hs)).
      { rewrite <- pair_up_app by exact EF. rewrite firstn_skipn. reflexivity. }
      assert (LP : length (pair_up (firstn (2 ^ S d) hs)) = 2 ^ d).
      { pose proof (pair_up_length H (firstn (2 ^ S d) hs)) as E. rewrite LF in E. 
        assert (Z0 : 2 ^ S d mod 2 = 0) by (rewrite Nat.pow_succ_r', Nat.mul_comm; apply Nat.mod_mul; lia).
        rewrite Z0 in E. pose proof (Nat.pow_succ_r' 2 d). lia. }
      rewrite Nat.pow_succ_r' in C. apply pair_up_gt in C. destruct (Nat.leb_spec (length (pair_up hs)) (2 ^ d)) as [D|D]; [lia|].
      rewrite EH. rewrite firstn_app, skipn_app, LP, Nat.sub_diag, (firstn_all2 (n := 2 ^ d)), (skipn_all2 (n := 2 ^ d)) by lia.
      cbn [firstn skipn app]. rewrite app_nil_r. reflexivity.
Qed.
Lemma levels_add j k : forall hs, levels (j + k) hs = levels k (levels j hs).
Proof. induction j as [|j IH]; intros hs; cbn [Nat.add SpecRoot.levels]; auto. Qed.
Lemma pair_up_nonnil hs : 1 <= length hs -> 1 <= length (pair_up hs).
Proof. intros L. pose proof (pair_up_length H hs) as E. lia. Qed.
Lemma levels_nonnil k : forall hs, 1 <= length hs -> 1 <= length (levels k hs).
Proof. induction k as [|k IH]; intros hs L; cbn [SpecRoot.levels]; [exact L|]. apply IH, pair_up_nonnil, L. Qed.
Lemma levels_fill j : forall d hs, 1 <= length hs <= 2 ^ (j + d) -> levels j (fill (j + d) hs) = fill d (levels j hs).
Proof.
  induction j as [|j IH]; intros d hs L; cbn [Nat.add SpecRoot.levels]; [reflexivity|]. rewrite pair_up_fill by exact L. apply IH.
  split; [apply pair_up_nonnil; lia|]. apply pair_up_le. cbn [Nat.add Nat.pow] in L. lia.
Qed.
Lemma levels_length j : forall d hs, length hs = 2 ^ (j + d) -> length (levels j hs) = 2 ^ d.
Proof.
  induction j as [|j IH]; intros d hs L; cbn [SpecRoot.levels]; [exact L|]. apply IH.
  pose proof (pair_up_length H hs) as E. rewrite L in E. cbn [Nat.add] in E. rewrite Nat.pow_succ_r', (Nat.mul_comm 2 (2 ^ (j + d))), Nat.mod_mul in E by lia. lia.
Qed.
(** the depth steps lead to the root *)
Lemma levels_root d : forall hs r, 1 <= d -> 1 <= length hs -> 2 ^ (d - 1) < length hs \/ d = 1 -> length hs <= 2 ^ d ->
  (merkle_root hs r <-> levels d hs = [r]).
Proof.
  induction d as [|d IH]; intros hs r D L L1 L2; [lia|]. destruct d as [|d].
  - destruct hs as [|a [|b [|c l]]]; cbn [length Nat.pow] in *; try lia; cbn [SpecRoot.levels];
      (split; [intros M; inversion M as [? ? E|? ? LL M']; subst; [exact E|cbn [length] in LL; lia]|intros E; apply mr_done; exact E]).
  - replace (S (S d) - 1) with (S d) in L1 by lia. assert (C : 2 < length hs). { destruct L1 as [L1|L1]; [|lia]. rewrite Nat.pow_succ_r' in L1. pose proof (Nat.pow_nonzero 2 d). lia. }
    rewrite (merkle_root_up H hs r C). cbn [SpecRoot.levels]. apply IH; [lia|apply pair_up_nonnil; lia| |apply pair_up_le; rewrite (Nat.pow_succ_r' 2 (S d)) in L2; lia].
    destruct L1 as [L1|L1]; [|lia]. replace (S d - 1) with d by lia. rewrite Nat.pow_succ_r' in L1. left. apply pair_up_gt. lia.
Qed.
Lemma depth_bounds hs : 1 <= length hs -> 1 <= depth hs /\ (2 ^ (depth hs - 1) < length hs \/ depth hs = 1) /\ length hs <= 2 ^ depth hs.
Proof.
  intros L. unfold depth. destruct (Nat.eq_dec (length hs) 1) as [E|E].
  - rewrite E. cbn. lia.
  - pose proof (Nat.log2_up_spec (length hs) ltac:(lia)) as [A B]. pose proof (Nat.log2_up_pos (length hs) ltac:(lia)) as P.
    replace (Nat.max 1 (Nat.log2_up (length hs))) with (Nat.log2_up (length hs)) by lia. split; [lia|]. split; [|exact B]. left.
    replace (Nat.log2_up (length hs) - 1) with (Nat.pred (Nat.log2_up (length hs))) by lia. exact A.
Qed.
Lemma root_fill hs r : 1 <= length hs -> (merkle_root hs r <-> levels (depth hs) (fill (depth hs) hs) = [r]).
Proof.
  intros L. destruct (depth_bounds hs L) as (D1 & D2 & D3). rewrite (levels_root (depth hs)) by assumption.
  pose proof (levels_fill (depth hs) 0 hs) as E. rewrite Nat.add_0_r in E. rewrite E by lia. reflexivity.
Qed.
Lemma root_full d hs r : 1 <= d -> length hs = 2 ^ d -> (merkle_root hs r <-> levels d hs = [r]).
Proof.
  intros D L. pose proof (Nat.pow_nonzero 2 d). apply levels_root; try lia. left. rewrite L. apply Nat.pow_lt_mono_r; lia.
Qed.
(** two lists, the second at least as deep *)
Definition lower (a : list bytes) := fill (depth a) a.
Definition raised (a b : list bytes) := levels (depth b - depth a) (fill (depth b) b).
Lemma lower_root a r : 1 <= length a -> (merkle_root a r <-> merkle_root (lower a) r) /\ length (lower a) = 2 ^ depth a.
Proof.
  intros La. destruct (depth_bounds a La) as (Da & _ & Ba).
  assert (LA : length (lower a) = 2 ^ depth a) by (apply fill_length; split; assumption).
  split; [|exact LA]. rewrite (root_fill a r La), (root_full (depth a) (lower a) r Da LA). reflexivity.
Qed.
Lemma raised_root a b r : 1 <= length a -> 1 <= length b -> depth a <= depth b ->
  (merkle_root b r <-> merkle_root (raised a b) r) /\ length (raised a b) = 2 ^ depth a.
Proof.
  intros La Lb D. destruct (depth_bounds a La) as (Da & _ & Ba). destruct (depth_bounds b Lb) as (Db & _ & Bb).
  assert (LB : length (raised a b) = 2 ^ depth a).
  { apply levels_length. replace (depth b - depth a + depth a) with (depth b) by lia. apply fill_length. split; assumption. }
  split; [|exact LB]. rewrite (root_fill b r Lb), (root_full (depth a) (raised a b) r Da LB). unfold raised. rewrite <- levels_add.
  replace (depth b - depth a + depth a) with (depth b) by lia. reflexivity.
Qed.
Lemma same_root_if a b ra rb : 1 <= length a -> 1 <= length b -> depth a <= depth b -> merkle_root a ra -> merkle_root b rb ->
  lower a = raised a b -> ra = rb.
Proof.
  intros La Lb D Ma Mb E. apply (lower_root a ra La) in Ma. apply (raised_root a b rb La Lb D) in Mb. rewrite E in Ma.
  exact (merkle_root_det H _ _ _ Ma Mb).
Qed.
Lemma same_root_only a b r : (forall x, length (H x) = 32) -> Forall (fun x => length x = 32) a -> Forall (fun x => length x = 32) b ->
  1 <= length a -> 1 <= length b -> depth a <= depth b -> merkle_root a r -> merkle_root b r ->
  lower a = raised a b \/ exists x y, find_collision H (lower a) (raised a b) = Some (x, y) /\ x <> y /\ H x = H y.
Proof.
  intros HL A B La Lb D Ma Mb. destruct (lower_root a r La) as (EA & LA). destruct (raised_root a b r La Lb D) as (EB & LB).
  apply EA in Ma. apply EB in Mb. apply (root_binding H (lower a) (raised a b) r); try assumption.
  - apply Forall_forall. intros x Hx. apply fill_in in Hx. rewrite Forall_forall in A. auto.
  - assert (F : Forall (fun x => length x = 32) (fill (depth b) b)).
    { apply Forall_forall. intros x Hx. apply fill_in in Hx. rewrite Forall_forall in B. auto. }
    unfold raised. destruct (depth b - depth a) as [|k] eqn:K; [exact F|]. replace (S k) with (k + 1) by lia. rewrite levels_add. apply pair_up_all32. exact HL.
  - congruence.
Qed.
(** the shorter of two lists with the same expansion is the beginning of the longer *)
Lemma fill_same d a b : 1 <= length a <= length b -> length b <= 2 ^ d -> fill d a = fill d b -> a = firstn (length a) b.
Proof.
  intros L LB E. rewrite <- (fill_prefix d a) at 1 by lia. rewrite E. rewrite <- (fill_prefix d b) at 2 by lia. rewrite firstn_firstn. f_equal. lia.
Qed.
(** entries above the leaves are hashes of pairs *)
Lemma levels_pairs k hs x : (forall x, length (H x) = 32) -> Forall (fun x => length x = 32) hs ->
  In x (levels (S k) hs) -> exists u v, x = H (u ++ v) /\ length u = 32 /\ length v = 32.
Proof.
  intros HL A I.
  assert (P : forall hs x, In x (pair_up hs) -> exists u v, x = H (u ++ v) /\ In u hs /\ In v hs).
  { clear. induction hs as [|a|a b l IH] using pair_ind; cbn [SpecMerkle.pair_up In]; intros x.
    - tauto.
    - intros [<-|[]]. exists a, a. auto.
    - intros [<-|I]; [exists a, b; auto|]. destruct (IH x I) as (u & v & E & I1 & I2). exists u, v. auto. }
  replace (S k) with (k + 1) in I by lia. rewrite levels_add in I. destruct (P _ x I) as (u & v & E & I1 & I2). exists u, v. split; [exact E|].
  assert (F : Forall (fun x => length x = 32) (levels k hs)).
  { destruct k as [|k]; [exact A|]. replace (S k) with (k + 1) by lia. rewrite levels_add. apply pair_up_all32. exact HL. }
  rewrite Forall_forall in F. auto.
Qed.
End Root.
