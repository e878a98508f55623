(** Property C102: merkletree/merkletree.go, which payload lists share a root *)
From Coq Require Import String ZArith List Arith Lia Bool.
From Coq Require Import Init.Byte.
From Verif Require Import GoModel GoFacts MerkleModel SpecMerkle MerkleFacts MerkleProps SpecRoot RootFacts P_Merkle.
Import ListNotations.

(** [hs1] and [hs2] are the hashes of the payloads; the second tree is at least as deep as the first *)
Theorem C102_same_root {P} (calc : P -> res bytes) sha3 f1 h1 pl1 h1' t1 hs1 f2 h2 pl2 h2' t2 hs2 :
  NewTree calc sha3 f1 h1 pl1 = Some (h1', Ok t1) -> hashes calc pl1 hs1 ->
  NewTree calc sha3 f2 h2 pl2 = Some (h2', Ok t2) -> hashes calc pl2 hs2 ->
  depth hs1 <= depth hs2 ->
  let a := fill (depth hs1) hs1 in
  let b := levels sha3 (depth hs2 - depth hs1) (fill (depth hs2) hs2) in
  length a = length b /\
  (a = b -> t_mroot t1 = t_mroot t2) /\
  ((forall x, length (sha3 x) = 32) -> Forall (fun x => length x = 32) hs1 -> Forall (fun x => length x = 32) hs2 ->
   t_mroot t1 = t_mroot t2 ->
   a = b \/ exists x y, find_collision sha3 a b = Some (x, y) /\ x <> y /\ sha3 x = sha3 y).
Proof.
  intros E1 F1 E2 F2 D a b. destruct (tree_mroot _ _ _ _ _ _ _ _ E1 F1) as [M1 N1]. destruct (tree_mroot _ _ _ _ _ _ _ _ E2 F2) as [M2 N2].
  assert (L1 : 1 <= length hs1) by (destruct hs1; [congruence|cbn [length]; lia]).
  assert (L2 : 1 <= length hs2) by (destruct hs2; [congruence|cbn [length]; lia]). split; [|split].
  - transitivity (2 ^ depth hs1); [exact (proj2 (lower_root sha3 hs1 (t_mroot t1) L1))|].
    symmetry. exact (proj2 (raised_root sha3 hs1 hs2 (t_mroot t2) L1 L2 D)).
  - exact (same_root_if sha3 hs1 hs2 _ _ L1 L2 D M1 M2).
  - intros HL A1 A2 E. rewrite <- E in M2. exact (same_root_only sha3 hs1 hs2 _ HL A1 A2 L1 L2 D M1 M2).
Qed.
Print Assumptions C102_same_root.

(** Trees of the same depth: unless a collision is found, the shorter list is the beginning of the longer, and the two expand to the same list *)
Theorem C102_same_depth {P} (calc : P -> res bytes) sha3 f1 h1 pl1 h1' t1 hs1 f2 h2 pl2 h2' t2 hs2 :
  NewTree calc sha3 f1 h1 pl1 = Some (h1', Ok t1) -> hashes calc pl1 hs1 ->
  NewTree calc sha3 f2 h2 pl2 = Some (h2', Ok t2) -> hashes calc pl2 hs2 ->
  (forall x, length (sha3 x) = 32) -> Forall (fun x => length x = 32) hs1 -> Forall (fun x => length x = 32) hs2 ->
  depth hs1 = depth hs2 -> length hs1 <= length hs2 -> t_mroot t1 = t_mroot t2 ->
  (hs1 = firstn (length hs1) hs2 /\ fill (depth hs1) hs1 = fill (depth hs2) hs2) \/
  exists x y, find_collision sha3 (fill (depth hs1) hs1) (fill (depth hs2) hs2) = Some (x, y) /\ x <> y /\ sha3 x = sha3 y.
Proof.
  intros E1 F1 E2 F2 HL A1 A2 D L E. destruct (C102_same_root calc sha3 f1 h1 pl1 h1' t1 hs1 f2 h2 pl2 h2' t2 hs2 E1 F1 E2 F2 ltac:(lia)) as (_ & _ & G).
  specialize (G HL A1 A2 E). rewrite D, Nat.sub_diag in G. cbn [levels] in G. rewrite D. destruct G as [G|G]; [left|right; exact G]. split; [|exact G].
  destruct (tree_mroot _ _ _ _ _ _ _ _ E1 F1) as [_ N1].
  assert (L1 : 1 <= length hs1) by (destruct hs1; [congruence|cbn [length]; lia]).
  apply (fill_same (depth hs2)); [split; assumption| |exact G]. apply depth_bounds. lia.
Qed.
Print Assumptions C102_same_depth.

(** A deeper tree: unless a collision is found, every payload hash of the other is SHA3-256 of 64 bytes *)
Theorem C102_deeper {P} (calc : P -> res bytes) sha3 f1 h1 pl1 h1' t1 hs1 f2 h2 pl2 h2' t2 hs2 :
  NewTree calc sha3 f1 h1 pl1 = Some (h1', Ok t1) -> hashes calc pl1 hs1 ->
  NewTree calc sha3 f2 h2 pl2 = Some (h2', Ok t2) -> hashes calc pl2 hs2 ->
  (forall x, length (sha3 x) = 32) -> Forall (fun x => length x = 32) hs1 -> Forall (fun x => length x = 32) hs2 ->
  depth hs1 < depth hs2 -> t_mroot t1 = t_mroot t2 ->
  (forall p, In p pl1 -> exists u v, calc p = Ok (sha3 (u ++ v)) /\ length u = 32 /\ length v = 32) \/
  exists x y, find_collision sha3 (fill (depth hs1) hs1) (levels sha3 (depth hs2 - depth hs1) (fill (depth hs2) hs2)) = Some (x, y) /\
    x <> y /\ sha3 x = sha3 y.
Proof.
  intros E1 F1 E2 F2 HL A1 A2 D E. destruct (C102_same_root calc sha3 f1 h1 pl1 h1' t1 hs1 f2 h2 pl2 h2' t2 hs2 E1 F1 E2 F2 ltac:(lia)) as (_ & _ & G).
  destruct (G HL A1 A2 E) as [Q|Q]; [left|right; exact Q]. destruct (tree_mroot _ _ _ _ _ _ _ _ E1 F1) as [_ N1].
  assert (L1 : 1 <= length hs1) by (destruct hs1; [congruence|cbn [length]; lia]).
  assert (A3 : Forall (fun x => length x = 32) (fill (depth hs2) hs2)).
  { apply Forall_forall. intros x Hx. apply fill_in in Hx. rewrite Forall_forall in A2. auto. }
  assert (I : forall x, In x hs1 -> exists u v, x = sha3 (u ++ v) /\ length u = 32 /\ length v = 32).
  { intros x Hx. destruct (depth hs2 - depth hs1) as [|k] eqn:K; [lia|]. apply (levels_pairs sha3 k (fill (depth hs2) hs2)); try assumption.
    rewrite <- Q. rewrite <- (firstn_skipn (length hs1) (fill (depth hs1) hs1)). apply in_or_app. left.
    rewrite fill_prefix; [exact Hx|]. apply depth_bounds. exact L1. }
  clear -F1 I. induction F1 as [|p x pl hs C F IH]; intros q Hq; [destruct Hq|]. destruct Hq as [Hq|Hq].
  - subst q. destruct (I x (or_introl eq_refl)) as (u & v & -> & U). exists u, v. auto.
  - apply IH; [|exact Hq]. intros y Hy. apply I. right. exact Hy.
Qed.
Print Assumptions C102_deeper.

(** six payloads have the root of the eight made by repeating the last two *)
Example C102_ex : depth [ex_a; ex_b; ex_c; ex_a; ex_b; ex_c] = depth [ex_a; ex_b; ex_c; ex_a; ex_b; ex_c; ex_b; ex_c] /\
  fill 3 [ex_a; ex_b; ex_c; ex_a; ex_b; ex_c] = [ex_a; ex_b; ex_c; ex_a; ex_b; ex_c; ex_b; ex_c] /\
  (exists h1 t1 h2 t2, NewTree ex_calc ex_sha 7 [] [ex_a; ex_b; ex_c; ex_a; ex_b; ex_c] = Some (h1, Ok t1) /\
    NewTree ex_calc ex_sha 9 [] [ex_a; ex_b; ex_c; ex_a; ex_b; ex_c; ex_b; ex_c] = Some (h2, Ok t2) /\ t_mroot t1 = t_mroot t2) /\
  depth [ex_a; ex_b] < depth [ex_a; ex_b; ex_c] /\
  (exists h1 t1 h2 t2, NewTree ex_calc ex_sha 3 [] [ex_sha (ex_a ++ ex_b); ex_sha (ex_c ++ ex_c)] = Some (h1, Ok t1) /\
    NewTree ex_calc ex_sha 4 [] [ex_a; ex_b; ex_c] = Some (h2, Ok t2) /\ t_mroot t1 = t_mroot t2).
Proof.
  split; [reflexivity|]. split; [reflexivity|]. split; [do 4 eexists; repeat apply conj; (vm_compute; reflexivity)|].
  split; [vm_compute; auto|do 4 eexists; repeat apply conj; (vm_compute; reflexivity)].
Qed.
