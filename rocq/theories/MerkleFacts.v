(** Proofs about MerkleModel.v *)
From Coq Require Import String ZArith List Arith Lia Bool.
From Verif Require Import GoModel GoFacts MerkleModel SpecMerkle.
Import ListNotations.

Lemma pair_ind {A} (Q : list A -> Prop) :
  Q [] -> (forall a, Q [a]) -> (forall a b l, Q l -> Q (a :: b :: l)) -> forall l, Q l.
Proof.
  intros H0 H1 H2 l.
  enough (Q l /\ forall a, Q (a :: l)) by tauto.
  induction l as [|x l [IH1 IH2]]; split; auto.
Qed.

(** ** Specification facts *)
Section SpecFacts.
Context (H : bytes -> bytes).
Notation pair_up := (pair_up H).
Notation merkle_root := (merkle_root H).

Lemma pair_up_length hs : 2 * length (pair_up hs) = length hs + (length hs mod 2).
Proof.
  induction hs as [| |a b l IH] using pair_ind; [reflexivity|reflexivity|].
  cbn [SpecMerkle.pair_up length]. replace (S (S (length l))) with (length l + 1 * 2) by lia.
  rewrite Nat.mod_add by lia. lia.
Qed.
Lemma pair_up_lt hs : 2 < length hs -> length (pair_up hs) < length hs /\ 2 <= length (pair_up hs).
Proof.
  intros Hl. pose proof (pair_up_length hs) as E.
  pose proof (Nat.mod_upper_bound (length hs) 2). lia.
Qed.
Lemma pair_up_single hs r : pair_up hs = [r] -> length hs = 1 \/ length hs = 2.
Proof.
  intros E. pose proof (pair_up_length hs) as L. rewrite E in L. cbn [length] in L.
  destruct hs as [|a [|b [|c l]]]; cbn [length] in *; try lia; auto.
Qed.

Lemma merkle_root_det hs r r' : merkle_root hs r -> merkle_root hs r' -> r = r'.
Proof.
  intros A. revert r'. induction A as [hs r E|hs r L A IH]; intros r' B.
  - destruct B as [hs r' E'|hs r' L' B]; [congruence|].
    apply pair_up_single in E. lia.
  - destruct B as [hs r' E'|hs r' L' B]; [apply pair_up_single in E'; lia|]. auto.
Qed.

Lemma merkle_root_ex hs : hs <> [] -> exists r, merkle_root hs r.
Proof.
  remember (length hs) as n eqn:En. revert hs En.
  induction n as [n IH] using lt_wf_ind. intros hs En Hne.
  destruct (le_lt_dec (length hs) 2) as [C|C].
  - destruct hs as [|a [|b [|c l]]]; cbn [length] in C; try lia; [congruence| |].
    + eexists. apply mr_done. reflexivity.
    + eexists. apply mr_done. reflexivity.
  - destruct (pair_up_lt hs C) as [L1 L2].
    destruct (IH (length (pair_up hs)) ltac:(lia) (pair_up hs) eq_refl) as [r Hr].
    + intros E. rewrite E in L2. cbn in L2. lia.
    + exists r. apply mr_step; assumption.
Qed.

(** a level determines the same root as the level above it *)
Lemma merkle_root_up hs r : 2 < length hs -> (merkle_root hs r <-> merkle_root (pair_up hs) r).
Proof.
  intros L. split; intros A.
  - destruct A as [hs r E|hs r L' A]; [apply pair_up_single in E; lia|exact A].
  - apply mr_step; assumption.
Qed.

Lemma pair_up_odd_dup hs x : length hs mod 2 = 0 -> pair_up (hs ++ [x]) = pair_up (hs ++ [x; x]).
Proof.
  induction hs as [|a|a b l IH] using pair_ind; intros E.
  - reflexivity.
  - discriminate E.
  - cbn [app SpecMerkle.pair_up]. f_equal. apply IH.
    cbn [length] in E. replace (S (S (length l))) with (length l + 1 * 2) in E by lia.
    rewrite Nat.mod_add in E by lia. exact E.
Qed.

Lemma merkle_root_odd_dup hs x r :
  length hs mod 2 = 0 -> (merkle_root (hs ++ [x]) r <-> merkle_root (hs ++ [x; x]) r).
Proof.
  intros E. pose proof (pair_up_odd_dup hs x E) as EP.
  destruct hs as [|a [|b l]]; [|discriminate E|].
  - cbn [app]. split; intros A; inversion A as [? ? E'|? ? L A']; subst; try (cbn [length] in L; lia);
      apply mr_done; exact E'.
  - rewrite (merkle_root_up (_ ++ [x])) by (rewrite app_length; cbn [length]; lia).
    rewrite (merkle_root_up (_ ++ [x; x])) by (rewrite app_length; cbn [length]; lia).
    rewrite EP. reflexivity.
Qed.

(** ** Binding *)
Definition all32 (hs : list bytes) : Prop := Forall (fun x => length x = 32) hs.

Lemma pair_up_all32 hs : (forall x, length (H x) = 32) -> all32 (pair_up hs).
Proof.
  intros HH. unfold all32. induction hs as [|a|a b l IH] using pair_ind; cbn [SpecMerkle.pair_up]; auto.
Qed.

Lemma app_eq_len {A} (a b c d : list A) : length a = length c -> a ++ b = c ++ d -> a = c /\ b = d.
Proof.
  revert c. induction a as [|x a IH]; intros [|y c] L E; cbn in *; try discriminate; auto.
  injection E as -> E. injection L as L. destruct (IH c L E) as [-> ->]. auto.
Qed.

Lemma level_inputs_map hs : map H (level_inputs hs) = pair_up hs.
Proof. induction hs as [|a|a b l IH] using pair_ind; cbn; congruence. Qed.

Lemma level_inputs_length hs : length (level_inputs hs) = length (pair_up hs).
Proof. rewrite <- level_inputs_map, map_length. reflexivity. Qed.

Lemma level_inputs_inj a b : all32 a -> all32 b -> length a = length b ->
  level_inputs a = level_inputs b -> a = b.
Proof.
  unfold all32. revert b. induction a as [|x|x y l IH] using pair_ind; intros b Ha Hb L E.
  - destruct b; [reflexivity|discriminate].
  - destruct b as [|u [|v b]]; try discriminate. cbn in E. injection E as E.
    inversion Ha; inversion Hb; subst. apply app_eq_len in E; [|congruence]. destruct E; congruence.
  - destruct b as [|u [|v b]]; try discriminate. cbn [level_inputs] in E. injection E as E1 E2.
    inversion Ha as [|? ? A1 A2]; inversion A2 as [|? ? A3 A4]; subst.
    inversion Hb as [|? ? B1 B2]; inversion B2 as [|? ? B3 B4]; subst.
    apply app_eq_len in E1; [|congruence]. destruct E1 as [-> ->].
    cbn in L. rewrite (IH b); auto; lia.
Qed.

Lemma differ_collision (xs ys : list bytes) :
  length xs = length ys -> map H xs = map H ys -> xs <> ys ->
  exists p, In p (combine xs ys) /\ is_collision H p = true.
Proof.
  revert ys. induction xs as [|x xs IH]; intros [|y ys] L E D; cbn in *; try discriminate; [congruence|].
  injection E as E1 E2. injection L as L.
  destruct (bytes_eq_dec x y) as [->|Hne].
  - destruct (IH ys L E2) as [p [Hp Hc]]; [congruence|]. exists p. auto.
  - exists (x, y). split; [auto|]. unfold is_collision. cbn [fst snd].
    destruct (bytes_eqb_spec x y); [contradiction|]. rewrite E1, bytes_eqb_refl. reflexivity.
Qed.

Lemma combine_app {A B} (a c : list A) (b d : list B) : length a = length b ->
  combine (a ++ c) (b ++ d) = combine a b ++ combine c d.
Proof.
  revert b. induction a as [|x a IH]; intros [|y b] L; cbn in *; try discriminate; [reflexivity|].
  f_equal. apply IH. congruence.
Qed.

Lemma binding_in fuel : forall a b r,
  (forall x, length (H x) = 32) -> all32 a -> all32 b -> length a = length b -> a <> b ->
  length a <= fuel -> merkle_root a r -> merkle_root b r ->
  exists p, In p (combine (all_inputs H fuel a) (all_inputs H fuel b)) /\ is_collision H p = true.
Proof.
  induction fuel as [|fuel IH]; intros a b r HH Ha Hb L D Hf A B.
  - destruct a; [|cbn in Hf; lia]. destruct b; [congruence|discriminate].
  - cbn [all_inputs].
    assert (LL : length (level_inputs a) = length (level_inputs b)).
    { rewrite !level_inputs_length. pose proof (pair_up_length a); pose proof (pair_up_length b).
      rewrite L in *. lia. }
    rewrite combine_app by assumption.
    destruct (list_eq_dec bytes_eq_dec (pair_up a) (pair_up b)) as [E|E].
    + destruct (differ_collision (level_inputs a) (level_inputs b)) as [p [Hp Hc]].
      * assumption.
      * rewrite !level_inputs_map. exact E.
      * intros C. apply D. apply level_inputs_inj; assumption.
      * exists p. split; [apply in_or_app; left|]; assumption.
    + destruct (le_lt_dec (length a) 2) as [C|C].
      * exfalso. apply E.
        destruct A as [a r EA|a r LA A]; [|lia]. destruct B as [b r EB|b r LB B]; [|lia]. congruence.
      * destruct (pair_up_lt a C) as [L1 _].
        destruct (IH (pair_up a) (pair_up b) r) as [p [Hp Hc]]; try assumption.
        -- apply pair_up_all32; assumption.
        -- apply pair_up_all32; assumption.
        -- rewrite <- !level_inputs_length. exact LL.
        -- lia.
        -- apply (proj1 (merkle_root_up _ _ C)). assumption.
        -- apply (proj1 (merkle_root_up b r ltac:(lia))). assumption.
        -- exists p. split; [apply in_or_app; right|]; assumption.
Qed.

Lemma find_collision_sound a b x y : find_collision H a b = Some (x, y) -> x <> y /\ H x = H y.
Proof.
  unfold find_collision. intros E. apply find_some in E. destruct E as [_ E].
  unfold is_collision in E. cbn [fst snd] in E. apply andb_prop in E. destruct E as [E1 E2].
  destruct (bytes_eqb_spec x y); [discriminate|]. destruct (bytes_eqb_spec (H x) (H y)); [|discriminate].
  auto.
Qed.

Lemma root_binding a b r :
  (forall x, length (H x) = 32) -> all32 a -> all32 b -> length a = length b ->
  merkle_root a r -> merkle_root b r ->
  a = b \/ exists x y, find_collision H a b = Some (x, y) /\ x <> y /\ H x = H y.
Proof.
  intros HH Ha Hb L A B. destruct (list_eq_dec bytes_eq_dec a b) as [E|D]; [left; exact E|right].
  destruct (binding_in (length a) a b r HH Ha Hb L D (le_n _) A B) as [p [Hp Hc]].
  unfold find_collision. rewrite <- L.
  destruct (find (is_collision H) (combine (all_inputs H (length a) a) (all_inputs H (length a) b)))
    as [[x y]|] eqn:E.
  - exists x, y. split; [reflexivity|]. apply (find_collision_sound a b).
    unfold find_collision. rewrite <- L. exact E.
  - exfalso. pose proof (find_none _ _ E p Hp). congruence.
Qed.
End SpecFacts.

(** ** Heap facts *)
Section MerkleFacts.
Context {P : Type} (calc : P -> res bytes) (sha3 : bytes -> bytes).
Notation heap := (heap P).
Notation node := (node P).
Notation create_level := (@create_level P sha3).
Notation createIntermediate := (@createIntermediate P sha3).
Notation VerifyNode := (@VerifyNode P calc sha3).

Definition strip (n : node) : node :=
  mkNode None (n_left n) (n_right n) (n_hash n) (n_data n) (n_isleaf n) (n_isdup n).
Definition hash_at (h : heap) (i : nat) : bytes :=
  match nth_error h i with Some n => n_hash n | None => [] end.

Lemma strip_with_parent n p : strip (with_parent n p) = strip n.
Proof. reflexivity. Qed.
Lemma strip_upd (h : heap) i n p : nth_error h i = Some n ->
  map strip (upd h i (with_parent n p)) = map strip h.
Proof.
  revert i. induction h as [|x h IH]; intros [|i] E; cbn in *; try discriminate.
  - injection E as ->. reflexivity.
  - rewrite IH by assumption. reflexivity.
Qed.
Lemma strip_length (h h' : heap) s : map strip h' = map strip h ++ s -> length h' = length h + length s.
Proof. intros E. apply (f_equal (@length _)) in E. rewrite app_length, !map_length in E. exact E. Qed.
Lemma strip_hash_at (h h' : heap) s i : map strip h' = map strip h ++ s -> i < length h ->
  hash_at h' i = hash_at h i.
Proof.
  intros E L. unfold hash_at.
  assert (X : nth_error (map strip h') i = nth_error (map strip h) i).
  { rewrite E. apply nth_error_app1. rewrite map_length. exact L. }
  rewrite !nth_error_map in X.
  destruct (nth_error h' i) as [n'|], (nth_error h i) as [n|]; cbn in X; try discriminate; [|reflexivity].
  injection X as X. congruence.
Qed.

Lemma set_parent_ok (h : heap) i p : i < length h ->
  exists h', set_parent h i p = Ok h' /\ map strip h' = map strip h /\ length h' = length h /\
    (forall j, par h' j = if Nat.eqb j i then Some p else par h j).
Proof.
  intros L. unfold set_parent, idx.
  destruct (nth_error h i) as [n|] eqn:E; [|apply nth_error_None in E; lia].
  cbn [bind]. eexists. split; [reflexivity|].
  split; [apply strip_upd; exact E|]. split; [apply upd_length|].
  intros j. unfold par. destruct (Nat.eqb_spec j i) as [->|D].
  - rewrite upd_same by lia. reflexivity.
  - rewrite upd_other by congruence. reflexivity.
Qed.

(** the nodes created by one level *)
Definition new_node (hs : nat -> bytes) (l r : nat) : node :=
  mkNode None (Some l) (Some r) (sha3 (hs l ++ hs r)) None false false.
Fixpoint level_nodes (hs : nat -> bytes) (nl : list nat) : list node :=
  match nl with
  | [] => []
  | [a] => [new_node hs a a]
  | a :: b :: rest => new_node hs a b :: level_nodes hs rest
  end.

Lemma level_nodes_hash hs nl : map (@n_hash P) (level_nodes hs nl) = pair_up sha3 (map hs nl).
Proof. induction nl as [|a|a b l IH] using pair_ind; cbn; congruence. Qed.
Lemma level_nodes_ext hs hs' nl : (forall i, In i nl -> hs i = hs' i) ->
  level_nodes hs nl = level_nodes hs' nl.
Proof.
  induction nl as [|a|a b l IH] using pair_ind; intros E.
  - reflexivity.
  - cbn. unfold new_node. rewrite E by (left; reflexivity). reflexivity.
  - cbn [level_nodes]. unfold new_node. rewrite !E by (cbn; auto). rewrite IH; [reflexivity|].
    intros i Hi. apply E. cbn. auto.
Qed.

Lemma step_ok (h : heap) lft rgt : lft < length h -> rgt < length h ->
  exists h3, 
   (let! l := idx h lft in
    let! r := idx h rgt in
    let payloadHash := n_hash l ++ n_hash r in
    let (h1, nd) := alloc h (mkNode None (Some lft) (Some rgt) (sha3 payloadHash) None false false) in
    let! h2 := set_parent h1 lft nd in
    let! h3 := set_parent h2 rgt nd in Ok (h3, nd)) = Ok (h3, length h) /\
   map strip h3 = map strip h ++ [new_node (hash_at h) lft rgt] /\
   length h3 = S (length h) /\
   (forall j, par h3 j = if Nat.eqb j rgt then Some (length h) else
                         if Nat.eqb j lft then Some (length h) else par h j).
Proof.
  intros Ll Lr. unfold idx at 1 2.
  destruct (nth_error h lft) as [l|] eqn:El; [|apply nth_error_None in El; lia].
  destruct (nth_error h rgt) as [r|] eqn:Er; [|apply nth_error_None in Er; lia].
  cbn [bind]. cbv zeta. cbn [alloc].
  set (nn := mkNode None (Some lft) (Some rgt) (sha3 (n_hash l ++ n_hash r)) None false false).
  destruct (set_parent_ok (h ++ [nn]) lft (length h)) as [h2 [E2 [S2 [L2 P2]]]];
    [rewrite app_length; lia|].
  unfold alloc. rewrite E2. cbn [bind].
  destruct (set_parent_ok h2 rgt (length h)) as [h3 [E3 [S3 [L3 P3]]]];
    [rewrite L2, app_length; lia|].
  rewrite E3. cbn [bind]. exists h3. split; [reflexivity|].
  split; [|split].
  - rewrite S3, S2, map_app. f_equal. cbn. unfold strip, new_node, nn, hash_at. cbn.
    rewrite El, Er. reflexivity.
  - rewrite L3, L2, app_length. cbn. lia.
  - intros j. rewrite P3, P2. unfold par.
    destruct (Nat.eqb j rgt); [reflexivity|]. destruct (Nat.eqb j lft); [reflexivity|].
    destruct (lt_dec j (length h)) as [C|C].
    + rewrite nth_error_app1 by assumption. reflexivity.
    + rewrite nth_error_app2 by lia.
      replace (nth_error h j) with (@None node) by (symmetry; apply nth_error_None; lia).
      destruct (j - length h) as [|[|k]]; reflexivity.
Qed.

Lemma create_level_unfold two h lft rest nodes :
  create_level two h (lft :: rest) nodes =
  match (let! l := idx h lft in
    let! r := idx h (match rest with [] => lft | r :: _ => r end) in
    let payloadHash := n_hash l ++ n_hash r in
    let (h1, nd) := alloc h (mkNode None (Some lft) (Some (match rest with [] => lft | r :: _ => r end)) (sha3 payloadHash) None false false) in
    let! h2 := set_parent h1 lft nd in
    let! h3 := set_parent h2 (match rest with [] => lft | r :: _ => r end) nd in Ok (h3, nd)) with
  | Ok (h3, nd) =>
    if two then Ok (h3, inl nd) else
    match rest with
    | [] => Ok (h3, inr (nodes ++ [nd]))
    | _ :: rest' => create_level two h3 rest' (nodes ++ [nd])
    end
  | Err e => Err e
  | Panic => Panic
  end.
Proof.
  cbn [MerkleModel.create_level].
  destruct (idx h lft) as [l|e|]; cbn [bind]; try reflexivity.
  destruct (idx h (match rest with [] => lft | r :: _ => r end)) as [r|e|]; cbn [bind]; try reflexivity.
  cbv zeta. unfold alloc.
  destruct (set_parent _ lft _) as [h2|e|]; cbn [bind]; try reflexivity.
  destruct (set_parent h2 _ _) as [h3|e|]; cbn [bind]; reflexivity.
Qed.

Lemma create_level_spec (nl : list nat) : forall h nodes,
  (forall i, In i nl -> i < length h) -> NoDup nl ->
  exists h', create_level false h nl nodes =
      Ok (h', inr (nodes ++ seq (length h) (length (level_nodes (hash_at h) nl)))) /\
    map strip h' = map strip h ++ level_nodes (hash_at h) nl /\
    (forall k i, nth_error nl k = Some i -> par h' i = Some (length h + k / 2)) /\
    (forall i, ~ In i nl -> par h' i = par h i).
Proof.
  induction nl as [|a|a b l IH] using pair_ind; intros h nodes HB HN.
  - exists h. cbn. rewrite !app_nil_r. repeat split; auto. intros [|k] i E; discriminate.
  - destruct (step_ok h a a) as [h3 [E [S3 [L3 P3]]]]; try (apply HB; left; reflexivity).
    rewrite create_level_unfold, E. exists h3. cbn [level_nodes length seq].
    split; [reflexivity|]. split; [exact S3|]. split.
    + intros [|[|k]] i Ei; cbn in Ei; try discriminate. injection Ei as <-.
      rewrite P3, Nat.eqb_refl. cbn. f_equal. lia.
    + intros i Hi. rewrite P3. destruct (Nat.eqb_spec i a); [subst; cbn in Hi; tauto|reflexivity].
  - destruct (step_ok h a b) as [h3 [E [S3 [L3 P3]]]]; try (apply HB; cbn; auto).
    rewrite create_level_unfold, E.
    inversion HN as [|? ? Ha HN2]; subst. inversion HN2 as [|? ? Hb HN3]; subst.
    destruct (IH h3 (nodes ++ [length h])) as [h' [E' [S' [PA PB]]]].
    + intros i Hi. rewrite L3. specialize (HB i). cbn in HB. lia || (specialize (HB (or_intror (or_intror Hi))); lia).
    + assumption.
    + assert (EX : level_nodes (hash_at h3) l = level_nodes (hash_at h) l).
      { apply level_nodes_ext. intros i Hi. apply (strip_hash_at h h3 [new_node (hash_at h) a b]).
        - exact S3.
        - apply HB. cbn. auto. }
      exists h'. cbn [level_nodes length seq]. split; [|split; [|split]].
      * rewrite E', L3, EX. rewrite <- app_assoc. reflexivity.
      * rewrite S', S3, <- app_assoc, EX. reflexivity.
      * intros [|[|k]] i Ei; cbn in Ei.
        -- injection Ei as <-. rewrite PB by (cbn in Ha; tauto). rewrite P3, Nat.eqb_refl.
           cbn. destruct (Nat.eqb a b); f_equal; lia.
        -- injection Ei as <-. rewrite PB by assumption. rewrite P3, Nat.eqb_refl.
           cbn. f_equal; lia.
        -- rewrite (PA k i Ei), L3. f_equal.
           replace (S (S k)) with (k + 1 * 2) by lia. rewrite Nat.div_add by lia. lia.
      * intros i Hi. cbn in Hi. rewrite PB by tauto. rewrite P3.
        destruct (Nat.eqb_spec i b); [subst; tauto|]. destruct (Nat.eqb_spec i a); [subst; tauto|reflexivity].
Qed.

Lemma create_level_two h a b :
  create_level true h [a; b] [] =
  match create_level false h [a; b] [] with
  | Ok (h', inr [n]) => Ok (h', inl n)
  | Ok _ => Panic
  | Err e => Err e
  | Panic => Panic
  end.
Proof.
  rewrite !create_level_unfold.
  destruct (let! l := idx h a in _) as [[h3 nd]|e|]; reflexivity.
Qed.

(** local well-formedness: every node allocated from [s0] on stores the hash of its
    data or children *)
Context (s0 : nat).
Definition node_wf (h : heap) (i : nat) (n : node) : Prop :=
  (n_isleaf n = true /\ exists p, n_data n = Some p /\ calc p = Ok (n_hash n)) \/
  (n_isleaf n = false /\ exists l r, n_left n = Some l /\ n_right n = Some r /\ s0 <= l < i /\ s0 <= r < i /\
     n_hash n = sha3 (hash_at h l ++ hash_at h r)).
Definition wf (h : heap) : Prop := forall i n, s0 <= i -> nth_error h i = Some n -> node_wf h i n.

Lemma nth_error_strip (h : heap) i n : nth_error h i = Some n -> nth_error (map strip h) i = Some (strip n).
Proof. intros E. rewrite nth_error_map, E. reflexivity. Qed.

(** a heap extended by leaves or by nodes over existing nodes is well-formed *)
Definition leaf_wf (n : node) : Prop :=
  n_isleaf n = true /\ exists p, n_data n = Some p /\ calc p = Ok (n_hash n).
Definition inner_wf (h : heap) (n : node) : Prop :=
  n_isleaf n = false /\ exists l r, n_left n = Some l /\ n_right n = Some r /\
       s0 <= l < length h /\ s0 <= r < length h /\ n_hash n = sha3 (hash_at h l ++ hash_at h r).
Lemma wf_ext (h h' : heap) s : wf h -> map strip h' = map strip h ++ s ->
  (forall n, In n s -> leaf_wf n \/ inner_wf h n) -> wf h'.
Proof.
  intros W E HS i n Hi0 Hn. apply nth_error_strip in Hn. rewrite E in Hn.
  destruct (lt_dec i (length h)) as [C|C].
  - rewrite nth_error_app1 in Hn by (rewrite map_length; assumption).
    rewrite nth_error_map in Hn. destruct (nth_error h i) as [m|] eqn:Em; [|discriminate].
    cbn in Hn. injection Hn as Hn1 Hn2 Hn3 Hn4 Hn5 Hn6.
    destruct (W i m Hi0 Em) as [[W1 [p [W2 W3]]]|[W1 [l [r [W2 [W3 [W4 [W5 W6]]]]]]]].
    + left. split; [congruence|]. exists p. split; congruence.
    + right. split; [congruence|]. exists l, r. split; [congruence|]. split; [congruence|]. split; [lia|]. split; [lia|].
      rewrite !(strip_hash_at h h' s) by (assumption || lia). congruence.
  - rewrite nth_error_app2 in Hn by (rewrite map_length; lia).
    apply nth_error_In in Hn.
    destruct (HS _ Hn) as [[A1 [p [A2 A3]]]|[A1 [l [r [A2 [A3 [A4 [A5 A6]]]]]]]]; cbn in *.
    + left. split; [assumption|]. exists p. auto.
    + right. split; [assumption|]. exists l, r. split; [assumption|]. split; [assumption|]. split; [lia|]. split; [lia|].
      rewrite !(strip_hash_at h h' s) by (assumption || lia). assumption.
Qed.

Lemma level_nodes_inner h nl : (forall i, In i nl -> s0 <= i < length h) ->
  forall n, In n (level_nodes (hash_at h) nl) -> inner_wf h n.
Proof.
  induction nl as [|a|a b l IH] using pair_ind; intros HB n Hn.
  - destruct Hn.
  - destruct Hn as [<-|[]]. split; [reflexivity|]. exists a, a.
    repeat split; apply (HB a (or_introl eq_refl)).
  - destruct Hn as [<-|Hn].
    + split; [reflexivity|]. exists a, b. repeat split; apply HB; cbn; auto.
    + apply IH; [|exact Hn]. intros i Hi. apply HB. cbn. auto.
Qed.

(** ** Evaluation over any heap with the same skeleton *)
(** [h2] has all nodes of [h], with the same skeleton *)
Definition sk (n : node) : bool * option nat * option nat := (n_isleaf n, n_left n, n_right n).

Definition skext (h h2 : heap) : Prop := forall i n, nth_error h i = Some n ->
  exists m, nth_error h2 i = Some m /\ sk m = sk n.

Lemma sk_strip n : sk (strip n) = sk n.
Proof. reflexivity. Qed.

Lemma VerifyNode_mono f : forall h p v, VerifyNode f h p = Ok v -> forall f', f <= f' -> VerifyNode f' h p = Ok v.
Proof.
  induction f as [|f IH]; intros h p v E f' L; [discriminate|].
  destruct f' as [|f']; [lia|]. cbn [MerkleModel.VerifyNode] in *.
  destruct (deref h p) as [n| |]; cbn [bind] in *; try discriminate.
  destruct (n_isleaf n); [exact E|].
  destruct (VerifyNode f h (n_right n)) as [rb| |] eqn:Er; cbn [bind] in *; try discriminate.
  destruct (VerifyNode f h (n_left n)) as [lb| |] eqn:El; cbn [bind] in *; try discriminate.
  rewrite (IH _ _ _ Er f') by lia. cbn [bind]. rewrite (IH _ _ _ El f') by lia. exact E.
Qed.

Definition evals (h : heap) (i : nat) (v : bytes) : Prop := exists f, VerifyNode f h (Some i) = Ok v.

Lemma evals_node (h : heap) j n l r vl vr :
  nth_error h j = Some n -> n_isleaf n = false -> n_left n = Some l -> n_right n = Some r ->
  evals h l vl -> evals h r vr -> evals h j (sha3 (vl ++ vr)).
Proof.
  intros E L1 L2 L3 [f1 E1] [f2 E2]. exists (S (f1 + f2)). cbn [MerkleModel.VerifyNode deref].
  unfold idx. rewrite E. cbn [bind]. rewrite L1, L2, L3.
  rewrite (VerifyNode_mono _ _ _ _ E2) by lia. cbn [bind].
  rewrite (VerifyNode_mono _ _ _ _ E1) by lia. reflexivity.
Qed.

(** the new nodes of a level evaluate to the pairs *)
Lemma level_evals (h2 : heap) hs nl : forall base vs,
  (forall k n, nth_error (level_nodes hs nl) k = Some n ->
     exists m, nth_error h2 (base + k) = Some m /\ sk m = sk n) ->
  Forall2 (evals h2) nl vs ->
  Forall2 (evals h2) (seq base (length (level_nodes hs nl))) (pair_up sha3 vs).
Proof.
  induction nl as [|a|a b l IH] using pair_ind; intros base vs HK HV.
  - inversion HV; subst. constructor.
  - inversion HV as [|? v ? ? Hv HV']; subst. inversion HV'; subst. cbn.
    constructor; [|constructor].
    destruct (HK 0 _ eq_refl) as [m [Em Sm]]. rewrite Nat.add_0_r in Em.
    injection Sm as S1 S2 S3. eapply evals_node; eauto.
  - inversion HV as [|? v ? ? Hv HV']; subst. inversion HV' as [|? w ? vs' Hw HV2]; subst.
    cbn [level_nodes length seq SpecMerkle.pair_up]. constructor.
    + destruct (HK 0 _ eq_refl) as [m [Em Sm]]. rewrite Nat.add_0_r in Em.
      injection Sm as S1 S2 S3. eapply evals_node; eauto.
    + apply IH; [|exact HV2]. intros k n Hn.
      destruct (HK (S k) n Hn) as [m [Em Sm]]. exists m. split; [|exact Sm].
      rewrite <- Em. f_equal. lia.
Qed.

(** ** Parent chains *)
Lemma level_nodes_child hs nl : forall k i, nth_error nl k = Some i ->
  exists n, nth_error (level_nodes hs nl) (k / 2) = Some n /\ n_isleaf n = false /\
    (n_left n = Some i \/ n_right n = Some i).
Proof.
  induction nl as [|a|a b l IH] using pair_ind; intros k i E.
  - destruct k; discriminate.
  - destruct k as [|[|k]]; try discriminate. injection E as <-. eexists. cbn. eauto.
  - destruct k as [|[|k]]; cbn in E.
    + injection E as <-. eexists. cbn. eauto.
    + injection E as <-. eexists. cbn. eauto.
    + replace (S (S k)) with (k + 1 * 2) by lia. rewrite Nat.div_add by lia.
      rewrite Nat.add_1_r. cbn [level_nodes nth_error]. apply IH. exact E.
Qed.

(** ** createIntermediate *)
Record built (h : heap) (nl : list nat) (h' : heap) (root : nat) : Prop := mkBuilt {
  b_strip : exists s, map strip h' = map strip h ++ s;
  b_root_lt : root < length h';
  b_frame : forall i, ~ In i nl -> i < length h -> par h' i = par h i;
  b_chain : exists d, 1 <= d /\ forall i, In i nl -> chain h' i d root;
  b_wf : (forall i, In i nl -> s0 <= i) -> wf h -> wf h';
  b_hash : merkle_root sha3 (map (hash_at h) nl) (hash_at h' root);
  b_eval : forall h2 vs x, skext h' h2 -> Forall2 (evals h2) nl vs ->
             merkle_root sha3 vs x -> evals h2 root x
}.

Lemma strip_nth_new (h h' : heap) s k n : map strip h' = map strip h ++ s -> nth_error s k = Some n ->
  exists m, nth_error h' (length h + k) = Some m /\ strip m = n.
Proof.
  intros E Hn. assert (X : nth_error (map strip h') (length h + k) = Some n).
  { rewrite E, nth_error_app2; rewrite map_length; [|lia].
    replace (length h + k - length h) with k by lia. exact Hn. }
  rewrite nth_error_map in X. destruct (nth_error h' (length h + k)) as [m|]; [|discriminate].
  injection X as X. exists m. auto.
Qed.

Lemma strip_nth_old (h h' : heap) s i n : map strip h' = map strip h ++ s -> nth_error h i = Some n ->
  exists m, nth_error h' i = Some m /\ strip m = strip n.
Proof.
  intros E Hn. assert (X : nth_error (map strip h') i = Some (strip n)).
  { rewrite E, nth_error_app1.
    - rewrite nth_error_map, Hn. reflexivity.
    - rewrite map_length. apply nth_error_Some. congruence. }
  rewrite nth_error_map in X. destruct (nth_error h' i) as [m|]; [|discriminate].
  injection X as X. exists m. split; [reflexivity|]. unfold strip. congruence.
Qed.

Lemma par_out (h : heap) i : length h <= i -> par h i = None.
Proof. intros L. unfold par. rewrite (proj2 (nth_error_None h i)) by assumption. reflexivity. Qed.

Lemma level_nodes_length hs nl : length (level_nodes hs nl) = length (pair_up sha3 (map hs nl)).
Proof. rewrite <- (level_nodes_hash hs nl), map_length. reflexivity. Qed.

Lemma new_hashes (h h' : heap) s : map strip h' = map strip h ++ s ->
  map (hash_at h') (seq (length h) (length s)) = map (@n_hash P) s.
Proof.
  intros E. apply nth_error_ext. intros k. rewrite !nth_error_map.
  destruct (nth_error s k) as [n|] eqn:En.
  - rewrite (nth_error_nth' _ 0) by (rewrite seq_length; apply nth_error_Some; congruence).
    rewrite seq_nth by (apply nth_error_Some; congruence). cbn.
    destruct (strip_nth_new _ _ _ _ _ E En) as [m [Hm <-]]. unfold hash_at. rewrite Hm. reflexivity.
  - apply nth_error_None in En. rewrite (proj2 (nth_error_None _ _)) by (rewrite seq_length; exact En).
    reflexivity.
Qed.

Lemma level_built_step (h h1 : heap) nl root h' :
  (forall i, In i nl -> i < length h) ->
  map strip h1 = map strip h ++ level_nodes (hash_at h) nl ->
  (forall k i, nth_error nl k = Some i -> par h1 i = Some (length h + k / 2)) ->
  (forall i, ~ In i nl -> par h1 i = par h i) ->
  2 < length nl ->
  built h1 (seq (length h) (length (level_nodes (hash_at h) nl))) h' root ->
  built h nl h' root.
Proof.
  intros HB S1 PA PB LN [[s Hs] Rlt Fr [d [Hd Ch]] Wf Hh Ev].
  pose proof (strip_length _ _ _ S1) as L1.
  assert (NotNew : forall i, i < length h -> ~ In i (seq (length h) (length (level_nodes (hash_at h) nl)))).
  { intros i Hi Hin. apply in_seq in Hin. lia. }
  constructor.
  - exists (level_nodes (hash_at h) nl ++ s). rewrite Hs, S1, app_assoc. reflexivity.
  - exact Rlt.
  - intros i Hi Li. rewrite Fr by (auto; lia). apply PB. exact Hi.
  - exists (S d). split; [lia|]. intros i Hi.
    destruct (In_nth_error _ _ Hi) as [k Hk].
    destruct (level_nodes_child (hash_at h) nl k i Hk) as [n [En [Ln Cn]]].
    destruct (strip_nth_new _ _ _ _ _ S1 En) as [m [Hm Sm]].
    destruct (strip_nth_old _ _ _ _ _ Hs Hm) as [m' [Hm' Sm']].
    assert (Q : n_isleaf m' = n_isleaf n /\ n_left m' = n_left n /\ n_right m' = n_right n).
    { rewrite <- Sm. injection Sm' as -> -> _ _ -> _. auto. }
    destruct Q as [Q1 [Q2 Q3]].
    exists (length h + k / 2), m'. repeat split.
    + rewrite Fr; [apply PA; exact Hk| |].
      * apply NotNew. auto.
      * specialize (HB i Hi). lia.
    + specialize (HB i Hi). lia.
    + exact Hm'.
    + congruence.
    + rewrite Q2, Q3. exact Cn.
    + apply Ch. apply in_seq. split; [lia|].
      assert (k / 2 < length (level_nodes (hash_at h) nl)) by (apply nth_error_Some; congruence). lia.
  - intros HS W. assert (HB' : forall i, In i nl -> s0 <= i < length h) by (intros; split; auto).
    apply Wf.
    + intros i Hi. apply in_seq in Hi. destruct nl as [|i0 nl]; [cbn in LN; lia|].
      specialize (HB' i0 (or_introl eq_refl)). lia.
    + eapply wf_ext; [exact W|exact S1|].
      intros n Hn. right. eapply level_nodes_inner; [|exact Hn]. exact HB'.
  - apply mr_step; [rewrite map_length; exact LN|].
    rewrite (new_hashes _ _ _ S1), level_nodes_hash in Hh. exact Hh.
  - intros h2 vs x Hsk HV HM.
    assert (LV : length vs = length nl) by (symmetry; eapply Forall2_length; exact HV).
    apply (Ev h2 (pair_up sha3 vs) x Hsk).
    + apply level_evals; [|exact HV].
      intros k n Hn. destruct (strip_nth_new _ _ _ _ _ S1 Hn) as [m [Hm Sm]].
      destruct (strip_nth_old _ _ _ _ _ Hs Hm) as [m' [Hm' Sm']].
      destruct (Hsk _ _ Hm') as [m2 [Hm2 Sm2]]. exists m2. split; [exact Hm2|].
      rewrite Sm2, <- (sk_strip m'), Sm', Sm. reflexivity.
    + apply (proj1 (merkle_root_up sha3 vs x ltac:(lia))). exact HM.
Qed.

Lemma createIntermediate_built (fuel : nat) : forall h nl,
  (forall i, In i nl -> i < length h) -> NoDup nl -> 2 <= length nl -> length nl <= fuel ->
  exists h' root, createIntermediate fuel h nl = Some (Ok (h', root)) /\ built h nl h' root.
Proof.
  induction fuel as [|fuel IH]; intros h nl HB HN L2 LF; [lia|].
  cbn [MerkleModel.createIntermediate].
  destruct (create_level_spec nl h [] HB HN) as [h1 [E1 [S1 [PA PB]]]].
  destruct (Nat.eqb_spec (length nl) 2) as [C|C].
  - destruct nl as [|a [|b [|c l]]]; try discriminate C.
    rewrite create_level_two, E1. cbn [level_nodes length seq app].
    exists h1, (length h). split; [reflexivity|].
    pose proof (strip_length _ _ _ S1) as L1. cbn in L1.
    assert (Na : a < length h) by (apply HB; cbn; auto).
    assert (Nb : b < length h) by (apply HB; cbn; auto).
    destruct (strip_nth_new _ _ _ 0 _ S1 eq_refl) as [m [Hm Sm]]. rewrite Nat.add_0_r in Hm.
    assert (Pr : par h1 (length h) = None).
    { rewrite PB; [apply par_out; lia|]. cbn. lia. }
    injection Sm as Sm1 Sm2 Sm3 Sm4 Sm5 Sm6.
    constructor.
    + eexists. exact S1.
    + lia.
    + intros i Hi _. apply PB. exact Hi.
    + exists 1. split; [lia|]. intros i Hi. exists (length h), m.
      destruct Hi as [<-|[<-|[]]].
      * rewrite (PA 0 a eq_refl). cbn. rewrite Nat.add_0_r. repeat split; auto.
      * rewrite (PA 1 b eq_refl). cbn. rewrite Nat.add_0_r. repeat split; auto.
    + intros HS W. eapply wf_ext; [exact W|exact S1|].
      intros n Hn. right. eapply level_nodes_inner; [|exact Hn]. intros; split; auto.
    + apply mr_done. cbn [map SpecMerkle.pair_up]. unfold hash_at at 3. rewrite Hm, Sm3. reflexivity.
    + intros h2 vs x Hsk HV HM.
      inversion HV as [|? v ? ? Hv HV']; subst. inversion HV' as [|? w ? ? Hw HV2]; subst. inversion HV2; subst.
      assert (x = sha3 (v ++ w)).
      { eapply merkle_root_det; [exact HM|]. apply mr_done. reflexivity. }
      subst x. destruct (Hsk _ _ Hm) as [m2 [Hm2 Sk2]].
      injection Sk2 as Q1 Q2 Q3.
      apply (evals_node h2 (length h) m2 a b); [exact Hm2|congruence|congruence|congruence|exact Hv|exact Hw].
  - rewrite E1. cbn [app].
    pose proof (strip_length _ _ _ S1) as L1.
    assert (LN : length (level_nodes (hash_at h) nl) < length nl /\ 2 <= length (level_nodes (hash_at h) nl)).
    { rewrite level_nodes_length. pose proof (pair_up_lt sha3 (map (hash_at h) nl)) as X.
      rewrite map_length in X. apply X. lia. }
    destruct (IH h1 (seq (length h) (length (level_nodes (hash_at h) nl)))) as [h' [root [E' B']]].
    + intros i Hi. apply in_seq in Hi. lia.
    + apply seq_NoDup.
    + rewrite seq_length. lia.
    + rewrite seq_length. lia.
    + exists h', root. split; [exact E'|]. eapply level_built_step; eauto. lia.
Qed.

(** ** Leaves and create *)
Definition leaf_node (p : P) (hs : bytes) : node := mkNode None None None hs (Some p) true false.

Lemma make_leaves_ok (pl : list P) : forall h leaves hs,
  Forall2 (fun p x => calc p = Ok x) pl hs ->
  make_leaves calc h leaves pl =
    (h ++ map (fun px => leaf_node (fst px) (snd px)) (combine pl hs),
     Ok (leaves ++ seq (length h) (length pl))).
Proof.
  induction pl as [|p pl IH]; intros h leaves hs HF; inversion HF as [|? x ? hs' Hx HF']; subst.
  - cbn. rewrite !app_nil_r. reflexivity.
  - cbn [make_leaves]. rewrite Hx. unfold alloc. rewrite (IH _ _ _ HF').
    cbn [combine map fst snd]. unfold leaf_node. rewrite <- !app_assoc, app_length. cbn [length app].
    rewrite Nat.add_1_r. reflexivity.
Qed.

Lemma make_leaves_err (pl : list P) : forall h leaves,
  (exists hs, Forall2 (fun p x => calc p = Ok x) pl hs) \/
  (exists h' pre bad post, pl = pre ++ bad :: post /\
     (forall x, In x pre -> exists y, calc x = Ok y) /\
     ((exists e, calc bad = Err e /\ make_leaves calc h leaves pl = (h', Err e)) \/
      (calc bad = Panic /\ make_leaves calc h leaves pl = (h', Panic)))).
Proof.
  induction pl as [|p pl IH]; intros h leaves.
  - left. exists []. constructor.
  - cbn [make_leaves]. destruct (calc p) as [x|e|] eqn:E.
    + unfold alloc. destruct (IH (h ++ [mkNode None None None x (Some p) true false]) (leaves ++ [length h]))
        as [[hs HF]|[h' [pre [bad [post [-> [Hp R]]]]]]].
      * left. exists (x :: hs). constructor; assumption.
      * right. exists h', (p :: pre), bad, post. split; [reflexivity|]. split; [|exact R].
        intros y [<-|Hy]; eauto.
    + right. exists h, [], p, pl. split; [reflexivity|]. split; [intros ? []|]. left. eauto.
    + right. exists h, [], p, pl. split; [reflexivity|]. split; [intros ? []|]. right. eauto.
Qed.

Lemma padded_Forall2 {A B} (Q : A -> B -> Prop) (l : list A) (m : list B) :
  Forall2 Q l m -> Forall2 Q (padded l) (padded m).
Proof.
  intros HF. unfold padded. rewrite <- (Forall2_length HF). destruct (Nat.odd (length l)); [|exact HF].
  apply Forall2_app; [exact HF|]. apply Forall2_rev in HF.
  destruct HF; constructor; auto.
Qed.

Lemma padded_length {A} (l : list A) : length (padded l) = length l + (length l mod 2).
Proof.
  unfold padded. destruct (Nat.odd (length l)) eqn:E.
  - apply Nat.odd_spec in E. destruct E as [k E]. rewrite app_length.
    destruct (rev l) as [|x r] eqn:Er.
    + apply (f_equal (@length _)) in Er. rewrite rev_length in Er. cbn in Er. lia.
    + cbn [length]. rewrite E. replace (2 * k + 1) with (1 + k * 2) by lia.
      rewrite Nat.mod_add by lia. reflexivity.
  - assert (Ev : Nat.even (length l) = true) by (rewrite <- Nat.negb_odd, E; reflexivity).
    apply Nat.even_spec in Ev. destruct Ev as [k Ev]. rewrite Ev, Nat.mul_comm, Nat.mod_mul; lia.
Qed.

Lemma merkle_root_padded (hs : list bytes) r : hs <> [] ->
  (merkle_root sha3 (padded hs) r <-> merkle_root sha3 hs r).
Proof.
  intros Hne. unfold padded. destruct (Nat.odd (length hs)) eqn:E; [|reflexivity].
  destruct hs as [|x l _] using rev_ind; [congruence|].
  rewrite rev_app_distr. cbn [rev app]. rewrite <- app_assoc. cbn [app].
  symmetry. apply merkle_root_odd_dup.
  rewrite app_length in E. cbn in E. rewrite Nat.add_1_r, Nat.odd_succ in E.
  apply Nat.even_spec in E. destruct E as [k ->]. rewrite Nat.mul_comm. apply Nat.mod_mul. lia.
Qed.

(** what it means that [t] is the tree for payloads [pl] with hashes [hs] in heap [h] *)
Record tree_for (h : heap) (t : tree) (pl : list P) (hs : list bytes) : Prop := mkTreeFor {
  tf_ne : pl <> [];
  tf_calc : Forall2 (fun p x => calc p = Ok x) pl hs;
  tf_root : exists root, t_root t = Some root /\ hash_at h root = t_mroot t /\ root < length h /\
     (exists d, 1 <= d /\ forall i, In i (t_leaves t) -> chain h i d root) /\
     (forall h2 vs x, skext h h2 -> Forall2 (evals h2) (t_leaves t) vs ->
             merkle_root sha3 vs x -> evals h2 root x);
  tf_mroot : merkle_root sha3 hs (t_mroot t);
  tf_leaves : Forall2 (fun i p => exists n, nth_error h i = Some n /\ n_data n = Some p /\
       n_isleaf n = true /\ calc p = Ok (n_hash n)) (t_leaves t) (padded pl);
  tf_dups : exists s, t_leaves t = seq s (length (padded pl)) /\
       (forall k i n, nth_error (t_leaves t) k = Some i -> nth_error h i = Some n ->
          n_isdup n = Nat.leb (length pl) k);
  tf_wf : wf h;
  tf_s0 : forall i, In i (t_leaves t) -> s0 <= i
}.

Definition hs_of (hs : list bytes) (pl : list P) : list node :=
  map (fun px => leaf_node (fst px) (snd px)) (combine pl hs).
Definition dup_of (n : node) : node := mkNode None None None (n_hash n) (n_data n) true true.

Definition all_leaves (pl : list P) (hs : list bytes) : list node :=
  hs_of hs pl ++ (if Nat.odd (length pl) then match rev (hs_of hs pl) with n :: _ => [dup_of n] | [] => [] end else []).

Lemma hs_of_length hs pl : length hs = length pl -> length (hs_of hs pl) = length pl.
Proof. intros L. unfold hs_of. rewrite map_length, combine_length. lia. Qed.
Lemma hs_of_hash hs pl : length hs = length pl -> map (@n_hash P) (hs_of hs pl) = hs.
Proof.
  revert pl. induction hs as [|x hs IH]; intros [|p pl] L; cbn in *; try discriminate; [reflexivity|].
  f_equal. apply IH. congruence.
Qed.
Lemma hs_of_data hs pl : length hs = length pl -> map (@n_data P) (hs_of hs pl) = map Some pl.
Proof.
  revert pl. induction hs as [|x hs IH]; intros [|p pl] L; cbn in *; try discriminate; [reflexivity|].
  f_equal. apply IH. congruence.
Qed.

Lemma all_leaves_hash pl hs : length hs = length pl -> map (@n_hash P) (all_leaves pl hs) = padded hs.
Proof.
  intros L. unfold all_leaves, padded. rewrite map_app, hs_of_hash by assumption. rewrite L.
  destruct (Nat.odd (length pl)); [|apply app_nil_r]. f_equal.
  rewrite <- (hs_of_hash hs pl L) at 2. rewrite <- map_rev. destruct (rev (hs_of hs pl)); reflexivity.
Qed.
Lemma all_leaves_data pl hs : length hs = length pl -> map (@n_data P) (all_leaves pl hs) = map Some (padded pl).
Proof.
  intros L. unfold all_leaves, padded. rewrite map_app, hs_of_data by assumption.
  destruct (Nat.odd (length pl)); [|apply app_nil_r]. rewrite map_app. f_equal.
  pose proof (hs_of_data hs pl L) as E. apply (f_equal (@rev _)) in E. rewrite <- !map_rev in E.
  destruct (rev (hs_of hs pl)), (rev pl); cbn in *; congruence.
Qed.
Lemma all_leaves_props pl hs n : In n (all_leaves pl hs) -> n_isleaf n = true /\ n_parent n = None.
Proof.
  unfold all_leaves, hs_of. rewrite in_app_iff. intros [H|H].
  - apply in_map_iff in H. destruct H as [x [<- _]]. split; reflexivity.
  - destruct (Nat.odd (length pl)); [|destruct H]. destruct (rev _); [destruct H|].
    destruct H as [<-|[]]. split; reflexivity.
Qed.

Lemma strip_leaf n : n_parent n = None -> strip n = n.
Proof. destruct n; cbn. intros ->. reflexivity. Qed.

Lemma odd_eqb n : Nat.eqb (n mod 2) 1 = Nat.odd n.
Proof.
  destruct (Nat.odd n) eqn:E.
  - apply Nat.odd_spec in E. destruct E as [k ->]. replace (2 * k + 1) with (1 + k * 2) by lia.
    rewrite Nat.mod_add by lia. reflexivity.
  - assert (Ev : Nat.even n = true) by (rewrite <- Nat.negb_odd, E; reflexivity).
    apply Nat.even_spec in Ev. destruct Ev as [k ->]. rewrite Nat.mul_comm, Nat.mod_mul by lia. reflexivity.
Qed.

Lemma nth_last {A} (l : list A) x r : rev l = x :: r -> nth_error l (length l - 1) = Some x.
Proof.
  intros E. assert (l = rev r ++ [x]) as ->.
  { apply (f_equal (@rev _)) in E. rewrite rev_involutive in E. exact E. }
  rewrite app_length. cbn. rewrite nth_error_app2 by lia.
  replace (length (rev r) + 1 - 1 - length (rev r)) with 0 by lia. reflexivity.
Qed.

Lemma create_eq fuel h pl hs : pl <> [] -> Forall2 (fun p x => calc p = Ok x) pl hs ->
  create calc sha3 fuel h pl =
  match createIntermediate fuel (h ++ all_leaves pl hs) (seq (length h) (length (padded pl))) with
  | None => None
  | Some (Ok (h3, root)) => Some (h3, Ok (root, seq (length h) (length (padded pl))))
  | Some (Err e) => Some (h ++ all_leaves pl hs, Err e)
  | Some Panic => Some (h ++ all_leaves pl hs, Panic)
  end.
Proof.
  intros Hne HF. pose proof (Forall2_length HF) as L.
  unfold create. destruct pl as [|p0 pl0]; [congruence|]. set (pl := p0 :: pl0) in *.
  rewrite (make_leaves_ok pl h [] hs HF). cbn [app]. cbv zeta.
  fold (hs_of hs pl). rewrite seq_length, odd_eqb.
  unfold all_leaves, padded. destruct (Nat.odd (length pl)) eqn:E.
  - destruct (rev (hs_of hs pl)) as [|n r] eqn:Er.
    { apply (f_equal (@length _)) in Er. rewrite rev_length, hs_of_length in Er by lia.
      cbn in Er. discriminate. }
    apply nth_last in Er. rewrite hs_of_length in Er by lia.
    unfold idx at 1. rewrite (nth_error_nth' _ 0) by (rewrite seq_length; cbn; lia).
    rewrite seq_nth by (cbn; lia). cbn [bind].
    unfold idx. rewrite nth_error_app2 by lia.
    replace (length h + (length pl - 1) - length h) with (length pl - 1) by lia.
    rewrite Er. cbn [bind]. unfold alloc. cbn [app].
    rewrite app_length, hs_of_length by lia.
    destruct (rev pl) as [|pz rz] eqn:Erp.
    { apply (f_equal (@length _)) in Erp. rewrite rev_length in Erp. discriminate. }
    rewrite app_length. cbn [length]. rewrite seq_app. cbn [seq].
    rewrite <- app_assoc. unfold dup_of. reflexivity.
  - rewrite app_nil_r. reflexivity.
Qed.

Lemma wf_leaves h pl hs : wf h -> Forall2 (fun p x => calc p = Ok x) pl hs -> wf (h ++ all_leaves pl hs).
Proof.
  intros W HF. pose proof (Forall2_length HF) as L.
  eapply wf_ext; [exact W|apply map_app|].
  intros n Hn. apply in_map_iff in Hn. destruct Hn as [m [<- Hm]].
  destruct (all_leaves_props _ _ _ Hm) as [A B]. rewrite strip_leaf by exact B.
  left. split; [exact A|].
  destruct (In_nth_error _ _ Hm) as [k Hk].
  assert (D : nth_error (map Some (padded pl)) k = Some (n_data m)).
  { rewrite <- (all_leaves_data pl hs) by lia. rewrite nth_error_map, Hk. reflexivity. }
  assert (Hh : nth_error (padded hs) k = Some (n_hash m)).
  { rewrite <- (all_leaves_hash pl hs) by lia. rewrite nth_error_map, Hk. reflexivity. }
  rewrite nth_error_map in D. destruct (nth_error (padded pl) k) as [p|] eqn:Ep; [|discriminate].
  cbn in D. injection D as D. exists p. split; [congruence|].
  apply padded_Forall2 in HF. clear -HF Ep Hh.
  revert k Ep Hh. induction HF as [|a b la lb Hab HF IH]; intros [|k] Ep Hh; cbn in *; try discriminate.
  - congruence.
  - eauto.
Qed.

Lemma Forall2_nth {A B} (Q : A -> B -> Prop) l m : length l = length m ->
  (forall k a b, nth_error l k = Some a -> nth_error m k = Some b -> Q a b) -> Forall2 Q l m.
Proof.
  revert m. induction l as [|a l IH]; intros [|b m] L HQ; cbn in *; try discriminate; constructor.
  - apply (HQ 0); reflexivity.
  - apply IH; [congruence|]. intros k x y Hx Hy. apply (HQ (S k)); assumption.
Qed.

Lemma all_leaves_dup pl hs k n : length hs = length pl -> nth_error (all_leaves pl hs) k = Some n ->
  n_isdup n = Nat.leb (length pl) k.
Proof.
  intros L E. unfold all_leaves in E.
  destruct (Nat.leb_spec (length pl) k) as [C|C].
  - rewrite nth_error_app2 in E by (rewrite hs_of_length; lia).
    destruct (Nat.odd (length pl)); [|destruct (k - _); discriminate].
    destruct (rev _); [destruct (k - _); discriminate|].
    destruct (k - _) as [|[|?]]; try discriminate. injection E as <-. reflexivity.
  - rewrite nth_error_app1 in E by (rewrite hs_of_length; lia).
    apply nth_error_In in E. unfold hs_of in E. apply in_map_iff in E. destruct E as [x [<- _]].
    reflexivity.
Qed.

Lemma wf_top (h : heap) : length h <= s0 -> wf h.
Proof.
  intros L i n Hi E. assert (i < length h) by (apply nth_error_Some; congruence). lia.
Qed.

Lemma create_ok fuel h pl hs : s0 = length h -> pl <> [] -> Forall2 (fun p x => calc p = Ok x) pl hs ->
  S (length pl) <= fuel ->
  exists h' root n, create calc sha3 fuel h pl = Some (h', Ok (root, seq (length h) (length (padded pl)))) /\
    nth_error h' root = Some n /\
    tree_for h' (mkTree (Some root) (n_hash n) (seq (length h) (length (padded pl)))) pl hs.
Proof.
  intros Hs0 Hne HF LF. pose proof (Forall2_length HF) as L.
  assert (W : wf h) by (apply wf_top; lia).
  rewrite (create_eq fuel h pl hs Hne HF).
  assert (LA : length (all_leaves pl hs) = length (padded pl)).
  { rewrite <- (map_length (@n_data P)), all_leaves_data, map_length by lia. reflexivity. }
  assert (LP : 2 <= length (padded pl) <= S (length pl)).
  { rewrite padded_length. destruct pl as [|a [|b l]]; [congruence|cbn; lia|].
    cbn [length]. pose proof (Nat.mod_upper_bound (S (S (length l))) 2). lia. }
  destruct (createIntermediate_built fuel (h ++ all_leaves pl hs) (seq (length h) (length (padded pl))))
    as [h' [root [E B]]].
  - intros i Hi. apply in_seq in Hi. rewrite app_length. lia.
  - apply seq_NoDup.
  - rewrite seq_length. lia.
  - rewrite seq_length. lia.
  - rewrite E. destruct B as [[s Hs] Rlt Fr Ch Wf Hh Ev].
    pose proof Rlt as Rlt'. apply nth_error_Some in Rlt'.
    destruct (nth_error h' root) as [n|] eqn:En; [|congruence]. clear Rlt'.
    exists h', root, n. split; [reflexivity|]. split; [exact En|].
    assert (HR : hash_at h' root = n_hash n) by (unfold hash_at; rewrite En; reflexivity).
    assert (LH : map (hash_at (h ++ all_leaves pl hs)) (seq (length h) (length (padded pl))) = padded hs).
    { rewrite <- LA.
      pose proof (new_hashes h (h ++ all_leaves pl hs) (map strip (all_leaves pl hs)) (map_app _ _ _)) as X.
      rewrite map_length in X. rewrite X, map_map.
      rewrite <- (all_leaves_hash pl hs) by lia. apply map_ext. reflexivity. }
    assert (NL : forall k m, nth_error (all_leaves pl hs) k = Some m ->
               exists m', nth_error h' (length h + k) = Some m' /\ strip m' = m).
    { intros k m Hm. assert (Q : nth_error (h ++ all_leaves pl hs) (length h + k) = Some m).
      { rewrite nth_error_app2 by lia. rewrite <- Hm. f_equal. lia. }
      destruct (strip_nth_old _ _ _ _ _ Hs Q) as [m' [Hm' Sm']]. exists m'. split; [exact Hm'|].
      rewrite Sm'. apply strip_leaf. apply nth_error_In in Hm. apply all_leaves_props in Hm. tauto. }
    constructor; cbn [t_root t_mroot t_leaves].
    + exact Hne.
    + exact HF.
    + exists root. repeat split; auto.
    + rewrite <- HR. rewrite LH in Hh. apply merkle_root_padded; [|exact Hh].
      destruct hs; [|discriminate]. destruct pl; [congruence|discriminate].
    + apply Forall2_nth; [rewrite seq_length; reflexivity|].
      intros k i p Hi Hp.
      assert (Lk : k < length (padded pl)) by (apply nth_error_Some; congruence).
      rewrite (nth_error_nth' _ 0) in Hi by (rewrite seq_length; exact Lk).
      rewrite seq_nth in Hi by exact Lk. injection Hi as <-.
      destruct (nth_error (all_leaves pl hs) k) as [m|] eqn:Em;
        [|apply nth_error_None in Em; lia].
      destruct (NL k m Em) as [m' [Hm' Sm']]. exists m'. split; [exact Hm'|].
      assert (D : nth_error (map Some (padded pl)) k = Some (n_data m)).
      { rewrite <- (all_leaves_data pl hs) by lia. rewrite nth_error_map, Em. reflexivity. }
      rewrite nth_error_map, Hp in D. cbn in D. injection D as D.
      assert (A1 : n_isleaf m = true) by (apply nth_error_In in Em; apply all_leaves_props in Em; tauto).
      assert (A2 : n_data m' = Some p) by (rewrite D, <- Sm'; reflexivity).
      assert (A3 : n_isleaf m' = true) by (rewrite <- A1, <- Sm'; reflexivity).
      split; [exact A2|]. split; [exact A3|].
      assert (W' : wf h').
      { apply Wf; [|apply wf_leaves; assumption]. intros i Hi. apply in_seq in Hi. lia. }
      destruct (W' (length h + k) _ ltac:(lia) Hm') as [[_ [q [Q1 Q2]]]|[Q _]]; [congruence|congruence].
    + exists (length h). split; [reflexivity|].
      intros k i m Hi Hm.
      assert (Lk : k < length (padded pl)).
      { rewrite <- (seq_length (length (padded pl)) (length h)). apply nth_error_Some. congruence. }
      rewrite (nth_error_nth' _ 0) in Hi by (rewrite seq_length; exact Lk).
      rewrite seq_nth in Hi by exact Lk. injection Hi as <-.
      destruct (nth_error (all_leaves pl hs) k) as [m0|] eqn:Em; [|apply nth_error_None in Em; lia].
      destruct (NL k m0 Em) as [m' [Hm' Sm']]. assert (m' = m) by congruence. subst m'.
      transitivity (n_isdup m0); [rewrite <- Sm'; reflexivity|]. apply (all_leaves_dup pl hs); [lia|exact Em].
    + apply Wf; [|apply wf_leaves; assumption]. intros i Hi. apply in_seq in Hi. lia.
    + intros i Hi. apply in_seq in Hi. lia.
Qed.
End MerkleFacts.
