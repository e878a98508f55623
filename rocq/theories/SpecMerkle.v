(** Specification of the Merkle root, independent of the model. *)
From Coq Require Import List Arith Bool.
From Verif Require Import GoModel MerkleModel.
Import ListNotations.

Section Spec.
Context (H : bytes -> bytes).

(** Hash adjacent pairs; an unpaired last element is paired with itself. *)
Fixpoint pair_up (hs : list bytes) : list bytes :=
  match hs with
  | [] => []
  | [a] => [H (a ++ a)]
  | a :: b :: rest => H (a ++ b) :: pair_up rest
  end.

(** The root of a non-empty list of leaf hashes: pair up at least once, until one
    value is left. *)
Inductive merkle_root : list bytes -> bytes -> Prop :=
| mr_done hs r : pair_up hs = [r] -> merkle_root hs r
| mr_step hs r : 2 < length hs -> merkle_root (pair_up hs) r -> merkle_root hs r.

(** The inputs hashed in one level, and in all levels. *)
Fixpoint level_inputs (hs : list bytes) : list bytes :=
  match hs with
  | [] => []
  | [a] => [a ++ a]
  | a :: b :: rest => (a ++ b) :: level_inputs rest
  end.
Fixpoint all_inputs (fuel : nat) (hs : list bytes) : list bytes :=
  match fuel with
  | O => []
  | S f => level_inputs hs ++ all_inputs f (pair_up hs)
  end.

(** Collision finder: the first pair of different inputs with the same hash among
    those hashed at corresponding places of the two trees. *)
Definition is_collision (xy : bytes * bytes) : bool :=
  negb (bytes_eqb (fst xy) (snd xy)) && bytes_eqb (H (fst xy)) (H (snd xy)).
Definition find_collision (a b : list bytes) : option (bytes * bytes) :=
  find is_collision (combine (all_inputs (length a) a) (all_inputs (length b) b)).
End Spec.

(** The payloads as stored in the leaves: the last one is repeated if their number
    is odd. *)
Definition padded {A} (l : list A) : list A :=
  if Nat.odd (length l) then l ++ match rev l with x :: _ => [x] | [] => [] end else l.

Section Heap.
Context {P : Type}.
(** the Parent field of node [i] *)
Definition par (h : heap P) (i : nat) : option nat :=
  match nth_error h i with Some n => n_parent n | None => None end.

(** Following Parent [d] times from [i] leads to [root], which has no parent; every
    node passed is the left or right child of its parent. *)
Fixpoint chain (h : heap P) (i d root : nat) : Prop :=
  match d with
  | O => i = root /\ par h root = None
  | S d' => exists j n, par h i = Some j /\ i < j /\ nth_error h j = Some n /\ n_isleaf n = false /\
              (n_left n = Some i \/ n_right n = Some i) /\ chain h j d' root
  end.

(** [h2] is [h] where the payloads held by [leaves] have been replaced by [pl]
    and nothing else has changed. *)
Definition with_data (n : node P) (p : P) : node P :=
  mkNode (n_parent n) (n_left n) (n_right n) (n_hash n) (Some p) (n_isleaf n) (n_isdup n).
Definition tampered (h h2 : heap P) (leaves : list nat) (pl : list P) : Prop :=
  (forall i, ~ In i leaves -> nth_error h2 i = nth_error h i) /\
  Forall2 (fun i p => exists n, nth_error h i = Some n /\ nth_error h2 i = Some (with_data n p)) leaves pl.

(** The whole structure of a tree.  [j] is the parent of [l] and [r]. *)
Definition joins (H : bytes -> bytes) (h : heap P) (l r j : nat) : Prop :=
  exists nl nr p, nth_error h l = Some nl /\ nth_error h r = Some nr /\
    n_parent nl = Some j /\ n_parent nr = Some j /\
    nth_error h j = Some (mkNode p (Some l) (Some r) (H (n_hash nl ++ n_hash nr)) None false false).
(** [js] are the parents of consecutive pairs of [nl]; an unpaired last node is the
    left and the right child of its parent. *)
Inductive level (H : bytes -> bytes) (h : heap P) : list nat -> list nat -> Prop :=
| lv_nil : level H h [] []
| lv_odd a j : joins H h a a j -> level H h [a] [j]
| lv_pair a b nl j js : joins H h a b j -> level H h nl js -> level H h (a :: b :: nl) (j :: js).
(** Levels are formed until one node, which has no parent, is left. *)
Inductive levels (H : bytes -> bytes) (h : heap P) : list nat -> nat -> Prop :=
| ls_root a b root : joins H h a b root -> par h root = None -> levels H h [a; b] root
| ls_up nl js root : 2 < length nl -> level H h nl js -> levels H h js root -> levels H h nl root.

(** What a node should hash to, judged by its payload (a leaf) or by the hashes stored
    in its children; and: all hashes stored from node [p] upwards are right in this sense. *)
Inductive node_value (calc : P -> res bytes) (H : bytes -> bytes) (h : heap P) : option nat -> bytes -> Prop :=
| nv_leaf i n p x : nth_error h i = Some n -> n_isleaf n = true -> n_data n = Some p ->
    calc p = Ok x -> node_value calc H h (Some i) x
| nv_inner i n l nl r nr : nth_error h i = Some n -> n_isleaf n = false ->
    n_left n = Some l -> nth_error h l = Some nl -> n_right n = Some r -> nth_error h r = Some nr ->
    node_value calc H h (Some i) (H (n_hash nl ++ n_hash nr)).
Inductive path_right (calc : P -> res bytes) (H : bytes -> bytes) (h : heap P) : option nat -> Prop :=
| pr_top : path_right calc H h None
| pr_step j n xl xr : nth_error h j = Some n -> node_value calc H h (n_left n) xl ->
    node_value calc H h (n_right n) xr -> n_hash n = H (xl ++ xr) ->
    path_right calc H h (n_parent n) -> path_right calc H h (Some j).
(** leaf [i] holds a payload with hash [x] *)
Definition holds (calc : P -> res bytes) (h : heap P) (i : nat) (x : bytes) : Prop :=
  exists n p, nth_error h i = Some n /\ n_data n = Some p /\ calc p = Ok x.
Definition with_hash (n : node P) (x : bytes) : node P :=
  mkNode (n_parent n) (n_left n) (n_right n) x (n_data n) (n_isleaf n) (n_isdup n).
End Heap.

(** Collisions among the inputs hashed by the parents of the leaves only. *)
Definition leaf_collision (H : bytes -> bytes) (a b : list bytes) : option (bytes * bytes) :=
  find (is_collision H) (combine (level_inputs a) (level_inputs b)).

Section Rebuild.
Context {P : Type} (calc : P -> res bytes) (sha3 : bytes -> bytes).
Notation heap := (heap P).
(** [hs] are the hashes of the payloads [pl]; in particular all of them succeed. *)
Definition hashes (pl : list P) (hs : list bytes) : Prop := Forall2 (fun p x => calc p = Ok x) pl hs.

(** the payload list a sequence of rebuilds leaves in the tree: a rebuild with new
    payloads replaces them if it succeeds *)
Definition usable (pl : list P) : bool :=
  match pl with
  | [] => false
  | _ => forallb (fun p => match calc p with Ok _ => true | _ => false end) pl
  end.

(** sequences of rebuild operations: None is RebuildTree, Some pl is RebuildTreeUsing(pl) *)
Fixpoint run_rebuilds (fuel : nat) (h : heap) (t : tree) (ops : list (option (list P))) : option (heap * tree) :=
  match ops with
  | [] => Some (h, t)
  | op :: ops' =>
    match (match op with None => RebuildTree calc sha3 fuel h t
                       | Some pl => RebuildTreeUsing calc sha3 fuel h t pl end) with
    | None => None
    | Some (h', t', _) => run_rebuilds fuel h' t' ops'
    end
  end.

(** the payloads in force after the operations *)
Fixpoint current (pl : list P) (ops : list (option (list P))) : list P :=
  match ops with
  | [] => pl
  | None :: ops' => current pl ops'
  | Some q :: ops' => current (if usable q then q else pl) ops'
  end.
End Rebuild.
