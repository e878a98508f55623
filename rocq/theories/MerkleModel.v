(** Model of /repo/merkletree/merkletree.go.

    Nodes live in a heap (a list; a pointer is an index), so that Parent/Left/Right
    sharing is explicit.  Hash slices are values here; the effect of [append] on
    slices with spare capacity is modelled separately in SliceModel.v.
    [sha3] is hash.Sha3256, which cannot fail (HashModel.v, the SHA-3 writer never
    returns an error).  A Payload is a value of an arbitrary type [P] whose
    CalculateHash is the function [calc] (lines 12-14): deterministic, no side effects. *)
From Coq Require Import String ZArith List Arith.
From Verif Require Import GoModel.
Import ListNotations.

Section Merkle.
Context {P : Type} (calc : P -> res bytes) (sha3 : bytes -> bytes).

(** merkletree.go:26-34 Node; nil pointers are None, a nil Data interface is None. *)
Record node := mkNode {
  n_parent : option nat; n_left : option nat; n_right : option nat;
  n_hash : bytes; n_data : option P; n_isleaf : bool; n_isdup : bool }.
Definition heap := list node.

(** merkletree.go:18-22 Tree *)
Record tree := mkTree { t_root : option nat; t_mroot : bytes; t_leaves : list nat }.

(** pointer dereference *)
Definition deref (h : heap) (p : option nat) : res node :=
  match p with None => Panic | Some i => idx h i end.
(** &Node{...} *)
Definition alloc (h : heap) (n : node) : heap * nat := (h ++ [n], length h).
(** nd.Parent = p *)
Definition with_parent (n : node) (p : nat) : node :=
  mkNode (Some p) (n_left n) (n_right n) (n_hash n) (n_data n) (n_isleaf n) (n_isdup n).
Definition set_parent (h : heap) (i p : nat) : res heap :=
  let! n := idx h i in Ok (upd h i (with_parent n p)).

(** n.Data.CalculateHash(): nil interface call panics *)
Definition data_hash (n : node) : res bytes :=
  match n_data n with None => Panic | Some p => calc p end.

(** merkletree.go:38-54 VerifyNode; the recursion is bounded by [fuel]
    (exhaustion = stack overflow = Panic).  Right is evaluated before left. *)
Fixpoint VerifyNode (fuel : nat) (h : heap) (p : option nat) : res bytes :=
  match fuel with
  | O => Panic
  | S f =>
    let! n := deref h p in
    if n_isleaf n then data_hash n else
    let! rightBytes := VerifyNode f h (n_right n) in
    let! leftBytes := VerifyNode f h (n_left n) in
    Ok (sha3 (leftBytes ++ rightBytes))
  end.

(** merkletree.go:57-63 CalculateNodeHash *)
Definition CalculateNodeHash (h : heap) (p : option nat) : res bytes :=
  let! n := deref h p in
  if n_isleaf n then data_hash n else
  let! l := deref h (n_left n) in
  let! r := deref h (n_right n) in
  Ok (sha3 (n_hash l ++ n_hash r)).

(** merkletree.go:86-98: leaves *)
Fixpoint make_leaves (h : heap) (leaves : list nat) (pl : list P) : heap * res (list nat) :=
  match pl with
  | [] => (h, Ok leaves)
  | p :: pl' =>
    match calc p with
    | Ok hs => let (h', i) := alloc h (mkNode None None None hs (Some p) true false) in
               make_leaves h' (leaves ++ [i]) pl'
    | Err e => (h, Err e)
    | Panic => (h, Panic)
    end
  end.

(** merkletree.go:120-146: one level; [two] is the condition len(nl) == 2.
    [inl n] is the early return of the root at line 144. *)
Fixpoint create_level (two : bool) (h : heap) (nl nodes : list nat) : res (heap * (nat + list nat)) :=
  match nl with
  | [] => Ok (h, inr nodes)
  | lft :: rest =>
    let rgt := match rest with [] => lft | r :: _ => r end in
    let! l := idx h lft in
    let! r := idx h rgt in
    let payloadHash := n_hash l ++ n_hash r in
    let (h1, nd) := alloc h (mkNode None (Some lft) (Some rgt) (sha3 payloadHash) None false false) in
    let! h2 := set_parent h1 lft nd in
    let! h3 := set_parent h2 rgt nd in
    if two then Ok (h3, inl nd) else
    match rest with
    | [] => Ok (h3, inr (nodes ++ [nd]))
    | _ :: rest' => create_level two h3 rest' (nodes ++ [nd])
    end
  end.

(** merkletree.go:119-149 createIntermediate; None = no result within [fuel] levels. *)
Fixpoint createIntermediate (fuel : nat) (h : heap) (nl : list nat) : option (res (heap * nat)) :=
  match fuel with
  | O => None
  | S f =>
    match create_level (Nat.eqb (length nl) 2) h nl [] with
    | Ok (h', inl root) => Some (Ok (h', root))
    | Ok (h', inr nodes) => createIntermediate f h' nodes
    | Err e => Some (Err e)
    | Panic => Some Panic
    end
  end.

(** merkletree.go:81-116 create.  The heap is returned also on failure (leaves may
    have been allocated). *)
Definition create (fuel : nat) (h : heap) (pl : list P) : option (heap * res (nat * list nat)) :=
  match pl with
  | [] => Some (h, Err "cannot construct tree with no content")
  | _ =>
    match make_leaves h [] pl with
    | (h1, Err e) => Some (h1, Err e)
    | (h1, Panic) => Some (h1, Panic)
    | (h1, Ok leaves) =>
      let r :=
        if Nat.eqb (length leaves mod 2) 1 then
          let! li := idx leaves (length leaves - 1) in
          let! previous := idx h1 li in
          let (h2, d) := alloc h1 (mkNode None None None (n_hash previous) (n_data previous) true true) in
          Ok (h2, leaves ++ [d])
        else Ok (h1, leaves) in
      match r with
      | Err e => Some (h1, Err e)
      | Panic => Some (h1, Panic)
      | Ok (h2, leaves') =>
        match createIntermediate fuel h2 leaves' with
        | None => None
        | Some (Ok (h3, root)) => Some (h3, Ok (root, leaves'))
        | Some (Err e) => Some (h2, Err e)
        | Some Panic => Some (h2, Panic)
        end
      end
    end
  end.

(** merkletree.go:66-77 NewTree *)
Definition NewTree (fuel : nat) (h : heap) (pl : list P) : option (heap * res tree) :=
  match create fuel h pl with
  | None => None
  | Some (h', Err e) => Some (h', Err e)
  | Some (h', Panic) => Some (h', Panic)
  | Some (h', Ok (root, leaves)) =>
    match idx h' root with
    | Ok n => Some (h', Ok (mkTree (Some root) (n_hash n) leaves))
    | _ => Some (h', Panic)
    end
  end.

(** merkletree.go:164-174 RebuildTreeUsing: the receiver is updated in place; the
    new receiver is returned together with the error. *)
Definition RebuildTreeUsing (fuel : nat) (h : heap) (t : tree) (pl : list P)
  : option (heap * tree * res unit) :=
  match create fuel h pl with
  | None => None
  | Some (h', Err e) => Some (h', t, Err e)
  | Some (h', Panic) => Some (h', t, Panic)
  | Some (h', Ok (root, leaves)) =>
    match idx h' root with
    | Ok n => Some (h', mkTree (Some root) (n_hash n) leaves, Ok tt)
    | _ => Some (h', t, Panic)
    end
  end.

(** merkletree.go:153-156: the data of all leaves *)
Fixpoint leaf_data (h : heap) (ls : list nat) : res (list P) :=
  match ls with
  | [] => Ok []
  | i :: ls' =>
    let! n := idx h i in
    match n_data n with
    | None => Panic  (* not a leaf; nil payloads are elements of P on which calc panics *)
    | Some p => let! r := leaf_data h ls' in Ok (p :: r)
    end
  end.

(** merkletree.go:152-159 RebuildTree *)
Definition RebuildTree (fuel : nat) (h : heap) (t : tree) : option (heap * tree * res unit) :=
  match leaf_data h (t_leaves t) with
  | Ok pl => RebuildTreeUsing fuel h t pl
  | Err e => Some (h, t, Err e)
  | Panic => Some (h, t, Panic)
  end.

(** merkletree.go:177-188 VerifyTree *)
Definition VerifyTree (fuel : nat) (h : heap) (t : tree) : res bool :=
  let! calculatedRoot := VerifyNode fuel h (t_root t) in
  if bytes_eqb (t_mroot t) calculatedRoot then Ok true else Ok false.

(** merkletree.go:232-243 equals *)
Definition equals (a b : option P) : res bool :=
  match a, b with
  | None, _ => Panic
  | Some a, b =>
    let! hashA := calc a in
    match b with
    | None => Panic
    | Some b => let! hashB := calc b in Ok (bytes_eqb hashA hashB)
    end
  end.

(** merkletree.go:199-222: climbing the parent chain; fuel exhaustion (a cyclic
    parent chain, i.e. an endless loop in Go) is Panic. *)
Fixpoint climb (fuel : nat) (h : heap) (currentParent : option nat) : res bool :=
  match currentParent with
  | None => Ok true
  | Some _ =>
    match fuel with
    | O => Panic
    | S f =>
      let! cp := deref h currentParent in
      let! rightBytes := CalculateNodeHash h (n_right cp) in
      let! leftBytes := CalculateNodeHash h (n_left cp) in
      if bytes_eqb (sha3 (leftBytes ++ rightBytes)) (n_hash cp)
      then climb f h (n_parent cp) else Ok false
    end
  end.

(** merkletree.go:191-229 VerifyContent *)
Fixpoint verify_content_loop (fuel : nat) (h : heap) (leaves : list nat) (data : option P) : res bool :=
  match leaves with
  | [] => Ok false
  | i :: rest =>
    let! leaf := idx h i in
    let! ok := equals (n_data leaf) data in
    if ok then climb fuel h (n_parent leaf) else verify_content_loop fuel h rest data
  end.
Definition VerifyContent (fuel : nat) (h : heap) (t : tree) (data : option P) : res bool :=
  verify_content_loop fuel h (t_leaves t) data.
End Merkle.
Arguments node P : clear implicits.
Arguments heap P : clear implicits.
