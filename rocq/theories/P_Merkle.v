(** Properties C03-C11: merkletree/merkletree.go *)
From Coq Require Import String ZArith List Arith Lia Bool.
From Verif Require Import GoModel GoFacts MerkleModel SpecMerkle MerkleFacts MerkleProps MerkleTamper SliceModel SliceFacts.
Import ListNotations.

(** C03.  [h] is any heap (other trees may exist); the fuel bounds the number of levels. *)
Theorem C03_newtree_root {P} (calc : P -> res bytes) sha3 f h pl hs :
  pl <> [] -> hashes calc pl hs -> S (length pl) <= f ->
  exists h' t, NewTree calc sha3 f h pl = Some (h', Ok t) /\ merkle_root sha3 hs (t_mroot t).
Proof. exact (newtree_ok calc sha3 f h pl hs). Qed.
Print Assumptions C03_newtree_root.

Theorem C03_newtree_error_iff {P} (calc : P -> res bytes) sha3 f h pl :
  S (length pl) <= f -> (forall p, In p pl -> calc p <> Panic) ->
  ((exists h' e, NewTree calc sha3 f h pl = Some (h', Err e)) <->
   (pl = [] \/ exists p e, In p pl /\ calc p = Err e)).
Proof. exact (newtree_err_iff calc sha3 f h pl). Qed.
Print Assumptions C03_newtree_error_iff.

Theorem C03_newtree_terminates {P} (calc : P -> res bytes) sha3 h pl :
  (forall p, In p pl -> calc p <> Panic) ->
  exists r, (forall f, S (length pl) <= f -> NewTree calc sha3 f h pl = Some r) /\ snd r <> Panic.
Proof. exact (newtree_total calc sha3 h pl). Qed.
Print Assumptions C03_newtree_terminates.

(** The first payload whose hash fails decides the error; a panic of CalculateHash (for example of a nil
    payload) goes through.  Later payloads are not looked at. *)
Theorem C03_first_failure {P} (calc : P -> res bytes) sha3 f h pre bad post :
  (forall p, In p pre -> exists x, calc p = Ok x) ->
  (forall e, calc bad = Err e -> exists h', NewTree calc sha3 f h (pre ++ bad :: post) = Some (h', Err e)) /\
  (calc bad = Panic -> exists h', NewTree calc sha3 f h (pre ++ bad :: post) = Some (h', Panic)).
Proof.
  intros HP.
  assert (G : forall r, (forall x, calc bad <> Ok x) -> calc bad = r -> forall pre, (forall p, In p pre -> exists x, calc p = Ok x) ->
    forall h leaves, exists h', make_leaves calc h leaves (pre ++ bad :: post) =
      (h', match r with Ok _ => Panic | Err e => Err e | Panic => Panic end)).
  { clear. intros r N E. induction pre as [|p pre IH]; intros HP h leaves; cbn [app make_leaves].
    - rewrite E. destruct r as [x|e|]; [exfalso; apply (N x E)| |]; eexists; reflexivity.
    - destruct (HP p (or_introl eq_refl)) as [x ->]. unfold alloc. apply IH. intros q Hq. apply HP. right. exact Hq. }
  split.
  - intros e E. destruct (G (Err e) ltac:(congruence) E pre HP h []) as [h' M]. exists h'. unfold NewTree, create.
    rewrite M. destruct (pre ++ bad :: post) eqn:L; [destruct pre; discriminate|reflexivity].
  - intros E. destruct (G Panic ltac:(congruence) E pre HP h []) as [h' M]. exists h'. unfold NewTree, create.
    rewrite M. destruct (pre ++ bad :: post) eqn:L; [destruct pre; discriminate|reflexivity].
Qed.
Print Assumptions C03_first_failure.
(** The specification determines the root. *)
Theorem C03_spec_unique H hs r r' : merkle_root H hs r -> merkle_root H hs r' -> r = r'.
Proof. exact (merkle_root_det H hs r r'). Qed.
Print Assumptions C03_spec_unique.

(** A toy 32-byte hash and payloads that are their own hash, for the examples. *)
Definition ex_sha (b : bytes) : bytes := firstn 32 (Z_byte (Z.of_nat (length b)) :: rev b ++ repeat Byte.x07 32).
Definition ex_calc (b : bytes) : res bytes := match b with [] => Err "no hash" | _ => Ok b end.
Definition ex_a := repeat Byte.x0a 32.
Definition ex_b := repeat Byte.x0b 32.
Definition ex_c := repeat Byte.x0c 32.

Lemma ex_sha_32 x : length (ex_sha x) = 32.
Proof. unfold ex_sha. rewrite firstn_length. cbn [length]. rewrite app_length, repeat_length. lia. Qed.

Example C03_ex : hashes ex_calc [ex_a; ex_b; ex_c] [ex_a; ex_b; ex_c] /\
  (exists h t, NewTree ex_calc ex_sha 4 [] [ex_a; ex_b; ex_c] = Some (h, Ok t) /\
     t_mroot t = ex_sha (ex_sha (ex_a ++ ex_b) ++ ex_sha (ex_c ++ ex_c))) /\
  (exists h, NewTree ex_calc ex_sha 4 [] [ex_a; []] = Some (h, Err "no hash")).
Proof.
  split; [repeat constructor|]. split.
  - eexists. eexists. split; (vm_compute; reflexivity).
  - eexists. vm_compute; reflexivity.
Qed.

(** C04. *)
Theorem C04_newtree_verifies {P} (calc : P -> res bytes) sha3 fuel h pl h' t :
  NewTree calc sha3 fuel h pl = Some (h', Ok t) ->
  exists f0, forall f, f0 <= f -> VerifyTree calc sha3 f h' t = Ok true.
Proof. exact (newtree_verifies calc sha3 fuel h pl h' t). Qed.
Print Assumptions C04_newtree_verifies.

Example C04_ex : exists h t, NewTree ex_calc ex_sha 4 [] [ex_a; ex_b; ex_c] = Some (h, Ok t) /\
  VerifyTree ex_calc ex_sha 3 h t = Ok true.
Proof. eexists. eexists. split; (vm_compute; reflexivity). Qed.

(** C05. *)
Theorem C05_verify_content {P} (calc : P -> res bytes) sha3 fuel h pl h' t d x :
  NewTree calc sha3 fuel h pl = Some (h', Ok t) -> calc d = Ok x ->
  exists f0, forall f, f0 <= f ->
  (VerifyContent calc sha3 f h' t (Some d) = Ok true /\ exists p, In p pl /\ calc p = Ok x) \/
  (VerifyContent calc sha3 f h' t (Some d) = Ok false /\ forall p, In p pl -> calc p <> Ok x).
Proof. exact (newtree_content calc sha3 fuel h pl h' t d x). Qed.
Print Assumptions C05_verify_content.

Theorem C05_verify_content_hash_error {P} (calc : P -> res bytes) sha3 fuel h pl h' t d e f :
  NewTree calc sha3 fuel h pl = Some (h', Ok t) -> calc d = Err e ->
  VerifyContent calc sha3 f h' t (Some d) = Err e.
Proof. exact (newtree_content_err calc sha3 fuel h pl h' t d e f). Qed.
Print Assumptions C05_verify_content_hash_error.

(** nil: asked for nil, or with a nil Payload in the first leaf, VerifyContent panics *)
Theorem C05_nil {P} (calc : P -> res bytes) sha3 fuel h pl h' t f :
  NewTree calc sha3 fuel h pl = Some (h', Ok t) ->
  VerifyContent calc sha3 f h' t None = Panic /\
  forall i rest n d, t_leaves t = i :: rest -> nth_error h' i = Some n ->
    VerifyContent calc sha3 f (upd h' i (mkNode (n_parent n) (n_left n) (n_right n) (n_hash n) None (n_isleaf n) (n_isdup n))) t d = Panic.
Proof. exact (newtree_nil calc sha3 fuel h pl h' t f). Qed.
Print Assumptions C05_nil.
Example C05_ex : exists h t, NewTree ex_calc ex_sha 4 [] [ex_a; ex_b; ex_c] = Some (h, Ok t) /\
  VerifyContent ex_calc ex_sha 3 h t (Some ex_b) = Ok true /\
  VerifyContent ex_calc ex_sha 3 h t (Some (repeat Byte.x0d 32)) = Ok false.
Proof. eexists. eexists. repeat apply conj; (vm_compute; reflexivity). Qed.

(** C06.  [h2] is the heap after the payloads held by the leaves were replaced by [pl2]. *)
Theorem C06_tampering_detected {P} (calc : P -> res bytes) sha3 fuel h pl h' t hs h2 pl2 hs2 :
  NewTree calc sha3 fuel h pl = Some (h', Ok t) -> hashes calc pl hs ->
  (forall x, length (sha3 x) = 32) -> Forall (fun x => length x = 32) hs ->
  tampered h' h2 (t_leaves t) pl2 -> hashes calc pl2 hs2 -> Forall (fun x => length x = 32) hs2 ->
  exists f0 b, (forall f, f0 <= f -> VerifyTree calc sha3 f h2 t = Ok b) /\
    (hs2 = padded hs -> b = true) /\
    (b = true -> hs2 = padded hs \/
       exists x y, find_collision sha3 hs2 (padded hs) = Some (x, y) /\ x <> y /\ sha3 x = sha3 y).
Proof. exact (newtree_tamper calc sha3 fuel h pl h' t hs h2 pl2 hs2). Qed.
Print Assumptions C06_tampering_detected.

Example C06_ex : exists h t h2, NewTree ex_calc ex_sha 3 [] [ex_a; ex_b] = Some (h, Ok t) /\
  tampered h h2 (t_leaves t) [ex_a; ex_c] /\ (forall x, length (ex_sha x) = 32) /\
  VerifyTree ex_calc ex_sha 3 h2 t = Ok false.
Proof.
  eexists. eexists.
  exists [mkNode (Some 2) None None ex_a (Some ex_a) true false;
          mkNode (Some 2) None None ex_b (Some ex_c) true false;
          mkNode None (Some 0) (Some 1) (ex_sha (ex_a ++ ex_b)) None false false].
  split; [vm_compute; reflexivity|]. split; [|split; [exact ex_sha_32|vm_compute; reflexivity]].
  split.
  - intros [|[|[|i]]] Hi; cbn in Hi; try tauto; reflexivity.
  - repeat constructor; eexists; split; reflexivity.
Qed.

(** C07. *)
Theorem C07_root_binds {P} (calc : P -> res bytes) sha3 f1 h1 pl1 h1' t1 hs1 f2 h2 pl2 h2' t2 hs2 :
  NewTree calc sha3 f1 h1 pl1 = Some (h1', Ok t1) -> hashes calc pl1 hs1 ->
  NewTree calc sha3 f2 h2 pl2 = Some (h2', Ok t2) -> hashes calc pl2 hs2 ->
  (forall x, length (sha3 x) = 32) ->
  Forall (fun x => length x = 32) hs1 -> Forall (fun x => length x = 32) hs2 ->
  length pl1 = length pl2 -> t_mroot t1 = t_mroot t2 ->
  hs1 = hs2 \/ exists x y, find_collision sha3 hs1 hs2 = Some (x, y) /\ x <> y /\ sha3 x = sha3 y.
Proof. exact (newtree_binding calc sha3 f1 h1 pl1 h1' t1 hs1 f2 h2 pl2 h2' t2 hs2). Qed.
Print Assumptions C07_root_binds.

Example C07_ex : exists x y,
  (* the toy hash keeps only the last bytes, so a collision is found *)
  find_collision ex_sha [ex_a; ex_c] [ex_b; ex_c] = Some (x, y) /\ x <> y /\ ex_sha x = ex_sha y.
Proof. eexists. eexists. split; [vm_compute; reflexivity|]. split; [discriminate|reflexivity]. Qed.

(** C08. *)
Theorem C08_dup_last_same_root {P} (calc : P -> res bytes) sha3 f1 h1 pl p h1' t1 f2 h2 h2' t2 :
  Nat.even (length pl) = true ->
  NewTree calc sha3 f1 h1 (pl ++ [p]) = Some (h1', Ok t1) ->
  NewTree calc sha3 f2 h2 (pl ++ [p; p]) = Some (h2', Ok t2) ->
  t_mroot t1 = t_mroot t2.
Proof. exact (newtree_dup_last calc sha3 f1 h1 pl p h1' t1 f2 h2 h2' t2). Qed.
Print Assumptions C08_dup_last_same_root.

(** For lists of 4k payloads the second list has 2k. *)
Theorem C08_level_up_same_root {P} (calc : P -> res bytes) sha3 f1 h1 pl1 h1' t1 hs1 f2 h2 pl2 h2' t2 :
  NewTree calc sha3 f1 h1 pl1 = Some (h1', Ok t1) -> hashes calc pl1 hs1 -> 2 < length pl1 ->
  NewTree calc sha3 f2 h2 pl2 = Some (h2', Ok t2) -> hashes calc pl2 (pair_up sha3 hs1) ->
  t_mroot t1 = t_mroot t2 /\ 2 * length pl2 = length pl1 + length pl1 mod 2.
Proof. exact (newtree_level_up calc sha3 f1 h1 pl1 h1' t1 hs1 f2 h2 pl2 h2' t2). Qed.
Print Assumptions C08_level_up_same_root.

(** The naive claim "the root identifies the payload list" is false for every hash function. *)
Theorem C08_root_identifies_payloads_refuted (sha3 : bytes -> bytes) :
  ~ (forall (calc : bytes -> res bytes) h pl1 pl2 h1 t1 h2 t2,
      NewTree calc sha3 (S (length pl1)) h pl1 = Some (h1, Ok t1) ->
      NewTree calc sha3 (S (length pl2)) h pl2 = Some (h2, Ok t2) ->
      t_mroot t1 = t_mroot t2 -> pl1 = pl2).
Proof.
  intros C. specialize (C (fun b => Ok b) [] [[]] [[]; []]).
  assert (E : [@nil Byte.byte] = [[]; []]); [|discriminate E].
  eapply C; reflexivity.
Qed.
Print Assumptions C08_root_identifies_payloads_refuted.

Example C08_ex : exists h1 t1 h2 t2 h3 t3,
  NewTree ex_calc ex_sha 4 [] [ex_a; ex_b; ex_c] = Some (h1, Ok t1) /\
  NewTree ex_calc ex_sha 5 [] [ex_a; ex_b; ex_c; ex_c] = Some (h2, Ok t2) /\
  NewTree ex_calc ex_sha 5 [] [ex_sha (ex_a ++ ex_b); ex_sha (ex_c ++ ex_c)] = Some (h3, Ok t3) /\
  t_mroot t1 = t_mroot t2 /\ t_mroot t2 = t_mroot t3.
Proof. do 6 eexists. repeat apply conj; (vm_compute; reflexivity). Qed.

(** C09. *)
Theorem C09_rebuild_keeps_root {P} (calc : P -> res bytes) sha3 fuel0 h0 pl h t fuel :
  NewTree calc sha3 fuel0 h0 pl = Some (h, Ok t) -> S (S (length pl)) <= fuel ->
  exists h' t', RebuildTree calc sha3 fuel h t = Some (h', t', Ok tt) /\ t_mroot t' = t_mroot t /\
    exists f0, forall f, f0 <= f -> VerifyTree calc sha3 f h' t' = Ok true.
Proof. exact (newtree_rebuild calc sha3 fuel0 h0 pl h t fuel). Qed.
Print Assumptions C09_rebuild_keeps_root.

Theorem C09_rebuild_using_is_newtree {P} (calc : P -> res bytes) sha3 fuel h t pl :
  match NewTree calc sha3 fuel h pl with
  | Some (h', Ok t') => RebuildTreeUsing calc sha3 fuel h t pl = Some (h', t', Ok tt)
  | Some (h', Err e) => RebuildTreeUsing calc sha3 fuel h t pl = Some (h', t, Err e)
  | Some (h', Panic) => RebuildTreeUsing calc sha3 fuel h t pl = Some (h', t, Panic)
  | None => RebuildTreeUsing calc sha3 fuel h t pl = None
  end.
Proof. exact (rebuild_using_newtree calc sha3 fuel h t pl). Qed.
Print Assumptions C09_rebuild_using_is_newtree.

(** RebuildTree is RebuildTreeUsing with the payloads of the leaves: those given to NewTree, and the last
    one again if their number is odd.  The hashes of the payloads may have changed since (calc'). *)
Theorem C09_rebuild_is_using {P} (calc calc' : P -> res bytes) sha3 fuel0 h0 pl h t fuel :
  NewTree calc sha3 fuel0 h0 pl = Some (h, Ok t) ->
  RebuildTree calc' sha3 fuel h t = RebuildTreeUsing calc' sha3 fuel h t (padded pl).
Proof.
  intros E. apply newtree_inv in E. destruct E as [hs T]. unfold RebuildTree. rewrite (leaf_data_ok calc sha3 _ _ _ _ _ T). reflexivity.
Qed.
Print Assumptions C09_rebuild_is_using.
(** A Tree that was not made by NewTree (the zero value): no content, and VerifyTree panics. *)
Theorem C09_zero_tree {P} (calc : P -> res bytes) sha3 fuel (h : heap P) r d : let t := mkTree None r [] in
  VerifyTree calc sha3 fuel h t = Panic /\ VerifyContent calc sha3 fuel h t d = Ok false /\
  RebuildTree calc sha3 fuel h t = Some (h, t, Err "cannot construct tree with no content"%string).
Proof. split; [destruct fuel; reflexivity|split; reflexivity]. Qed.
Print Assumptions C09_zero_tree.

Theorem C09_rebuild_sequences {P} (calc : P -> res bytes) sha3 fuel0 h0 pl h t fuel ops :
  NewTree calc sha3 fuel0 h0 pl = Some (h, Ok t) ->
  S (S (S (length pl))) <= fuel -> (forall q, In (Some q) ops -> S (S (S (length q))) <= fuel) ->
  (forall q p, In (Some q) ops -> In p q -> calc p <> Panic) ->
  exists h' t', run_rebuilds calc sha3 fuel h t ops = Some (h', t') /\
    (exists hs', hashes calc (current calc pl ops) hs' /\ merkle_root sha3 hs' (t_mroot t')) /\
    exists f0, forall f, f0 <= f -> VerifyTree calc sha3 f h' t' = Ok true.
Proof. exact (newtree_rebuilds calc sha3 fuel0 h0 pl h t fuel ops). Qed.
Print Assumptions C09_rebuild_sequences.

Example C09_ex : exists h t h' t',
  NewTree ex_calc ex_sha 9 [] [ex_a; ex_b; ex_c] = Some (h, Ok t) /\
  run_rebuilds ex_calc ex_sha 9 h t [None; Some [ex_b; ex_c]; Some [ex_a; []]; Some []; None] = Some (h', t') /\
  current ex_calc [ex_a; ex_b; ex_c] [None; Some [ex_b; ex_c]; Some [ex_a; []]; Some []; None] = [ex_b; ex_c] /\
  t_mroot t' = ex_sha (ex_b ++ ex_c).
Proof. do 4 eexists. repeat apply conj; (vm_compute; reflexivity). Qed.

(** C10. *)
Theorem C10_structure {P} (calc : P -> res bytes) sha3 fuel h pl h' t :
  NewTree calc sha3 fuel h pl = Some (h', Ok t) ->
  (exists root d, t_root t = Some root /\ 1 <= d /\ forall i, In i (t_leaves t) -> chain h' i d root) /\
  length (t_leaves t) = length pl + length pl mod 2 /\
  (forall k i, nth_error (t_leaves t) k = Some i ->
     exists n p, nth_error h' i = Some n /\ n_isleaf n = true /\ n_data n = Some p /\
       nth_error (padded pl) k = Some p /\ calc p = Ok (n_hash n) /\ n_isdup n = Nat.leb (length pl) k).
Proof. exact (newtree_structure calc sha3 fuel h pl h' t). Qed.
Print Assumptions C10_structure.

(** All pointers, hashes and flags of all inner nodes. *)
Theorem C10_levels {P} (calc : P -> res bytes) sha3 fuel h pl h' t :
  NewTree calc sha3 fuel h pl = Some (h', Ok t) ->
  exists root, t_root t = Some root /\ levels sha3 h' (t_leaves t) root.
Proof. exact (newtree_levels calc sha3 fuel h pl h' t). Qed.
Print Assumptions C10_levels.

Example C10_ex : exists h t, NewTree ex_calc ex_sha 6 [] [ex_a; ex_b; ex_c; ex_a; ex_b] = Some (h, Ok t) /\
  t_leaves t = [0; 1; 2; 3; 4; 5] /\ t_root t = Some 11 /\ chain h 4 3 11.
Proof.
  eexists. eexists. split; [vm_compute; reflexivity|]. split; [vm_compute; reflexivity|].
  split; [vm_compute; reflexivity|].
  cbn [chain]. exists 8. eexists. split; [reflexivity|]. split; [lia|]. split; [reflexivity|].
  split; [reflexivity|]. split; [left; reflexivity|].
  exists 10. eexists. split; [reflexivity|]. split; [lia|]. split; [reflexivity|].
  split; [reflexivity|]. split; [left; reflexivity|].
  exists 11. eexists. split; [reflexivity|]. split; [lia|]. split; [reflexivity|].
  split; [reflexivity|]. split; [right; reflexivity|]. split; reflexivity.
Qed.

(** C11. *)
Theorem C11_append_value (zero : Byte.byte) slack m s data : slice_ok m s ->
  contents (fst (append zero slack m s data)) (snd (append zero slack m s data)) = contents m s ++ data.
Proof. exact (append_contents zero slack m s data). Qed.
Print Assumptions C11_append_value.

Theorem C11_no_spare_no_write (zero : Byte.byte) slack m s data : slice_ok m s ->
  s_cap s < s_len s + length data \/ data = [] ->
  exists x, fst (append zero slack m s data) = m ++ x.
Proof. exact (append_no_spare zero slack m s data). Qed.
Print Assumptions C11_no_spare_no_write.

Theorem C11_spare_overwrites (zero : Byte.byte) slack m s data : slice_ok m s -> s_len s + length data <= s_cap s ->
  let m' := fst (append zero slack m s data) in
  length m' = length m /\
  (forall a, a <> s_arr s -> array m' a = array m a) /\
  length (array m' (s_arr s)) = length (array m (s_arr s)) /\
  firstn (s_off s + s_len s) (array m' (s_arr s)) = firstn (s_off s + s_len s) (array m (s_arr s)) /\
  firstn (length data) (skipn (s_off s + s_len s) (array m' (s_arr s))) = data /\
  skipn (s_off s + s_len s + length data) (array m' (s_arr s)) =
    skipn (s_off s + s_len s + length data) (array m (s_arr s)).
Proof. exact (append_spare zero slack m s data). Qed.
Print Assumptions C11_spare_overwrites.

(** Without spare capacity building the tree computes the right root and modifies no
    existing memory. *)
Theorem C11_tight_slices_right_root sha3 slack fuel m nl :
  (forall s, In s nl -> slice_ok m s /\ s_cap s = s_len s) -> 2 <= length nl <= fuel ->
  exists x s, root_mem sha3 slack fuel m nl = Some (m ++ x, s) /\
    merkle_root sha3 (map (contents m) nl) (contents (m ++ x) s).
Proof. exact (root_mem_tight sha3 slack fuel m nl). Qed.
Print Assumptions C11_tight_slices_right_root.

(** With spare capacity the root can be wrong: the third hash lives in the spare room
    of the first one and is overwritten by the second before it is used. *)
Theorem C11_right_root_refuted :
  ~ (forall sha3 slack fuel m nl, (forall s, In s nl -> slice_ok m s) -> 2 <= length nl <= fuel ->
       exists m' s, root_mem sha3 slack fuel m nl = Some (m', s) /\
         merkle_root sha3 (map (contents m) nl) (contents m' s)).
Proof.
  intros C.
  destruct (C (fun b => b) 0 4 [[Byte.x01; Byte.x03]; [Byte.x02]]
     [mkSlice 0 0 1 2; mkSlice 1 0 1 1; mkSlice 0 1 1 1; mkSlice 1 0 1 1]) as [m' [s [E M]]].
  - intros s [<-|[<-|[<-|[<-|[]]]]]; unfold slice_ok; cbn; lia.
  - cbn. lia.
  - vm_compute in E. injection E as <- <-. vm_compute in M.
    assert (X : merkle_root (fun b => b) [[Byte.x01]; [Byte.x02]; [Byte.x03]; [Byte.x02]]
                  [Byte.x01; Byte.x02; Byte.x03; Byte.x02]).
    { apply mr_step; [cbn; lia|]. apply mr_done. reflexivity. }
    pose proof (merkle_root_det _ _ _ _ M X) as D. discriminate D.
Qed.
Print Assumptions C11_right_root_refuted.

Example C11_ex : let s := mkSlice 0 1 2 4 in
  slice_ok [[Byte.x01; Byte.x02; Byte.x03; Byte.x04; Byte.x05]] s /\
  fst (append Byte.x00 0 [[Byte.x01; Byte.x02; Byte.x03; Byte.x04; Byte.x05]] s [Byte.xff])
  = [[Byte.x01; Byte.x02; Byte.x03; Byte.xff; Byte.x05]].
Proof. split; [unfold slice_ok; cbn; lia|reflexivity]. Qed.

(** C71.  For any heap and any tree, however they came about. *)
Theorem C71_accepts_iff {P} (calc : P -> res bytes) sha3 (h : heap P) t d x : calc d = Ok x ->
  ((exists f0, forall f, f0 <= f -> VerifyContent calc sha3 f h t (Some d) = Ok true) <->
   exists pre i post n, t_leaves t = pre ++ i :: post /\
     (forall k, In k pre -> exists y, holds calc h k y /\ y <> x) /\
     holds calc h i x /\ nth_error h i = Some n /\ path_right calc sha3 h (n_parent n)).
Proof. exact (content_true_iff calc sha3 h t d x). Qed.
Print Assumptions C71_accepts_iff.

(** After the payloads in the leaves were replaced, VerifyContent still accepts only
    what the tree was built from, unless two different inputs hashed by the parents of
    leaves collide. *)
Theorem C71_replaced_payloads {P} (calc : P -> res bytes) sha3 fuel h pl h' t hs h2 pl2 hs2 d x f0 :
  NewTree calc sha3 fuel h pl = Some (h', Ok t) -> hashes calc pl hs ->
  Forall (fun x => length x = 32) hs -> tampered h' h2 (t_leaves t) pl2 -> hashes calc pl2 hs2 ->
  Forall (fun x => length x = 32) hs2 -> calc d = Ok x ->
  (forall f, f0 <= f -> VerifyContent calc sha3 f h2 t (Some d) = Ok true) ->
  In x hs \/ exists u v, leaf_collision sha3 hs2 (padded hs) = Some (u, v) /\ u <> v /\ sha3 u = sha3 v.
Proof. exact (newtree_content_tamper calc sha3 fuel h pl h' t hs h2 pl2 hs2 d x f0). Qed.
Print Assumptions C71_replaced_payloads.

(** A wrong hash stored in the root node makes VerifyContent reject everything. *)
Theorem C71_altered_root_hash {P} (calc : P -> res bytes) sha3 fuel h pl h' t root n v d x :
  NewTree calc sha3 fuel h pl = Some (h', Ok t) -> t_root t = Some root -> nth_error h' root = Some n ->
  v <> n_hash n -> calc d = Ok x ->
  exists f0, forall f, f0 <= f -> VerifyContent calc sha3 f (upd h' root (with_hash n v)) t (Some d) = Ok false.
Proof. exact (newtree_altered_root calc sha3 fuel h pl h' t root n v d x). Qed.
Print Assumptions C71_altered_root_hash.

(** Any other MerkleRoot makes VerifyTree return false. *)
Theorem C71_altered_merkle_root {P} (calc : P -> res bytes) sha3 fuel h pl h' t r :
  NewTree calc sha3 fuel h pl = Some (h', Ok t) -> r <> t_mroot t ->
  exists f0, forall f, f0 <= f -> VerifyTree calc sha3 f h' (mkTree (t_root t) r (t_leaves t)) = Ok false.
Proof. exact (newtree_altered_mroot calc sha3 fuel h pl h' t r). Qed.
Print Assumptions C71_altered_merkle_root.

(** CalculateNodeHash and VerifyNode agree with the stored hash on every node made by NewTree. *)
Theorem C71_node_hashes {P} (calc : P -> res bytes) sha3 fuel h pl h' t i n :
  NewTree calc sha3 fuel h pl = Some (h', Ok t) -> length h <= i -> nth_error h' i = Some n ->
  CalculateNodeHash calc sha3 h' (Some i) = Ok (n_hash n) /\
  exists f0, forall f, f0 <= f -> VerifyNode calc sha3 f h' (Some i) = Ok (n_hash n).
Proof. exact (newtree_nodes calc sha3 fuel h pl h' t i n). Qed.
Print Assumptions C71_node_hashes.

(** CalculateNodeHash on any heap: the payload hash of a leaf; for an inner node the
    hash of what its children store. *)
Theorem C71_calculate_node_hash {P} (calc : P -> res bytes) sha3 (h : heap P) p x :
  CalculateNodeHash calc sha3 h p = Ok x <-> node_value calc sha3 h p x.
Proof. symmetry. apply node_value_iff. Qed.
Print Assumptions C71_calculate_node_hash.

Example C71_ex : exists h t n, NewTree ex_calc ex_sha 5 [] [ex_a; ex_b; ex_c; ex_a] = Some (h, Ok t) /\
  t_root t = Some 6 /\ nth_error h 6 = Some n /\ ex_a <> n_hash n /\
  VerifyContent ex_calc ex_sha 5 h t (Some ex_b) = Ok true /\
  VerifyContent ex_calc ex_sha 5 (upd h 6 (with_hash n ex_a)) t (Some ex_b) = Ok false /\
  VerifyTree ex_calc ex_sha 5 h (mkTree (t_root t) ex_a (t_leaves t)) = Ok false /\
  (* the second leaf replaced *)
  exists m, nth_error h 1 = Some m /\
    VerifyContent ex_calc ex_sha 5 (upd h 1 (with_data m (repeat Byte.x0d 32))) t (Some (repeat Byte.x0d 32)) = Ok false.
Proof.
  do 3 eexists. split; [vm_compute; reflexivity|]. split; [reflexivity|]. split; [reflexivity|].
  split; [discriminate|]. split; [vm_compute; reflexivity|]. split; [vm_compute; reflexivity|].
  split; [vm_compute; reflexivity|]. eexists. split; [reflexivity|vm_compute; reflexivity].
Qed.
