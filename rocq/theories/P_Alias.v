(** Properties C81-C84: slices that share memory *)
From Coq Require Import String ZArith List Lia Bool Arith.
From Coq Require Import Init.Byte.
From Verif Require Import GoModel GoFacts Fld Rist RistInst SliceModel SliceFacts VectorModel PedersenModel GlobModel RangeProofModel SpecHonest
  SpecPedersen AliasModel SpecAlias AliasFacts.
Import ListNotations.
Local Open Scope nat_scope.

(** ** C81.  Prove overwrites what follows the slice of values. *)
(** The outcome is that for the values; of the existing memory only the next [overwritten v] elements change. *)
Theorem C81_memory R slack mm v debug rs m : slice_ok mm v ->
  exists mm', grun (ProveMem R slack mm v debug rs) m =
    ((mm', fst (grun (Prove R (contents mm v) debug rs) m)), snd (grun (Prove R (contents mm v) debug rs) m)) /\
    length mm <= length mm' /\
    forall a i, a < length mm -> nth_error (array mm' a) i =
      if Nat.eqb a (s_arr v) && Nat.leb (s_off v + s_len v) i && Nat.ltb i (s_off v + s_len v + overwritten v)
      then Some f0 else nth_error (array mm a) i.
Proof. exact (ProveMem_spec slack mm v debug rs m). Qed.
Print Assumptions C81_memory.
(** Proving the first n of some amounts sets the following ones to zero, up to the next power of two. *)
Theorem C81_prefix R slack mm w n debug rs m : slice_ok mm w -> n <= s_len w ->
  let v := upto w n in let k := min (overwritten v) (s_len w - n) in
  exists mm', fst (fst (grun (ProveMem R slack mm v debug rs) m)) = mm' /\ slice_ok mm' w /\
    contents mm' w = firstn n (contents mm w) ++ repeat f0 k ++ skipn (n + k) (contents mm w).
Proof. exact (ProveMem_prefix slack mm w n debug rs m). Qed.
Print Assumptions C81_prefix.
(** So a proof for all amounts made afterwards is one for other amounts. *)
Theorem C81_arguments_kept_refuted R : ~ (forall slack mm w n debug rs m, slice_ok mm w -> n <= s_len w ->
  contents (fst (fst (grun (ProveMem R slack mm (upto w n) debug rs) m))) w = contents mm w).
Proof.
  intros H. pose (w := mkSlice 0 0 4 4). pose (mm := [[f1; f1; f1; f1]] : mem F).
  assert (OKw : slice_ok mm w) by (unfold slice_ok, mm, w; cbn; lia).
  specialize (H (fun _ => 0) mm w 3 false (fun _ => f0) 0%Z OKw ltac:(cbn; lia)).
  destruct (ProveMem_prefix (R := R) (fun _ => 0) mm w 3 false (fun _ => f0) 0%Z OKw ltac:(cbn; lia)) as [mm' [E [_ C]]].
  rewrite E in H. rewrite H in C. apply (f_equal (fun l => nth_error l 3)) in C.
  change (min (overwritten (upto w 3)) (s_len w - 3)) with 1 in C. change (Some f1 = Some f0) in C. apply f1_neq_f0. congruence.
Qed.
Print Assumptions C81_arguments_kept_refuted.
Example C81_ex : let w := mkSlice 0 1 5 6 in let mm := [[of_Z 9; of_Z 1; of_Z 2; of_Z 3; of_Z 4; of_Z 5; of_Z 6]] in
  slice_ok mm w /\ overwritten (upto w 3) = 1 /\ overwritten (upto w 5) = 1 /\
  map to_Z (contents (fst (pad_mem (fun _ => 0) 1 mm (upto w 3))) w) = [1; 2; 3; 0; 5]%Z.
Proof. cbv zeta. split; [unfold slice_ok; cbn; lia|]. split; [reflexivity|]. split; [reflexivity|]. vm_compute. reflexivity. Qed.

(** ** C82.  Results of the vector operations. *)
(** Nothing that exists is changed; the result has the right elements and is new memory, except that
    SubScalar by zero and Neg of an empty slice return the argument. *)
Theorem C82_results m a o : slice_ok m a ->
  exists x, fst (vec_mem m a o) = m ++ x /\
  match snd (vec_mem m a o), vop_list m (contents m a) o with
  | Ok s, Ok l => contents (m ++ x) s = l /\ slice_ok (m ++ x) s /\
      ((returns_argument a o /\ s = a) \/ (~ returns_argument a o /\ s_arr s = length m))
  | Err e, Err e' => e = e'
  | Panic, Panic => True
  | _, _ => False
  end.
Proof. exact (vec_mem_spec m a o). Qed.
Print Assumptions C82_results.
(** Writing to a result that is new memory changes no other slice, *)
Theorem C82_independent m a o s i x m' : slice_ok m a -> snd (vec_mem m a o) = Ok s -> store (fst (vec_mem m a o)) s i x = Some m' ->
  ~ returns_argument a o -> forall t, slice_ok m t -> contents m' t = contents m t.
Proof. exact (vec_mem_write m a o s i x m'). Qed.
Print Assumptions C82_independent.
(** but writing to SubScalar(a, 0) changes a. *)
Theorem C82_shared m a i x : slice_ok m a -> i < s_len a ->
  vec_mem m a (VSubScalar f0) = (m, Ok a) /\ exists m', store m a i x = Some m' /\ contents m' a = upd (contents m a) i x.
Proof. intros OKa L. split; [cbn [vec_mem]; rewrite feqb_refl; reflexivity|]. exact (store_self m a i x OKa L). Qed.
Print Assumptions C82_shared.
(** SplitScalars and SplitPoints return two windows of their argument; appending to the first overwrites the second. *)
Theorem C82_split {E} (m : mem E) x n : slice_ok m x -> (0 <= n)%Z ->
  match split_mem x n, Split (contents m x) n with
  | Ok (a, b), Ok (la, lb) => contents m a = la /\ contents m b = lb /\ slice_ok m a /\ slice_ok m b /\ 0 < s_len b /\
      s_arr a = s_arr x /\ s_off a = s_off x /\ s_arr b = s_arr x /\ s_off b = s_off x + s_len a /\ s_cap a = s_cap x
  | Err e, Err e' => e = e'
  | _, _ => False
  end.
Proof. exact (split_mem_spec m x n). Qed.
Print Assumptions C82_split.
Theorem C82_split_append {E} (zero : E) m x n a b y slack : slice_ok m x -> (0 <= n)%Z -> split_mem x n = Ok (a, b) ->
  contents (fst (append zero slack m a [y])) b = y :: tl (contents m b).
Proof. exact (split_append zero m x n a b y slack). Qed.
Print Assumptions C82_split_append.
Example C82_ex : let m := [[of_Z 1; of_Z 2; of_Z 3]] in let a := mkSlice 0 0 3 3 in
  slice_ok m a /\ split_mem a 2 = Ok (mkSlice 0 0 2 3, mkSlice 0 2 1 1) /\
  map to_Z (contents (fst (append f0 0 m (mkSlice 0 0 2 3) [of_Z 7])) (mkSlice 0 2 1 1)) = [7]%Z /\
  match vec_mem m a (VAdd a) with (m', Ok s) => map to_Z (contents m' s) = [2; 4; 6]%Z /\ s_arr s = 1 | _ => False end.
Proof. cbv zeta. split; [unfold slice_ok; cbn; lia|]. split; [reflexivity|]. vm_compute. auto. Qed.

(** ** C83.  Transcripts and key lists in shared memory. *)
(** Append to a HashCacher concatenates; slices obtained earlier from Result (or anything else that does not lie
    in the spare room) keep their contents, also when more is appended later. *)
Theorem C83_append slack vals m h : slice_ok m h ->
  let m' := fst (hc_append_mem slack m h vals) in let h' := snd (hc_append_mem slack m h vals) in
  slice_ok m' h' /\ contents m' h' = contents m h ++ concat vals /\ length m <= length m' /\
  forall t, slice_ok m t -> clear_of h t -> contents m' t = contents m t /\ slice_ok m' t /\ clear_of h' t.
Proof. exact (hc_append_mem_spec slack vals m h). Qed.
Print Assumptions C83_append.
Theorem C83_result_kept slack vals m h : slice_ok m h -> contents (fst (hc_append_mem slack m h vals)) h = contents m h.
Proof. intros OKh. apply (hc_append_mem_spec slack vals m h OKh); [exact OKh|]. intros _. left. lia. Qed.
Print Assumptions C83_result_kept.
(** Clear starts in new memory: what was returned by Result stays. *)
Theorem C83_clear slack vals m h : slice_ok m h ->
  let m0 := fst (hc_clear_mem m) in let h0 := snd (hc_clear_mem m) in
  contents (fst (hc_append_mem slack m0 h0 vals)) h = contents m h /\
  contents (fst (hc_append_mem slack m0 h0 vals)) (snd (hc_append_mem slack m0 h0 vals)) = concat vals.
Proof. exact (clear_append slack vals m h). Qed.
Print Assumptions C83_clear.
(** A copy of the struct shares memory: with spare room, appending to the copy overwrites what was appended to the
    original; without, the two are independent. *)
Theorem C83_copies {E} (zero : E) slack m s x y : slice_ok m s -> s_len s + length x <= s_cap s -> s_len s + length y <= s_cap s ->
  let h1 := snd (append zero slack m s x) in let m1 := fst (append zero slack m s x) in
  let m2 := fst (append zero slack m1 s y) in
  contents m1 h1 = contents m s ++ x /\ contents m2 h1 = contents m s ++ firstn (length x) y ++ skipn (length y) x.
Proof. intros OKs LX LY. split; [exact (append_contents zero slack m s x OKs)|exact (append_window zero slack m s x y OKs LX LY)]. Qed.
Print Assumptions C83_copies.
Theorem C83_copies_full {E} (zero : E) slack m s x y : slice_ok m s -> s_cap s = s_len s -> x <> [] -> y <> [] ->
  let m1 := fst (append zero slack m s x) in let h1 := snd (append zero slack m s x) in
  let m2 := fst (append zero slack m1 s y) in let h2 := snd (append zero slack m1 s y) in
  contents m2 h1 = contents m s ++ x /\ contents m2 h2 = contents m s ++ y.
Proof. exact (copies_tight zero slack m s x y). Qed.
Print Assumptions C83_copies_full.
(** For PubKeys: after AddPubKey(k1) to one copy and AddPubKey(k2) to another both end with k2. *)
Theorem C83_pubkeys R slack (m : mem (pt R)) s k1 k2 : slice_ok m s -> s_len s < s_cap s ->
  let keys1 := snd (append (pt0 R) slack m s [k1]) in let m1 := fst (append (pt0 R) slack m s [k1]) in
  let keys2 := snd (append (pt0 R) slack m1 s [k2]) in let m2 := fst (append (pt0 R) slack m1 s [k2]) in
  contents m2 keys1 = contents m s ++ [k2] /\ contents m2 keys2 = contents m s ++ [k2].
Proof. exact (pubkeys_copies (pt0 R) slack m s k1 k2). Qed.
Print Assumptions C83_pubkeys.
Example C83_ex : let m := [[x01; x02; x00; x00]] in let h := mkSlice 0 0 2 4 in
  slice_ok m h /\ (let (m1, h1) := hc_append_mem (fun _ => 0) m h [[x07]] in let (m2, h2) := hc_append_mem (fun _ => 0) m1 h [[x08; x09]] in
  contents m1 h1 = [x01; x02; x07] /\ contents m2 h1 = [x01; x02; x08] /\ contents m2 h2 = [x01; x02; x08; x09]).
Proof. cbv zeta. split; [unfold slice_ok; cbn; lia|]. vm_compute. auto. Qed.

(** ** C84.  Generators read their data late. *)
(** CommitToVectors commits as if it had its own copy of GenData, but writes the last label into the
    element after GenData, if there is spare capacity and more than one vector. *)
Theorem C84_commit R slack m s bases blind vs : slice_ok m s ->
  match pm_CommitToVectors R slack m (mkPM R s s bases) blind vs, CommitToVectors R (pm_at R m (mkPM R s s bases)) blind vs with
  | Ok (m', p', c'), Ok (p, c) => c' = c /\ p' = mkPM R s s (g_bases R (p_gens R p)) /\ slice_ok m' s /\ contents m' s = contents m s /\ labelled m m' s (length vs)
  | Err e, Err e' => e = e'
  | Panic, Panic => True
  | _, _ => False
  end.
Proof. exact (pm_CommitToVectors_spec slack m s bases blind vs). Qed.
Print Assumptions C84_commit.
(** So another Pedersen object on GenData with one more byte in place (label x) loses its label ... *)
Theorem C84_label_lost R slack m s bases blind vs m' p' c x slk : slice_ok m s -> s_len s < s_cap s -> 2 <= length vs ->
  let m1 := fst (append x00 slk m s [x]) in let t := snd (append x00 slk m s [x]) in
  pm_CommitToVectors R slack m1 (mkPM R s s bases) blind vs = Ok (m', p', c) ->
  contents m1 t = contents m s ++ [x] /\ contents m' t = contents m s ++ [Z_byte (Z.of_nat (length vs - 1))].
Proof. exact (pm_overwrites slack m s bases blind vs m' p' c x slk). Qed.
Print Assumptions C84_label_lost.
(** ... and, unless it computed generators before, derives them from the data of that moment. *)
Theorem C84_late R m s n p : 1 <= n -> pm_Compute R m (pm_New R s) n = Ok p ->
  nth_error (pm_bases R p) 0 = Some (pderive R (contents m s)).
Proof. exact (compute_late m s n p). Qed.
Print Assumptions C84_late.
(** Generators that follow continue from the last one there is, whatever the caller's bytes are by then. *)
Theorem C84_more R m s data k n : 1 <= k ->
  pm_Compute R m (mkPM R s s (chain R data k)) n = Ok (mkPM R s s (chain R data (k + n))).
Proof. exact (compute_more m s data k n). Qed.
Print Assumptions C84_more.
Example C84_ex : let m := [[x01; x00; x00]] in let s := mkSlice 0 0 1 3 in
  slice_ok m s /\ s_len s < s_cap s /\
  let (m1, t) := append x00 0 m s [x07] in
  match pm_CommitToVectors tiny (fun _ => 0) m1 (pm_New tiny s) f1 [[f1]; [f1]] with
  | Ok (m', _, _) => contents m1 t = [x01; x07] /\ contents m' t = [x01; x01] | _ => False end.
Proof. cbv zeta. split; [unfold slice_ok; cbn; lia|]. split; [cbn; lia|]. vm_compute. auto. Qed.
