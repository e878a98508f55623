(** Proofs about SliceModel.v *)
From Coq Require Import String ZArith List Arith Lia Bool.
From Verif Require Import GoModel GoFacts SliceModel MerkleModel SpecMerkle MerkleFacts.
Import ListNotations.

Section MemFacts.
Context {E : Type}.
Implicit Types (m : mem E) (s : slice).
Definition slice_ok m s : Prop :=
  s_arr s < length m /\ s_len s <= s_cap s /\ s_off s + s_cap s <= length (array m (s_arr s)).

Lemma contents_length m s : slice_ok m s -> length (contents m s) = s_len s.
Proof.
  intros [A [B C]]. unfold contents. rewrite firstn_length, skipn_length. lia.
Qed.

Lemma array_app m x a : a < length m -> array (m ++ x) a = array m a.
Proof. intros L. unfold array. apply app_nth1. exact L. Qed.

Lemma nth_upd {A} (l : list A) i a d j : i < length l ->
  nth j (upd l i a) d = if Nat.eqb j i then a else nth j l d.
Proof.
  revert i j. induction l as [|x l IH]; intros [|i] [|j] L; cbn in *; try lia; try reflexivity.
  apply IH. lia.
Qed.
Lemma array_upd m i a j : i < length m -> array (upd m i a) j = if Nat.eqb j i then a else array m j.
Proof. apply nth_upd. Qed.

Lemma overwrite_length (arr : list E) pos data : pos + length data <= length arr ->
  length (overwrite arr pos data) = length arr.
Proof.
  intros L. unfold overwrite. rewrite !app_length, firstn_length, skipn_length. lia.
Qed.

Lemma overwrite_nil (arr : list E) pos : overwrite arr pos [] = arr.
Proof. unfold overwrite. cbn [length app]. rewrite Nat.add_0_r. apply firstn_skipn. Qed.

Lemma upd_same_id {A} (l : list A) i d : upd l i (nth i l d) = l.
Proof. revert i. induction l as [|x l IH]; intros [|i]; cbn; congruence. Qed.

Lemma append_contents (zero : E) slack m s data : slice_ok m s ->
  contents (fst (append zero slack m s data)) (snd (append zero slack m s data)) = contents m s ++ data.
Proof.
  intros OKs. pose proof OKs as [A [B C]]. pose proof (contents_length m s OKs) as CL.
  unfold append. destruct (Nat.leb_spec (s_len s + length data) (s_cap s)) as [L|L]; cbn [fst snd].
  - unfold contents at 1. cbn [s_arr s_off s_len]. rewrite array_upd, Nat.eqb_refl by assumption.
    unfold overwrite. rewrite skipn_app, firstn_length, Nat.min_l by lia.
    replace (s_off s - (s_off s + s_len s)) with 0 by lia. cbn [skipn].
    assert (Q : skipn (s_off s) (firstn (s_off s + s_len s) (array m (s_arr s))) = contents m s).
    { unfold contents. symmetry. apply firstn_skipn_comm. }
    rewrite Q, firstn_app, CL. rewrite firstn_all2 by lia. f_equal.
    rewrite firstn_app. replace (s_len s + length data - s_len s) with (length data) by lia.
    rewrite Nat.sub_diag, firstn_all. cbn [firstn]. apply app_nil_r.
  - unfold contents at 1. cbn [s_arr s_off s_len]. unfold array. rewrite app_nth2 by lia.
    rewrite Nat.sub_diag. cbn [nth skipn]. rewrite app_assoc, firstn_app, app_length, CL.
    rewrite Nat.sub_diag. cbn [firstn]. rewrite app_nil_r. apply firstn_all2. rewrite app_length. lia.
Qed.

(** no spare room: nothing that existed changes *)
Lemma append_no_spare (zero : E) slack m s data : slice_ok m s ->
  s_cap s < s_len s + length data \/ data = [] ->
  exists x, fst (append zero slack m s data) = m ++ x.
Proof.
  intros [A [B C]] H. unfold append.
  destruct (Nat.leb_spec (s_len s + length data) (s_cap s)) as [L|L]; cbn [fst].
  - destruct H as [H| ->]; [lia|]. exists []. rewrite overwrite_nil, app_nil_r. apply upd_same_id.
  - eexists. reflexivity.
Qed.

(** enough spare room: the bytes after the slice are overwritten, nothing else *)
Lemma append_spare (zero : E) slack m s data : slice_ok m s -> s_len s + length data <= s_cap s ->
  let m' := fst (append zero slack m s data) in
  length m' = length m /\
  (forall a, a <> s_arr s -> array m' a = array m a) /\
  length (array m' (s_arr s)) = length (array m (s_arr s)) /\
  firstn (s_off s + s_len s) (array m' (s_arr s)) = firstn (s_off s + s_len s) (array m (s_arr s)) /\
  firstn (length data) (skipn (s_off s + s_len s) (array m' (s_arr s))) = data /\
  skipn (s_off s + s_len s + length data) (array m' (s_arr s)) =
    skipn (s_off s + s_len s + length data) (array m (s_arr s)).
Proof.
  intros [A [B C]] L. unfold append.
  destruct (Nat.leb_spec (s_len s + length data) (s_cap s)) as [_|L']; [|lia]. cbn [fst].
  split; [apply upd_length|].
  assert (Q : forall a, a <> s_arr s ->
     array (upd m (s_arr s) (overwrite (array m (s_arr s)) (s_off s + s_len s) data)) a = array m a).
  { intros a Ha. rewrite array_upd by assumption. destruct (Nat.eqb_spec a (s_arr s)); [contradiction|reflexivity]. }
  split; [exact Q|]. rewrite array_upd, Nat.eqb_refl by assumption.
  set (arr := array m (s_arr s)) in *. set (pos := s_off s + s_len s) in *.
  assert (LP : pos + length data <= length arr) by (unfold pos; lia).
  split; [apply overwrite_length; exact LP|]. unfold overwrite.
  assert (LF : length (firstn pos arr) = pos) by (rewrite firstn_length; lia).
  split; [|split].
  - rewrite firstn_app, LF, Nat.sub_diag. cbn [firstn]. rewrite app_nil_r.
    apply firstn_all2. lia.
  - rewrite skipn_app, LF, Nat.sub_diag. rewrite skipn_all2 by lia. cbn [app skipn].
    rewrite firstn_app, Nat.sub_diag. cbn [firstn]. rewrite app_nil_r. apply firstn_all2. lia.
  - rewrite skipn_app, LF. rewrite skipn_all2 by lia. cbn [app].
    replace (pos + length data - pos) with (length data) by lia.
    rewrite skipn_app, Nat.sub_diag. rewrite skipn_all2 by lia. reflexivity.
Qed.

Lemma contents_app m x s : slice_ok m s -> contents (m ++ x) s = contents m s.
Proof. intros [A _]. unfold contents. rewrite array_app by assumption. reflexivity. Qed.
Lemma slice_ok_app m x s : slice_ok m s -> slice_ok (m ++ x) s.
Proof.
  intros [A [B C]]. unfold slice_ok. rewrite array_app by assumption. rewrite app_length. repeat split; lia.
Qed.

End MemFacts.

(** slices without spare capacity *)
Definition tight (s : slice) : Prop := s_cap s = s_len s.

Section LevelFacts.
Context (sha3 : bytes -> bytes) (slack : nat).

Lemma pair_hash_tight m l r : slice_ok m l -> slice_ok m r -> tight l ->
  exists x, fst (pair_hash sha3 slack m l r) = m ++ x /\
    slice_ok (fst (pair_hash sha3 slack m l r)) (snd (pair_hash sha3 slack m l r)) /\
    tight (snd (pair_hash sha3 slack m l r)) /\
    contents (fst (pair_hash sha3 slack m l r)) (snd (pair_hash sha3 slack m l r)) =
      sha3 (contents m l ++ contents m r).
Proof.
  intros Ol Or Tl. unfold pair_hash.
  destruct (append_no_spare Byte.x00 slack m l (contents m r) Ol) as [x Hx].
  { rewrite (contents_length m r Or). unfold tight in Tl.
    destruct (s_len r) eqn:E; [right|left; lia].
    apply length_zero_iff_nil. rewrite (contents_length m r Or). exact E. }
  pose proof (append_contents Byte.x00 slack m l (contents m r) Ol) as HC.
  destruct (append Byte.x00 slack m l (contents m r)) as [m1 ph]. cbn [fst snd] in *. subst m1.
  unfold fresh. cbn [fst snd]. rewrite HC.
  set (d := sha3 (contents m l ++ contents m r)).
  exists (x ++ [d]). rewrite app_assoc. split; [reflexivity|].
  assert (AE : array ((m ++ x) ++ [d]) (length (m ++ x)) = d).
  { unfold array. rewrite app_nth2 by lia. rewrite Nat.sub_diag. reflexivity. }
  split; [|split].
  - unfold slice_ok. cbn [s_arr s_off s_len s_cap]. unfold mem, bytes in *. rewrite AE, (app_length (m ++ x)). cbn [length]. lia.
  - reflexivity.
  - unfold contents. cbn. unfold mem, bytes in *. rewrite AE. apply firstn_all.
Qed.

Lemma level_mem_tight nl : forall m, (forall s, In s nl -> slice_ok m s /\ tight s) ->
  exists x, fst (level_mem sha3 slack m nl) = m ++ x /\
    (forall s, In s (snd (level_mem sha3 slack m nl)) -> slice_ok (m ++ x) s /\ tight s) /\
    map (contents (m ++ x)) (snd (level_mem sha3 slack m nl)) = pair_up sha3 (map (contents m) nl).
Proof.
  induction nl as [|a|a b l IH] using pair_ind; intros m HS.
  - exists []. cbn. rewrite app_nil_r. repeat split; auto; intros; contradiction.
  - destruct (HS a (or_introl eq_refl)) as [Oa Ta].
    destruct (pair_hash_tight m a a Oa Oa Ta) as [x [E1 [E2 [E3 E4]]]].
    cbn [level_mem]. destruct (pair_hash sha3 slack m a a) as [m1 h]. cbn [fst snd] in *. subst m1.
    exists x. split; [reflexivity|]. split.
    + intros s [<-|[]]. auto.
    + cbn. rewrite E4. reflexivity.
  - destruct (HS a (or_introl eq_refl)) as [Oa Ta].
    destruct (HS b (or_intror (or_introl eq_refl))) as [Ob Tb].
    destruct (pair_hash_tight m a b Oa Ob Ta) as [x [E1 [E2 [E3 E4]]]].
    cbn [level_mem]. destruct (pair_hash sha3 slack m a b) as [m1 h]. cbn [fst snd] in *. subst m1.
    destruct (IH (m ++ x)) as [y [F1 [F2 F3]]].
    { intros s Hs. destruct (HS s (or_intror (or_intror Hs))). split; [apply slice_ok_app|]; assumption. }
    destruct (level_mem sha3 slack (m ++ x) l) as [m2 hs]. cbn [fst snd] in *. subst m2.
    exists (x ++ y). rewrite app_assoc. split; [reflexivity|]. split.
    + intros s [<-|Hs]; [|auto]. split; [apply slice_ok_app; exact E2|exact E3].
    + cbn [map pair_up]. rewrite F3, (contents_app (m ++ x) y h E2), E4. f_equal. f_equal.
      apply map_ext_in. intros s Hs. apply contents_app. apply (HS s). right. right. exact Hs.
Qed.

Lemma root_mem_tight fuel : forall m nl, (forall s, In s nl -> slice_ok m s /\ tight s) ->
  2 <= length nl <= fuel ->
  exists x s, root_mem sha3 slack fuel m nl = Some (m ++ x, s) /\
    merkle_root sha3 (map (contents m) nl) (contents (m ++ x) s).
Proof.
  induction fuel as [|fuel IH]; intros m nl HS L; [lia|].
  cbn [root_mem]. destruct (level_mem_tight nl m HS) as [x [E1 [E2 E3]]].
  destruct (level_mem sha3 slack m nl) as [m1 nodes]. cbn [fst snd] in *. subst m1.
  destruct (Nat.eqb_spec (length nl) 2) as [C|C].
  - destruct nl as [|a [|b [|c l]]]; try discriminate. cbn [map] in *.
    destruct nodes as [|n [|n' ns]]; try discriminate.
    exists x, n. split; [reflexivity|]. apply mr_done. cbn [map] in E3. rewrite <- E3. reflexivity.
  - assert (LN : length nodes = length (pair_up sha3 (map (contents m) nl))).
    { rewrite <- E3, map_length. reflexivity. }
    pose proof (pair_up_lt sha3 (map (contents m) nl)) as PL. rewrite map_length in PL.
    destruct (PL ltac:(lia)) as [P1 P2].
    destruct (IH (m ++ x) nodes E2) as [y [s [F1 F2]]]; [lia|].
    exists (x ++ y), s. rewrite app_assoc. split; [exact F1|].
    apply mr_step; [rewrite map_length; lia|]. rewrite <- E3. exact F2.
Qed.
End LevelFacts.
