(** Proofs about AliasModel.v *)
From Coq Require Import String ZArith List Arith Lia Bool.
From Coq Require Import Init.Byte.
From Verif Require Import GoModel GoFacts Fld Rist SliceModel SliceFacts VectorModel VectorFacts PedersenModel GlobModel GlobFacts InnerProductModel
  RangeProofModel SpecHonest RangeProps SpecPedersen PedersenFacts AliasModel SpecAlias.
Import ListNotations.
Local Open Scope nat_scope.

(** ** Slices *)
Section Slices.
Context {E : Type} (zero : E).
Implicit Types (m : mem E) (s t : slice).

Lemma nth_error_skipn {A} (l : list A) n i : nth_error (skipn n l) i = nth_error l (n + i).
Proof. revert l. induction n as [|n IH]; intros [|x l]; cbn; auto. now destruct i. Qed.
Lemma nth_error_firstn {A} (l : list A) n i : nth_error (firstn n l) i = if Nat.ltb i n then nth_error l i else None.
Proof.
  revert l i. induction n as [|n IH]; intros l i; [cbn; destruct i; reflexivity|]. destruct l as [|x l].
  - rewrite firstn_nil. destruct (Nat.ltb i (S n)); destruct i; reflexivity.
  - destruct i as [|i]; [reflexivity|]. cbn [firstn nth_error]. rewrite IH. reflexivity.
Qed.
Lemma contents_nth m s i : nth_error (contents m s) i = if Nat.ltb i (s_len s) then nth_error (array m (s_arr s)) (s_off s + i) else None.
Proof. unfold contents. rewrite nth_error_firstn, nth_error_skipn. reflexivity. Qed.
Lemma overwrite_nth (arr : list E) pos data i : pos + length data <= length arr ->
  nth_error (overwrite arr pos data) i =
  if Nat.leb pos i && Nat.ltb i (pos + length data) then nth_error data (i - pos) else nth_error arr i.
Proof.
  intros L. unfold overwrite. assert (LF : length (firstn pos arr) = pos) by (rewrite firstn_length; lia).
  destruct (Nat.leb_spec pos i) as [C|C]; cbn [andb].
  - rewrite nth_error_app2 by lia. rewrite LF. destruct (Nat.ltb_spec i (pos + length data)) as [D|D].
    + apply nth_error_app1. lia.
    + rewrite nth_error_app2 by lia. rewrite nth_error_skipn. f_equal. lia.
  - rewrite nth_error_app1 by lia. rewrite nth_error_firstn. destruct (Nat.ltb_spec i pos); [reflexivity|lia].
Qed.
(** what append does to the arrays that exist *)
Lemma append_arrays slack m s data : slice_ok m s ->
  let m' := fst (append zero slack m s data) in let s' := snd (append zero slack m s data) in
  slice_ok m' s' /\ s_len s' = s_len s + length data /\ length m <= length m' /\
  (if Nat.leb (s_len s + length data) (s_cap s) then s_arr s' = s_arr s /\ s_off s' = s_off s /\ s_cap s' = s_cap s
   else s_arr s' = length m) /\
  forall a i, a < length m -> nth_error (array m' a) i =
    if Nat.eqb a (s_arr s) && Nat.leb (s_len s + length data) (s_cap s) && Nat.leb (s_off s + s_len s) i && Nat.ltb i (s_off s + s_len s + length data)
    then nth_error data (i - (s_off s + s_len s)) else nth_error (array m a) i.
Proof.
  intros OKs. pose proof OKs as [A [B C]]. pose proof (contents_length m s OKs) as CL. cbv zeta. unfold append.
  destruct (Nat.leb_spec (s_len s + length data) (s_cap s)) as [L|L]; cbn [fst snd].
  - split; [|split; [reflexivity|split; [rewrite upd_length; lia|split; [auto|]]]].
    + unfold slice_ok. cbn [s_arr s_off s_len s_cap]. rewrite upd_length, array_upd, Nat.eqb_refl by assumption.
      rewrite overwrite_length by lia. lia.
    + intros a i Ha. rewrite array_upd by assumption. destruct (Nat.eqb_spec a (s_arr s)) as [->|N]; cbn [andb]; [|reflexivity].
      apply overwrite_nth. lia.
  - split; [|split; [reflexivity|split; [rewrite app_length; lia|split; [reflexivity|]]]].
    + unfold slice_ok. cbn [s_arr s_off s_len s_cap]. rewrite app_length. cbn [length]. unfold array. rewrite app_nth2 by lia.
      rewrite Nat.sub_diag. cbn [nth]. rewrite !app_length, repeat_length, CL. lia.
    + intros a i Ha. rewrite array_app by exact Ha. rewrite andb_false_r. reflexivity.
Qed.
Lemma contents_ext m m' t : (forall i, i < s_len t -> nth_error (array m' (s_arr t)) (s_off t + i) = nth_error (array m (s_arr t)) (s_off t + i)) ->
  contents m' t = contents m t.
Proof.
  intros H. apply nth_error_ext. intros i. rewrite !contents_nth. destruct (Nat.ltb_spec i (s_len t)) as [L|L]; [|reflexivity]. apply H. exact L.
Qed.
Lemma append_keeps slack m s data t : slice_ok m s -> slice_ok m t -> clear_of s t ->
  contents (fst (append zero slack m s data)) t = contents m t /\ slice_ok (fst (append zero slack m s data)) t.
Proof.
  intros OKs OKt D. pose proof (append_arrays slack m s data OKs) as [_ [_ [Lm [_ H]]]]. cbv zeta in *. destruct OKt as [T1 [T2 T3]].
  assert (X : length (array (fst (append zero slack m s data)) (s_arr t)) = length (array m (s_arr t))).
  { destruct OKs as [A [B C]]. unfold append. destruct (Nat.leb_spec (s_len s + length data) (s_cap s)) as [L|L]; cbn [fst].
    - rewrite array_upd by assumption. destruct (Nat.eqb_spec (s_arr t) (s_arr s)) as [->|]; [apply overwrite_length; lia|reflexivity].
    - rewrite array_app by exact T1. reflexivity. }
  split.
  - apply contents_ext. intros i Hi. rewrite H by exact T1.
    destruct (Nat.eqb_spec (s_arr t) (s_arr s)) as [Q|Q]; cbn [andb]; [|reflexivity]. destruct (D Q) as [D1|D1].
    + destruct (Nat.leb_spec (s_off s + s_len s) (s_off t + i)); [lia|]. rewrite andb_false_r. reflexivity.
    + destruct (Nat.leb_spec (s_len s + length data) (s_cap s)); cbn [andb]; [|reflexivity].
      destruct (Nat.ltb_spec (s_off t + i) (s_off s + s_len s + length data)); [lia|]. rewrite andb_false_r. reflexivity.
  - unfold slice_ok. rewrite X. lia.
Qed.
Lemma append_snd slack m s data : slice_ok m s -> s_len (snd (append zero slack m s data)) = s_len s + length data.
Proof. intros H. pose proof (append_arrays slack m s data H) as [_ [X _]]. exact X. Qed.
Lemma clear_of_append slack m s data t : slice_ok m s -> s_arr t < length m -> clear_of s t -> clear_of (snd (append zero slack m s data)) t.
Proof.
  intros OKs L D. pose proof (append_arrays slack m s data OKs) as [_ [X [_ [S _]]]]. cbv zeta in *. intros Q. rewrite X.
  destruct (Nat.leb_spec (s_len s + length data) (s_cap s)) as [C|C].
  - destruct S as [S1 [S2 S3]]. rewrite S1 in Q. rewrite S2, S3. destruct (D Q); [left; lia|right; lia].
  - lia.
Qed.

(** stores *)
Lemma store_keeps m s i x m' t : slice_ok m s -> store m s i x = Some m' -> s_arr t <> s_arr s -> contents m' t = contents m t.
Proof.
  intros [A _] ES N. unfold store in ES. destruct (Nat.ltb i (s_len s)); [|discriminate]. injection ES as <-.
  unfold contents. rewrite array_upd by exact A. destruct (Nat.eqb_spec (s_arr t) (s_arr s)); [contradiction|reflexivity].
Qed.
Lemma store_self m s i x : slice_ok m s -> i < s_len s -> exists m', store m s i x = Some m' /\ contents m' s = upd (contents m s) i x.
Proof.
  intros OKs L. pose proof OKs as [A [B C]]. unfold store. destruct (Nat.ltb_spec i (s_len s)) as [_|]; [|lia]. eexists. split; [reflexivity|].
  apply nth_error_ext. intros j. rewrite contents_nth, array_upd, Nat.eqb_refl by exact A.
  destruct (Nat.eq_dec i j) as [<-|N].
  - rewrite (upd_same (contents m s)) by (rewrite contents_length; assumption). destruct (Nat.ltb_spec i (s_len s)); [|lia].
    apply upd_same. lia.
  - rewrite (upd_other (contents m s)) by exact N. rewrite upd_other by lia. rewrite contents_nth. reflexivity.
Qed.
Lemma append_window slack m s x y : slice_ok m s -> s_len s + length x <= s_cap s -> s_len s + length y <= s_cap s ->
  let h1 := snd (append zero slack m s x) in let m1 := fst (append zero slack m s x) in
  let m2 := fst (append zero slack m1 s y) in
  contents m2 h1 = contents m s ++ firstn (length x) y ++ skipn (length y) x.
Proof.
  intros OKs LX LY. cbv zeta. pose proof OKs as [A [B C]].
  pose proof (append_arrays slack m s x OKs) as [O1 [S1 [M1 [W1 H1]]]]. cbv zeta in *.
  pose proof (append_contents zero slack m s x OKs) as C1.
  set (m1 := fst (append zero slack m s x)) in *. set (h1 := snd (append zero slack m s x)) in *.
  destruct (Nat.leb_spec (s_len s + length x) (s_cap s)) as [_|]; [|lia]. destruct W1 as [W1 [W2 W3]].
  assert (OK1 : slice_ok m1 s). { destruct O1 as [P1 [P2 P3]]. rewrite W1, W2, W3 in *. split; [assumption|]. split; [lia|assumption]. }
  pose proof (append_arrays slack m1 s y OK1) as [_ [_ [_ [_ H2]]]]. cbv zeta in H2.
  apply nth_error_ext. intros i. rewrite contents_nth, S1, W1, W2, H2 by lia.
  destruct (Nat.leb_spec (s_len s + length y) (s_cap s)) as [_|]; [|lia]. rewrite Nat.eqb_refl. cbn [andb].
  pose proof (contents_length m s OKs) as CL.
  destruct (Nat.ltb_spec i (s_len s + length x)) as [L|L].
  2:{ symmetry. apply nth_error_None. rewrite !app_length, CL, firstn_length, skipn_length. lia. }
  assert (Q : nth_error (array m1 (s_arr s)) (s_off s + i) = nth_error (contents m s ++ x) i).
  { rewrite <- C1, contents_nth, S1, W1, W2. destruct (Nat.ltb_spec i (s_len s + length x)); [reflexivity|lia]. }
  rewrite Q. destruct (Nat.leb_spec (s_off s + s_len s) (s_off s + i)) as [D|D]; cbn [andb].
  - rewrite (nth_error_app2 (contents m s) x) by lia. rewrite (nth_error_app2 (contents m s)) by lia. rewrite CL.
    destruct (Nat.ltb_spec (s_off s + i) (s_off s + s_len s + length y)) as [G|G].
    + rewrite nth_error_app1 by (rewrite firstn_length; lia). rewrite nth_error_firstn.
      destruct (Nat.ltb_spec (i - s_len s) (length x)); [|lia]. f_equal. lia.
    + rewrite nth_error_app2 by (rewrite firstn_length; lia). rewrite firstn_length, nth_error_skipn. f_equal. lia.
  - rewrite !nth_error_app1 by lia. reflexivity.
Qed.
End Slices.

(** ** vector.go *)
Lemma fresh_facts (m : mem F) l : let (m', s) := fresh m l in
  m' = m ++ [l] /\ slice_ok m' s /\ contents m' s = l /\ s_arr s = length m.
Proof.
  unfold fresh. assert (AE : array (m ++ [l]) (length m) = l). { unfold array. rewrite app_nth2 by lia. rewrite Nat.sub_diag. reflexivity. }
  split; [reflexivity|]. split; [|split; [|reflexivity]].
  - unfold slice_ok. cbn [s_arr s_off s_len s_cap]. rewrite AE, app_length. cbn [length]. lia.
  - unfold contents. cbn [s_arr s_off s_len skipn]. rewrite AE. apply firstn_all.
Qed.
Lemma vec_mem_spec m a o : slice_ok m a ->
  exists x, fst (vec_mem m a o) = m ++ x /\
  match snd (vec_mem m a o), vop_list m (contents m a) o with
  | Ok s, Ok l => contents (m ++ x) s = l /\ slice_ok (m ++ x) s /\
      ((returns_argument a o /\ s = a) \/ (~ returns_argument a o /\ s_arr s = length m))
  | Err e, Err e' => e = e'
  | Panic, Panic => True
  | _, _ => False
  end.
Proof.
  intros OKa.
  assert (AL : forall r, exists x, fst (alloc m r) = m ++ x /\
    match snd (alloc m r), r with
    | Ok s, Ok l => contents (m ++ x) s = l /\ slice_ok (m ++ x) s /\ s_arr s = length m
    | Err e, Err e' => e = e' | Panic, Panic => True | _, _ => False end).
  { intros [l|e|]; cbn [alloc].
    - pose proof (fresh_facts m l) as FF. destruct (fresh m l) as [m' s]. destruct FF as [-> [F1 [F2 F3]]]. exists [l]. cbn [fst snd]. auto.
    - exists []. cbn. rewrite app_nil_r. auto.
    - exists []. cbn. rewrite app_nil_r. auto. }
  assert (N : ~ returns_argument a o -> vec_mem m a o = alloc m (vop_list m (contents m a) o)).
  { intros NR. destruct o as [b|b|b|b|b|b|]; cbn [vec_mem vop_list]; try reflexivity.
    - destruct (feqb_spec b f0) as [->|]; [|reflexivity]. exfalso. apply NR. left. reflexivity.
    - destruct (Nat.eqb_spec (s_len a) 0) as [Q|]; [|reflexivity]. exfalso. apply NR. right. auto. }
  assert (D : returns_argument a o \/ ~ returns_argument a o).
  { unfold returns_argument. destruct o as [b|b|b|b|b|b|]; try (right; intros [Q|[Q _]]; discriminate).
    - destruct (feqb_spec b f0) as [->|Q]; [left; auto|]. right. intros [X|[X _]]; [injection X; exact Q|discriminate].
    - destruct (Nat.eq_dec (s_len a) 0); [left; auto|]. right. intros [X|[_ X]]; [discriminate|contradiction]. }
  destruct D as [D|D].
  - exists []. rewrite app_nil_r. destruct D as [->|[-> Q]]; cbn [vec_mem vop_list]; unfold SubScalar, Neg.
    + rewrite feqb_refl. cbn [fst snd]. split; [reflexivity|]. split; [reflexivity|]. split; [exact OKa|]. left. split; [left; reflexivity|reflexivity].
    + rewrite Q, contents_length, Q by exact OKa. cbn [Nat.eqb fst snd]. split; [reflexivity|]. split; [reflexivity|]. split; [exact OKa|]. left. split; [right; auto|reflexivity].
  - rewrite (N D). destruct (AL (vop_list m (contents m a) o)) as [x [E1 E2]]. exists x. split; [exact E1|].
    destruct (snd (alloc m _)) as [s|e|], (vop_list m (contents m a) o) as [l|e'|]; try exact E2. destruct E2 as [P1 [P2 P3]]. auto.
Qed.
Lemma vec_mem_write m a o s i x m' : slice_ok m a -> snd (vec_mem m a o) = Ok s -> store (fst (vec_mem m a o)) s i x = Some m' ->
  ~ returns_argument a o -> forall t, slice_ok m t -> contents m' t = contents m t.
Proof.
  intros OKa ES EM NR t OKt. destruct (vec_mem_spec m a o OKa) as [y [E1 E2]]. rewrite ES in E2. rewrite E1 in EM.
  destruct (vop_list m (contents m a) o) as [l| |]; [|contradiction|contradiction]. destruct E2 as [_ [OKs [[R _]|[_ FR]]]]; [contradiction|].
  rewrite (store_keeps (m ++ y) s i x m' t OKs EM); [apply contents_app; exact OKt|]. destruct OKt as [T _]. lia.
Qed.
Lemma split_mem_spec {E} (m : mem E) x n : slice_ok m x -> (0 <= n)%Z ->
  match split_mem x n, Split (contents m x) n with
  | Ok (a, b), Ok (la, lb) => contents m a = la /\ contents m b = lb /\ slice_ok m a /\ slice_ok m b /\ 0 < s_len b /\
      s_arr a = s_arr x /\ s_off a = s_off x /\ s_arr b = s_arr x /\ s_off b = s_off x + s_len a /\ s_cap a = s_cap x
  | Err e, Err e' => e = e'
  | _, _ => False
  end.
Proof.
  intros OKx Hn. unfold split_mem, Split. rewrite (contents_length m x OKx).
  destruct (Nat.leb_spec (s_len x) 0) as [C|C]; [reflexivity|]. destruct (Z.leb_spec (u32 (Z.of_nat (s_len x))) n) as [D|D]; [reflexivity|].
  assert (L : Z.to_nat n < s_len x). { unfold u32 in D. pose proof (Z.mod_le (Z.of_nat (s_len x)) (2 ^ 32)). lia. }
  destruct OKx as [A [B CX]]. set (k := Z.to_nat n) in *. unfold slice_ok, upto, from. cbn [s_arr s_off s_len s_cap].
  repeat split; try lia.
  - unfold contents. cbn [s_arr s_off s_len]. rewrite firstn_firstn, Nat.min_l by lia. reflexivity.
  - unfold contents. cbn [s_arr s_off s_len]. apply nth_error_ext. intros i.
    rewrite nth_error_firstn, !nth_error_skipn, nth_error_firstn, nth_error_skipn.
    destruct (Nat.ltb_spec i (s_len x - k)), (Nat.ltb_spec (k + i) (s_len x)); try lia; f_equal; lia.
Qed.
(** appending to the first part overwrites the second *)
Lemma split_append {E} (zero : E) (m : mem E) x n a b y slack : slice_ok m x -> (0 <= n)%Z -> split_mem x n = Ok (a, b) ->
  contents (fst (append zero slack m a [y])) b = y :: tl (contents m b).
Proof.
  intros OKx Hn ES. pose proof (split_mem_spec m x n OKx Hn) as H. rewrite ES in H. destruct (Split (contents m x) n) as [[la lb]| |]; try contradiction.
  destruct H as (_ & _ & OKa & OKb & LB & A1 & A2 & A3 & A4 & A5).
  assert (LC : s_len a + 1 <= s_cap a).
  { rewrite A5. unfold split_mem in ES. destruct (Nat.leb _ _); [discriminate|]. destruct (Z.leb _ _); [discriminate|]. injection ES as <- <-. cbn in *. destruct OKx as [_ [? _]]. lia. }
  pose proof (append_arrays zero slack m a [y] OKa) as (_ & _ & _ & _ & H). cbv zeta in H.
  apply nth_error_ext. intros i. rewrite contents_nth. rewrite H by (destruct OKb; assumption). rewrite A3, A1, Nat.eqb_refl. cbn [length andb].
  destruct (Nat.leb_spec (s_len a + 1) (s_cap a)) as [_|]; [|lia]. cbn [andb].
  pose proof (contents_nth m b) as CB. rewrite A3 in CB. pose proof (contents_length m b OKb) as CL.
  destruct (contents m b) as [|b0 bl] eqn:EB; [cbn in CL; lia|]. cbn [tl].
  destruct i as [|i].
  - destruct (Nat.ltb_spec 0 (s_len b)) as [_|]; [|lia]. rewrite A4, A2.
    destruct (Nat.leb_spec (s_off x + s_len a) (s_off x + s_len a + 0)); [|lia].
    destruct (Nat.ltb_spec (s_off x + s_len a + 0) (s_off x + s_len a + 1)); [|lia]. cbn [andb].
    replace (s_off x + s_len a + 0 - (s_off x + s_len a)) with 0 by lia. reflexivity.
  - specialize (CB (S i)). cbn [nth_error] in *. rewrite CB. destruct (Nat.ltb_spec (S i) (s_len b)) as [L|L]; [|reflexivity].
    destruct (Nat.ltb_spec (s_off b + S i) (s_off a + s_len a + 1)); [lia|]. rewrite andb_false_r. reflexivity.
Qed.

(** ** fiatshamir.go *)
Lemma hc_append_mem_spec slack vals : forall m h, slice_ok m h ->
  let m' := fst (hc_append_mem slack m h vals) in let h' := snd (hc_append_mem slack m h vals) in
  slice_ok m' h' /\ contents m' h' = contents m h ++ concat vals /\ length m <= length m' /\
  forall t, slice_ok m t -> clear_of h t -> contents m' t = contents m t /\ slice_ok m' t /\ clear_of h' t.
Proof.
  induction vals as [|x vals IH]; intros m h OKh; cbn [hc_append_mem concat fst snd].
  - rewrite app_nil_r. repeat split; try apply OKh; try lia; auto; apply H.
  - pose proof (append_arrays x00 (slack (length vals)) m h x OKh) as [O1 [_ [L1 _]]]. cbv zeta in *.
    pose proof (append_contents x00 (slack (length vals)) m h x OKh) as C1.
    pose proof (fun t => append_keeps x00 (slack (length vals)) m h x t OKh) as K.
    pose proof (fun t => clear_of_append x00 (slack (length vals)) m h x t OKh) as CO.
    destruct (append x00 (slack (length vals)) m h x) as [m1 h1]. cbn [fst snd] in *.
    destruct (IH m1 h1 O1) as [I1 [I2 [I3 I4]]]. split; [exact I1|]. split; [rewrite I2, C1, <- app_assoc; reflexivity|]. split; [lia|].
    intros t OKt Ct. destruct (K t OKt Ct) as [K1 K2]. destruct (I4 t K2 (CO t (proj1 OKt) Ct)) as [J1 J2]. rewrite J1, K1. auto.
Qed.
Lemma append_tight {E} (zero : E) slack m s x : slice_ok m s -> s_cap s = s_len s -> x <> [] ->
  exists y, fst (append zero slack m s x) = m ++ [y] /\ s_arr (snd (append zero slack m s x)) = length m.
Proof.
  intros OKs T N. unfold append. destruct x as [|a x]; [congruence|]. cbn [length].
  destruct (Nat.leb_spec (s_len s + S (length x)) (s_cap s)) as [C|C]; [lia|]. cbn [fst snd]. eexists. split; reflexivity.
Qed.
(** copies without spare room are independent *)
Lemma copies_tight {E} (zero : E) slack m s x y : slice_ok m s -> s_cap s = s_len s -> x <> [] -> y <> [] ->
  let m1 := fst (append zero slack m s x) in let h1 := snd (append zero slack m s x) in
  let m2 := fst (append zero slack m1 s y) in let h2 := snd (append zero slack m1 s y) in
  contents m2 h1 = contents m s ++ x /\ contents m2 h2 = contents m s ++ y.
Proof.
  intros OKs T NX NY. cbv zeta. pose proof (append_arrays zero slack m s x OKs) as [O1 _]. cbv zeta in O1.
  pose proof (append_contents zero slack m s x OKs) as C1. destruct (append_tight zero slack m s x OKs T NX) as [z [EM EA]].
  destruct (append zero slack m s x) as [m1 h1]. cbn [fst snd] in *. subst m1.
  pose proof (slice_ok_app m [z] s OKs) as OK1. pose proof (append_contents zero slack (m ++ [z]) s y OK1) as C2.
  destruct (append_keeps zero slack (m ++ [z]) s y h1 OK1 O1) as [K _]. { intros Q. destruct OKs as [A _]. lia. }
  split; [rewrite K; exact C1|]. rewrite C2. f_equal. apply contents_app. exact OKs.
Qed.
Lemma fresh_ok {E} (m : mem E) l : slice_ok (fst (fresh m l)) (snd (fresh m l)) /\ contents (fst (fresh m l)) (snd (fresh m l)) = l.
Proof.
  unfold fresh. cbn [fst snd]. assert (AE : array (m ++ [l]) (length m) = l). { unfold array. rewrite app_nth2 by lia. rewrite Nat.sub_diag. reflexivity. }
  split.
  - unfold slice_ok. cbn [s_arr s_off s_len s_cap]. rewrite AE, app_length. cbn [length]. lia.
  - unfold contents. cbn [s_arr s_off s_len skipn]. rewrite AE. apply firstn_all.
Qed.
Lemma clear_append slack vals m h : slice_ok m h ->
  let m0 := fst (hc_clear_mem m) in let h0 := snd (hc_clear_mem m) in
  contents (fst (hc_append_mem slack m0 h0 vals)) h = contents m h /\
  contents (fst (hc_append_mem slack m0 h0 vals)) (snd (hc_append_mem slack m0 h0 vals)) = concat vals.
Proof.
  intros OKh m0 h0. destruct (fresh_ok m ([] : list byte)) as [O0 C0]. fold (hc_clear_mem m) in *. fold m0 h0 in O0, C0.
  destruct (hc_append_mem_spec slack vals m0 h0 O0) as [_ [C [_ K]]]. rewrite C, C0. split; [|reflexivity].
  assert (OK0 : slice_ok m0 h) by (unfold m0, hc_clear_mem, fresh; cbn [fst]; apply slice_ok_app; exact OKh).
  destruct (K h OK0) as [K1 _].
  - intros Q. exfalso. unfold h0, hc_clear_mem, fresh in Q. cbn in Q. destruct OKh as [A _]. lia.
  - rewrite K1. unfold m0, hc_clear_mem, fresh. cbn [fst]. apply contents_app. exact OKh.
Qed.
Lemma pubkeys_copies {E} (zero : E) slack m s k1 k2 : slice_ok m s -> s_len s < s_cap s ->
  let keys1 := snd (append zero slack m s [k1]) in let m1 := fst (append zero slack m s [k1]) in
  let keys2 := snd (append zero slack m1 s [k2]) in let m2 := fst (append zero slack m1 s [k2]) in
  contents m2 keys1 = contents m s ++ [k2] /\ contents m2 keys2 = contents m s ++ [k2].
Proof.
  intros OKs L. cbv zeta. split; [refine (append_window zero slack m s [k1] [k2] OKs _ _); cbn [length]; lia|].
  destruct (append_keeps zero slack m s [k1] s OKs OKs) as [K1 K2]; [intros _; left; lia|].
  rewrite (append_contents zero slack _ s [k2] K2), K1. reflexivity.
Qed.

(** ** rangeproof.go *)
Section Range.
Context {R : rist} (slack : nat -> nat).
Lemma pad_mem_spec k : forall (mm : mem F) v, slice_ok mm v ->
  let mm' := fst (pad_mem slack k mm v) in let v' := snd (pad_mem slack k mm v) in
  contents mm' v' = contents mm v ++ repeat f0 k /\ length mm <= length mm' /\
  forall a i, a < length mm -> nth_error (array mm' a) i =
    if Nat.eqb a (s_arr v) && Nat.leb (s_off v + s_len v) i && Nat.ltb i (s_off v + s_len v + min k (s_cap v - s_len v))
    then Some f0 else nth_error (array mm a) i.
Proof.
  induction k as [|k IH]; intros mm v OKv; cbn [pad_mem fst snd].
  - rewrite app_nil_r. split; [reflexivity|]. split; [lia|]. intros a i _. rewrite Nat.min_0_l, Nat.add_0_r.
    destruct (Nat.leb_spec (s_off v + s_len v) i), (Nat.ltb_spec i (s_off v + s_len v)); try lia; rewrite ?andb_false_r; reflexivity.
  - pose proof (append_arrays f0 (slack k) mm v [f0] OKv) as (O1 & S1 & L1 & W1 & H1). cbv zeta in *.
    pose proof (append_contents f0 (slack k) mm v [f0] OKv) as C1.
    destruct (append f0 (slack k) mm v [f0]) as [m1 v1]. cbn [fst snd length] in *.
    destruct (IH m1 v1 O1) as [I1 [I2 I3]]. split; [rewrite I1, C1, <- app_assoc; reflexivity|]. split; [lia|].
    intros a i Ha. rewrite I3, H1 by lia. destruct OKv as [A [B C]].
    destruct (Nat.leb_spec (s_len v + 1) (s_cap v)) as [D|D].
    + destruct W1 as [-> [-> ->]]. rewrite S1. destruct (Nat.eqb_spec a (s_arr v)) as [->|]; cbn [andb]; [|reflexivity].
      replace (s_cap v - (s_len v + 1)) with (s_cap v - s_len v - 1) by lia.
      destruct (Nat.leb_spec (s_off v + s_len v) i) as [G|G]; cbn [andb].
      * destruct (Nat.ltb_spec i (s_off v + s_len v + 1)) as [G2|G2].
        -- replace (i - (s_off v + s_len v)) with 0 by lia. cbn [nth_error].
           destruct (Nat.ltb_spec i (s_off v + s_len v + min (S k) (s_cap v - s_len v))); [|lia].
           destruct (_ && _); reflexivity.
        -- destruct (Nat.leb_spec (s_off v + (s_len v + 1)) i); [|lia]. cbn [andb].
           destruct (Nat.ltb_spec i (s_off v + (s_len v + 1) + min k (s_cap v - s_len v - 1))),
             (Nat.ltb_spec i (s_off v + s_len v + min (S k) (s_cap v - s_len v))); try lia; reflexivity.
      * destruct (Nat.leb_spec (s_off v + (s_len v + 1)) i); [lia|]. reflexivity.
    + rewrite W1. destruct (Nat.eqb_spec a (length mm)); [lia|]. rewrite andb_false_r. cbn [andb].
      replace (s_cap v - s_len v) with 0 by lia. rewrite Nat.min_0_r, Nat.add_0_r.
      destruct (Nat.leb_spec (s_off v + s_len v) i), (Nat.ltb_spec i (s_off v + s_len v)); try lia; rewrite ?andb_false_r; reflexivity.
Qed.
Lemma ProveMem_pad mm v debug rs m : 1 <= s_len v <= 16 ->
  grun (ProveMem R slack mm v debug rs) m =
  let mv := pad_mem slack (pad_size (s_len v) - s_len v) mm v in
  let r := grun (prove_padded R (contents (fst mv) (snd mv)) debug rs) (Z.of_nat (pad_size (s_len v))) in ((fst mv, fst r), snd r).
Proof.
  intros H. destruct (pad_cases (s_len v) H) as [EP [HP _]]. unfold ProveMem. revert EP. generalize (prove_padded R). generalize DiffNextPow2. intros diff pp EP. cbv zeta.
  destruct (Nat.ltb_spec (s_len v) 1) as [C|C]; [lia|]. cbn [grun].
  destruct (Z.ltb_spec maxM (Z.of_nat (s_len v))) as [D|D]; [unfold maxM in D; lia|]. cbn [grun]. rewrite EP, Nat2Z.id.
  destruct (pad_mem slack (pad_size (s_len v) - s_len v) mm v) as [mm' v']. cbn [fst snd].
  rewrite grun_bind. cbn [grun]. replace (Z.of_nat (s_len v) + Z.of_nat (pad_size (s_len v) - s_len v))%Z with (Z.of_nat (pad_size (s_len v))) by lia. reflexivity.
Qed.
Lemma ProveMem_spec mm v debug rs m : slice_ok mm v ->
  exists mm', grun (ProveMem R slack mm v debug rs) m =
    ((mm', fst (grun (Prove R (contents mm v) debug rs) m)), snd (grun (Prove R (contents mm v) debug rs) m)) /\
    length mm <= length mm' /\
    forall a i, a < length mm -> nth_error (array mm' a) i =
      if Nat.eqb a (s_arr v) && Nat.leb (s_off v + s_len v) i && Nat.ltb i (s_off v + s_len v + overwritten v)
      then Some f0 else nth_error (array mm a) i.
Proof.
  intros OKv. pose proof (contents_length mm v OKv) as CL. unfold overwritten.
  assert (Z0 : forall a i, nth_error (array mm a) i =
     if Nat.eqb a (s_arr v) && Nat.leb (s_off v + s_len v) i && Nat.ltb i (s_off v + s_len v + 0) then Some f0 else nth_error (array mm a) i).
  { intros a i. destruct (Nat.leb_spec (s_off v + s_len v) i), (Nat.ltb_spec i (s_off v + s_len v + 0)); try lia; rewrite ?andb_false_r; reflexivity. }
  destruct (Nat.leb_spec 1 (s_len v)) as [C|C].
  - destruct (Nat.leb_spec (s_len v) 16) as [L|L]; cbn [andb].
    + rewrite ProveMem_pad by lia. rewrite Prove_pad by lia. cbv zeta.
      pose proof (pad_mem_spec (pad_size (s_len v) - s_len v) mm v OKv) as [P1 [P2 P3]]. cbv zeta in *.
      rewrite P1. unfold padded. rewrite CL. eexists. split; [reflexivity|]. split; [exact P2|exact P3].
    + rewrite Prove_long by lia. exists mm. split; [|auto]. unfold ProveMem. generalize (prove_padded R). intros pp.
      destruct (Nat.ltb_spec (s_len v) 1); [lia|]. cbn [grun]. rewrite CL.
      destruct (Z.ltb_spec maxM (Z.of_nat (s_len v))) as [D|D]; [reflexivity|unfold maxM in D; lia].
  - cbn [andb]. exists mm. split; [|auto]. assert (Q : contents mm v = []) by (apply length_zero_iff_nil; lia). rewrite Q, Prove_empty.
    unfold ProveMem. destruct (Nat.ltb_spec (s_len v) 1); [reflexivity|lia].
Qed.
(** proving a prefix of w *)
Lemma ProveMem_prefix mm w n debug rs m : slice_ok mm w -> n <= s_len w ->
  let v := upto w n in let k := min (overwritten v) (s_len w - n) in
  exists mm', fst (fst (grun (ProveMem R slack mm v debug rs) m)) = mm' /\ slice_ok mm' w /\
    contents mm' w = firstn n (contents mm w) ++ repeat f0 k ++ skipn (n + k) (contents mm w).
Proof.
  intros OKw Hn v k. pose proof OKw as [A [B C]].
  assert (OKv : slice_ok mm v). { unfold v, slice_ok, upto. cbn [s_arr s_off s_len s_cap]. lia. }
  destruct (ProveMem_spec mm v debug rs m OKv) as [mm' [E [L H]]]. rewrite E. cbn [fst]. exists mm'. split; [reflexivity|].
  assert (LA : length (array mm' (s_arr w)) = length (array mm (s_arr w))).
  { assert (X : forall i, i < length (array mm' (s_arr w)) <-> i < length (array mm (s_arr w))).
    { intros i. rewrite <- !nth_error_Some. rewrite H by exact A. destruct (_ && _ && _) eqn:D; [|tauto].
      apply andb_prop in D as [D1 D3]. apply andb_prop in D1 as [D1 D2]. apply Nat.leb_le in D2. apply Nat.ltb_lt in D3.
      split; [|discriminate]. intros _. apply nth_error_Some. unfold v, upto in *. cbn [s_arr s_off s_len s_cap] in *.
      unfold overwritten in D3. cbn [s_arr s_off s_len s_cap] in D3. destruct (_ && _); lia. }
    destruct (Nat.lt_trichotomy (length (array mm' (s_arr w))) (length (array mm (s_arr w)))) as [Q|[Q|Q]]; [apply X in Q; lia|exact Q|apply X in Q; lia]. }
  assert (OK' : slice_ok mm' w). { unfold slice_ok. rewrite LA. lia. } split; [exact OK'|].
  pose proof (contents_length mm w OKw) as CL. apply nth_error_ext. intros i. rewrite contents_nth, H by exact A.
  unfold v, upto. cbn [s_arr s_off s_len s_cap]. fold (upto w n). fold v. rewrite Nat.eqb_refl. cbn [andb].
  assert (LF : length (firstn n (contents mm w)) = n) by (rewrite firstn_length; lia).
  destruct (Nat.ltb_spec i (s_len w)) as [G|G].
  2:{ symmetry. apply nth_error_None. rewrite !app_length, LF, repeat_length, skipn_length, CL. lia. }
  assert (Q : nth_error (array mm (s_arr w)) (s_off w + i) = nth_error (contents mm w) i).
  { rewrite contents_nth. destruct (Nat.ltb_spec i (s_len w)); [reflexivity|lia]. }
  rewrite Q. destruct (Nat.leb_spec (s_off w + n) (s_off w + i)) as [D|D]; cbn [andb].
  - rewrite nth_error_app2 by lia. rewrite LF. destruct (Nat.ltb_spec (s_off w + i) (s_off w + n + overwritten v)) as [J|J].
    + rewrite nth_error_app1 by (rewrite repeat_length; lia). symmetry. apply nth_error_repeat. lia.
    + rewrite nth_error_app2 by (rewrite repeat_length; lia). rewrite repeat_length, nth_error_skipn. f_equal. lia.
  - rewrite nth_error_app1 by lia. rewrite nth_error_firstn. destruct (Nat.ltb_spec i n); [reflexivity|lia].
Qed.
End Range.

(** ** pedersen.go *)
(** two runs of a loop, step by step *)
Definition res_rel {S T} (Q : S -> T -> Prop) (a : res S) (b : res T) : Prop :=
  match a, b with Ok s, Ok t => Q s t | Err e, Err e' => e = e' | Panic, Panic => True | _, _ => False end.
Lemma for_loop_rel {S T} (Q : nat -> S -> T -> Prop) f g n : forall lo s t,
  (forall i s t, lo <= i < lo + n -> Q i s t -> res_rel (Q (i + 1)) (f i s) (g i t)) -> Q lo s t ->
  res_rel (Q (lo + n)) (for_loop lo n f s) (for_loop lo n g t).
Proof.
  induction n as [|n IH]; intros lo s t H H0; cbn [for_loop]; [rewrite Nat.add_0_r; exact H0|].
  pose proof (H lo s t ltac:(lia) H0) as X. destruct (f lo s) as [s'|e|], (g lo t) as [t'|e'|]; cbn in X; try contradiction; cbn [bind]; auto.
  replace (lo + Datatypes.S n) with (Datatypes.S lo + n) by lia. apply IH.
  - intros i s0 t0 Hi. apply H. lia.
  - replace (Datatypes.S lo) with (lo + 1) by lia. exact X.
Qed.
Section Pedersen.
Context {R : rist} (slack : nat -> nat).
Lemma gen_Compute_data n : forall g g', gen_Compute R n g = Ok g' -> g_data R g' = g_data R g.
Proof.
  unfold gen_Compute. generalize 0. induction n as [|n IH]; intros lo g g' E; cbn [for_loop] in E; [congruence|].
  destruct (gen_Iterate R g) as [p|e|]; cbn [bind] in E; try discriminate. rewrite (IH (S lo) _ g' E). reflexivity.
Qed.
Lemma commit_shape p b v p' c : commitToScalars R p b v = Ok (p', c) ->
  p' = mkPed R (mkGen R (g_data R (p_gens R p)) (g_bases R (p_gens R p'))) (p_data R p) (p_blind R p) (p_base R p).
Proof.
  unfold commitToScalars. set (q := if Nat.ltb _ _ then _ else _). assert (Q : forall g, q = Ok g -> g_data R g = g_data R (p_gens R p)).
  { intros g. subst q. destruct (Nat.ltb _ _); [apply gen_Compute_data|congruence]. }
  clearbody q. destruct q as [g|e|]; cbn [bind]; try discriminate. destruct (for_loop _ _ _ _) as [s|e|]; cbn [bind]; try discriminate.
  intros E. injection E as <- _. cbn [p_gens]. rewrite <- (Q g eq_refl). destruct g. reflexivity.
Qed.
Lemma pm_CommitToVectors_spec m s bases blind vs : slice_ok m s ->
  match pm_CommitToVectors R slack m (mkPM R s s bases) blind vs, CommitToVectors R (pm_at R m (mkPM R s s bases)) blind vs with
  | Ok (m', p', c'), Ok (p, c) => c' = c /\ p' = mkPM R s s (g_bases R (p_gens R p)) /\ slice_ok m' s /\ contents m' s = contents m s /\ labelled m m' s (length vs)
  | Err e, Err e' => e = e'
  | Panic, Panic => True
  | _, _ => False
  end.
Proof.
  intros OKs. unfold pm_CommitToVectors, CommitToVectors.
  pose (Q := fun (i : nat) (st : mem byte * pedmem R * pt R) (st' : pedersen R * pt R) =>
    snd st = snd st' /\ (exists b, snd (fst st) = mkPM R s s b /\ fst st' = pm_at R m (mkPM R s s b)) /\
    slice_ok (fst (fst st)) s /\ contents (fst (fst st)) s = contents m s /\ labelled m (fst (fst st)) s i).
  match goal with |- context [for_loop 0 (length vs) ?f (m, mkPM R s s bases, pt0 R)] => set (F1 := f) end.
  match goal with |- context [for_loop 0 (length vs) ?f (pm_at R m (mkPM R s s bases), pt0 R)] => set (F2 := f) end.
  assert (X : res_rel (Q (0 + length vs)) (for_loop 0 (length vs) F1 (m, mkPM R s s bases, pt0 R)) (for_loop 0 (length vs) F2 (pm_at R m (mkPM R s s bases), pt0 R))).
  { apply for_loop_rel.
    - intros i [[m1 p1] s1] [p2 s2] Hi [E1 [[b [E2 E3]] [O1 [C1 L1]]]]. cbn [fst snd] in *. subst s2 p1 p2. unfold F1, F2.
      destruct (nth_error vs i) as [v|] eqn:Ev.
      2:{ apply nth_error_None in Ev. lia. }
      rewrite (proj2 (idx_Ok vs i v) Ev). cbn [bind]. destruct (Nat.eqb_spec i 0) as [->|Ni].
      + unfold pm_commit. replace (pm_at R m1 (mkPM R s s b)) with (pm_at R m (mkPM R s s b)) by (unfold pm_at; cbn [pm_data pm_gdata pm_bases]; rewrite C1; reflexivity).
        destruct (commitToScalars R (pm_at R m (mkPM R s s b)) (Some blind) v) as [[p' c]|e|] eqn:EC; cbn [bind]; try reflexivity.
        cbn [res_rel]. split; [reflexivity|]. cbn [fst snd pm_data pm_gdata]. split; [|split; [exact O1|split; [exact C1|]]].
        * eexists. split; [reflexivity|]. apply commit_shape in EC. rewrite EC. reflexivity.
        * destruct L1 as [L1 L2]. split; [exact L1|]. intros a j Ha. rewrite L2 by exact Ha. cbn [Nat.leb Nat.add]. rewrite !andb_false_r. reflexivity.
      + cbn [pm_data]. pose proof (append_arrays x00 (slack i) m1 s [Z_byte (Z.of_nat i)] O1) as (P1 & P2 & P3 & P4 & P5).
        pose proof (append_contents x00 (slack i) m1 s [Z_byte (Z.of_nat i)] O1) as PC.
        destruct (append_keeps x00 (slack i) m1 s [Z_byte (Z.of_nat i)] s O1 O1) as [K1 K2]; [intros _; left; lia|].
        cbv zeta in *. destruct (append x00 (slack i) m1 s [Z_byte (Z.of_nat i)]) as [m2 g]. cbn [fst snd length] in *.
        unfold pm_commit. replace (pm_at R m2 (pm_New R g)) with (ped_New R (p_data R (pm_at R m (mkPM R s s b)) ++ [Z_byte (Z.of_nat i)])).
        2:{ unfold pm_at, pm_New, ped_New, gen_New. cbn [pm_data pm_gdata pm_bases p_data]. rewrite PC, C1. reflexivity. }
        destruct (commitToScalars R (ped_New R _) None v) as [[p' c]|e|] eqn:EC; cbn [bind]; try reflexivity.
        cbn [res_rel]. split; [reflexivity|]. cbn [fst snd]. split; [eexists; split; reflexivity|].
        split; [exact K2|]. split; [rewrite K1; exact C1|]. destruct L1 as [L1 L2]. split; [lia|]. intros a j Ha. rewrite P5 by lia. rewrite L2 by exact Ha.
        destruct (Nat.leb_spec 2 (i + 1)) as [_|]; [|lia]. rewrite andb_true_r.
        destruct (Nat.eqb_spec a (s_arr s)) as [->|]; cbn [andb]; [|reflexivity].
        destruct (Nat.ltb_spec (s_len s) (s_cap s)) as [G|G].
        * destruct (Nat.leb_spec (s_len s + 1) (s_cap s)) as [_|]; [|lia]. cbn [andb].
          destruct (Nat.eqb_spec j (s_off s + s_len s)) as [->|NJ]; cbn [andb].
          -- destruct (Nat.leb_spec (s_off s + s_len s) (s_off s + s_len s)); [|lia].
             destruct (Nat.ltb_spec (s_off s + s_len s) (s_off s + s_len s + 1)); [|lia]. cbn [andb].
             rewrite Nat.sub_diag. cbn [nth_error]. repeat f_equal. lia.
          -- destruct (Nat.leb_spec (s_off s + s_len s) j); cbn [andb]; [|reflexivity].
             destruct (Nat.ltb_spec j (s_off s + s_len s + 1)); [lia|reflexivity].
        * destruct (Nat.leb_spec (s_len s + 1) (s_cap s)); [lia|]. cbn [andb]. rewrite !andb_false_r. reflexivity.
    - split; [reflexivity|]. cbn [fst snd]. split; [eexists; split; reflexivity|]. split; [exact OKs|]. split; [reflexivity|].
      split; [lia|]. intros a j Ha. cbn [Nat.leb]. rewrite andb_false_r. reflexivity. }
  clearbody F1 F2. destruct (for_loop 0 (length vs) F1 _) as [[[m' p'] s1]|e|], (for_loop 0 (length vs) F2 _) as [[p s2]|e'|]; cbn [res_rel] in X; try contradiction; cbn [bind]; auto.
  destruct X as [E1 [[b [E2 E3]] [O1 [C1 L1]]]]. cbn [fst snd] in *. subst. cbn [pm_at p_gens g_bases pm_bases]. auto.
Qed.
Lemma compute_late m s n p : 1 <= n -> pm_Compute R m (pm_New R s) n = Ok p ->
  nth_error (pm_bases R p) 0 = Some (pderive R (contents m s)).
Proof.
  intros Hn. unfold pm_Compute. destruct (gen_Compute R n _) as [g|e|] eqn:E; cbn [bind]; try discriminate. intros Q. injection Q as <-. cbn [pm_bases].
  destruct n as [|n]; [lia|]. unfold gen_Compute in E. cbn [for_loop] in E. unfold gen_Iterate at 1 in E. cbn [pm_at p_gens g_bases pm_New pm_bases length Nat.eqb bind g_data app pm_gdata] in E.
  assert (X : forall k lo g0 g1, nth_error (g_bases R g0) 0 = Some (pderive R (contents m s)) ->
     for_loop lo k (fun _ g => let! p := gen_Iterate R g in Ok (mkGen R (g_data R g) (g_bases R g ++ [p]))) g0 = Ok g1 ->
     nth_error (g_bases R g1) 0 = Some (pderive R (contents m s))).
  { induction k as [|k IH]; intros lo g0 g1 H0 E1; cbn [for_loop] in E1; [congruence|].
    destruct (gen_Iterate R g0) as [q|e|]; cbn [bind] in E1; try discriminate. apply (IH _ _ _) in E1; [exact E1|]. cbn [g_bases].
    rewrite nth_error_app1; [exact H0|]. apply nth_error_Some. congruence. }
  apply (X n 1 _ g) in E; [exact E|]. reflexivity.
Qed.
(** once there is a generator, the next ones do not depend on the caller's data *)
Lemma last_seed_any d d' (q : pt R) l : last_seed d (q :: l) = last_seed d' (q :: l).
Proof. unfold last_seed. destruct (rev (q :: l)) eqn:E; [|reflexivity]. apply (f_equal (@length _)) in E. rewrite rev_length in E. discriminate. Qed.
Lemma compute_more m s data k n : 1 <= k ->
  pm_Compute R m (mkPM R s s (chain R data k)) n = Ok (mkPM R s s (chain R data (k + n))).
Proof.
  intros Hk. unfold pm_Compute, pm_at. cbn [p_gens pm_gdata pm_bases pm_data].
  assert (X : forall n lo k d, 1 <= k -> for_loop lo n (fun _ g => let! p := gen_Iterate R g in Ok (mkGen R (g_data R g) (g_bases R g ++ [p]))) (mkGen R d (chain R data k))
    = Ok (mkGen R d (chain R data (k + n)))).
  { clear. induction n as [|n IH]; intros lo k d Hk; cbn [for_loop]; [rewrite Nat.add_0_r; reflexivity|].
    rewrite gen_Iterate_ok. cbn [bind g_data g_bases].
    replace (last_seed d (chain R data k)) with (last_seed data (chain R data k)) by (destruct k; [lia|]; cbn [chain]; apply last_seed_any).
    replace (chain R data k ++ [pderive R (last_seed data (chain R data k))]) with (chain R data (k + 1)) by (rewrite chain_app; reflexivity).
    rewrite IH by lia. f_equal. f_equal. f_equal. lia. }
  unfold gen_Compute. rewrite X by exact Hk. reflexivity.
Qed.
(** a slice that was made by appending one byte to s in place *)
Lemma pm_overwrites m s bases blind vs m' p' c x slk : slice_ok m s -> s_len s < s_cap s -> 2 <= length vs ->
  let m1 := fst (append x00 slk m s [x]) in let t := snd (append x00 slk m s [x]) in
  pm_CommitToVectors R slack m1 (mkPM R s s bases) blind vs = Ok (m', p', c) ->
  contents m1 t = contents m s ++ [x] /\ contents m' t = contents m s ++ [Z_byte (Z.of_nat (length vs - 1))].
Proof.
  intros OKs SP L2. cbv zeta. intros E. pose proof (append_arrays x00 slk m s [x] OKs) as (P1 & P2 & P3 & P4 & P5).
  pose proof (append_contents x00 slk m s [x] OKs) as PC. destruct (append_keeps x00 slk m s [x] s OKs OKs) as [K1 K2]; [intros _; left; lia|].
  cbv zeta in *. destruct (append x00 slk m s [x]) as [m1 t]. cbn [fst snd length] in *. split; [exact PC|].
  pose proof (pm_CommitToVectors_spec m1 s bases blind vs K2) as H. rewrite E in H.
  destruct (CommitToVectors R _ blind vs) as [[p c']|e|]; try contradiction. destruct H as (_ & _ & O' & C' & LM & LA).
  destruct (Nat.leb_spec (s_len s + 1) (s_cap s)) as [_|]; [|lia]. destruct P4 as [A1 [A2 A3]].
  apply nth_error_ext. intros i. rewrite contents_nth, P2, A1, A2. rewrite LA by (destruct K2; assumption). rewrite Nat.eqb_refl. cbn [andb].
  destruct (Nat.ltb_spec (s_len s) (s_cap s)) as [_|]; [|lia]. destruct (Nat.leb_spec 2 (length vs)) as [_|]; [|lia]. rewrite !andb_true_r.
  pose proof (contents_length m s OKs) as CL. pose proof (contents_nth m1 t) as CN. rewrite PC, P2, A1, A2 in CN.
  destruct (Nat.ltb_spec i (s_len s + 1)) as [G|G].
  - destruct (Nat.eqb_spec (s_off s + i) (s_off s + s_len s)) as [Q|Q].
    + assert (i = s_len s) by lia. subst i. rewrite nth_error_app2 by lia. rewrite CL, Nat.sub_diag. reflexivity.
    + specialize (CN i). destruct (Nat.ltb_spec i (s_len s + 1)); [|lia]. rewrite <- CN. rewrite !nth_error_app1 by lia. reflexivity.
  - symmetry. apply nth_error_None. rewrite app_length, CL. cbn [length]. lia.
Qed.
End Pedersen.
