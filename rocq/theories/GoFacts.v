(** Facts about the run-time conventions of GoModel.v. *)
From Coq Require Import String ZArith NArith List Lia Bool.
From Coq Require Import Init.Byte Strings.Byte.
From Verif Require Import GoModel.
Import ListNotations.
Local Open Scope Z_scope.
Ltac Zify.zify_post_hook ::= Z.div_mod_to_equations.

Lemma byte_Z_range (b : byte) : 0 <= byte_Z b < 256.
Proof. unfold byte_Z. pose proof (Byte.to_N_bounded b). lia. Qed.

Lemma Z_byte_Z (b : byte) : Z_byte (byte_Z b) = b.
Proof.
  unfold Z_byte. pose proof (byte_Z_range b) as H.
  rewrite Z.mod_small by lia. unfold byte_Z. rewrite N2Z.id.
  rewrite Byte.of_to_N. reflexivity.
Qed.

Lemma byte_Z_byte (z : Z) : byte_Z (Z_byte z) = z mod 256.
Proof.
  unfold Z_byte.
  assert (Hr : 0 <= z mod 256 < 256) by (apply Z.mod_pos_bound; lia).
  destruct (Byte.of_N (Z.to_N (z mod 256))) as [b|] eqn:E.
  - apply Byte.to_of_N in E. unfold byte_Z. rewrite E. rewrite Z2N.id; lia.
  - apply Byte.of_N_None_iff in E. lia.
Qed.

Lemma byte_Z_inj (a b : byte) : byte_Z a = byte_Z b -> a = b.
Proof. intros H. rewrite <- (Z_byte_Z a), <- (Z_byte_Z b), H. reflexivity. Qed.

Lemma byte_eqb_spec (a b : byte) : reflect (a = b) (byte_eqb a b).
Proof.
  unfold byte_eqb. destruct (Byte.eqb a b) eqn:E; constructor.
  - apply Byte.byte_dec_bl in E. exact E.
  - intros ->. rewrite (Byte.byte_dec_lb eq_refl) in E. discriminate.
Qed.

Lemma bytes_eqb_spec (a b : bytes) : reflect (a = b) (bytes_eqb a b).
Proof.
  revert b. induction a as [|x a IH]; intros [|y b]; cbn; try (constructor; congruence).
  destruct (byte_eqb_spec x y) as [->|Hne]; cbn.
  - destruct (IH b) as [->|Hne]; constructor; congruence.
  - constructor; congruence.
Qed.

Lemma bytes_eqb_refl (a : bytes) : bytes_eqb a a = true.
Proof. destruct (bytes_eqb_spec a a); congruence. Qed.

Lemma bytes_eq_dec (a b : bytes) : {a = b} + {a <> b}.
Proof. destruct (bytes_eqb_spec a b); [left|right]; assumption. Qed.

Lemma put_u32_length (z : Z) : List.length (put_u32 z) = 4%nat.
Proof. reflexivity. Qed.

Lemma get_put_u32 (z : Z) (r : bytes) : get_u32 (put_u32 z ++ r) = z mod 2 ^ 32.
Proof.
  unfold put_u32. cbn [app get_u32]. rewrite !byte_Z_byte. lia.
Qed.

Lemma get_u32_range (b : bytes) : 0 <= get_u32 b < 2 ^ 32.
Proof.
  destruct b as [|a [|b [|c [|d r]]]]; cbn [get_u32]; try lia.
  pose proof (byte_Z_range a); pose proof (byte_Z_range b);
  pose proof (byte_Z_range c); pose proof (byte_Z_range d). lia.
Qed.

Lemma put_get_u32 (b : bytes) : List.length b = 4%nat -> put_u32 (get_u32 b) = b.
Proof.
  destruct b as [|a [|b [|c [|d [|e r]]]]]; try discriminate. intros _.
  cbn [get_u32]. unfold put_u32.
  pose proof (byte_Z_range a); pose proof (byte_Z_range b);
  pose proof (byte_Z_range c); pose proof (byte_Z_range d).
  f_equal; [|f_equal; [|f_equal; [|f_equal]]]; apply byte_Z_inj; rewrite byte_Z_byte; lia.
Qed.

Lemma be_Z_app (a : bytes) (x : byte) : be_Z (a ++ [x]) = be_Z a * 256 + byte_Z x.
Proof. unfold be_Z. rewrite fold_left_app. reflexivity. Qed.

Lemma be_Z_nonneg (a : bytes) : 0 <= be_Z a.
Proof.
  induction a as [|x a IH] using rev_ind; [reflexivity|].
  rewrite be_Z_app. pose proof (byte_Z_range x). lia.
Qed.

Lemma be_Z_inj (a b : bytes) : List.length a = List.length b -> be_Z a = be_Z b -> a = b.
Proof.
  revert b. induction a as [|x a IH] using rev_ind; intros b Hl H.
  - destruct b; [reflexivity|discriminate].
  - destruct b as [|y b _] using rev_ind.
    + rewrite app_length in Hl. cbn in Hl. lia.
    + rewrite !app_length in Hl. cbn in Hl. rewrite !be_Z_app in H.
      pose proof (byte_Z_range x); pose proof (byte_Z_range y).
      assert (byte_Z x = byte_Z y) by lia. assert (be_Z a = be_Z b) by lia.
      rewrite (IH b) by lia || assumption. rewrite (byte_Z_inj x y) by assumption. reflexivity.
Qed.

(** Indexing *)
Lemma idx_Ok {A} (l : list A) (i : nat) (a : A) : idx l i = Ok a <-> nth_error l i = Some a.
Proof. unfold idx. destruct (nth_error l i); split; congruence. Qed.
Lemma idx_Panic {A} (l : list A) (i : nat) : idx l i = Panic <-> (List.length l <= i)%nat.
Proof. unfold idx. rewrite <- nth_error_None. destruct (nth_error l i); split; congruence. Qed.

Lemma upd_length {A} (l : list A) i (a : A) : List.length (upd l i a) = List.length l.
Proof. revert i. induction l as [|x l IH]; intros [|i]; cbn; congruence. Qed.
Lemma upd_same {A} (l : list A) i (a : A) : (i < List.length l)%nat -> nth_error (upd l i a) i = Some a.
Proof. revert i. induction l as [|x l IH]; intros [|i] H; cbn in *; try lia; [reflexivity|]. apply IH. lia. Qed.
Lemma upd_other {A} (l : list A) i j (a : A) : i <> j -> nth_error (upd l i a) j = nth_error l j.
Proof.
  revert i j. induction l as [|x l IH]; intros [|i] [|j] H; cbn; try reflexivity; try congruence.
  apply IH. congruence.
Qed.
Lemma nth_error_ext {A} (l l' : list A) : (forall i, nth_error l i = nth_error l' i) -> l = l'.
Proof.
  revert l'. induction l as [|x l IH]; intros [|y l'] H.
  - reflexivity.
  - specialize (H O). discriminate.
  - specialize (H O). discriminate.
  - f_equal.
    + specialize (H O). cbn in H. congruence.
    + apply IH. intros i. apply (H (S i)).
Qed.

(** ** Readers *)

(** All bytes a fault-free reader will deliver. *)
Fixpoint rbytes (r : reader) : bytes :=
  match r with
  | [] => []
  | RChunk bs :: r' => bs ++ rbytes r'
  | RFault _ :: _ => []
  end.
Definition fault_free (r : reader) : Prop := forall e, ~ In (RFault e) r.

Lemma fault_free_cons (x : revent) (r : reader) : fault_free (x :: r) -> fault_free r.
Proof. intros H e Hin. apply (H e). right. exact Hin. Qed.

Lemma read_full_acc_spec (r : reader) : forall need acc, fault_free r ->
  let d := rbytes r in
  if Nat.leb need (List.length d)
  then exists r', read_full_acc need acc r = (Ok (acc ++ firstn need d), r')
       /\ rbytes r' = skipn need d /\ fault_free r'
  else read_full_acc need acc r =
       (match acc ++ d with [] => Err "EOF" | _ => Err "unexpected EOF" end, []).
Proof.
  induction r as [|x r IH]; intros need acc Hff; cbn [rbytes].
  - destruct need as [|need].
    + cbn. exists []. rewrite app_nil_r. repeat split; assumption.
    + cbn. rewrite app_nil_r. reflexivity.
  - destruct x as [bs|e]; [|exfalso; apply (Hff e); left; reflexivity].
    pose proof (fault_free_cons _ _ Hff) as Hff'.
    destruct need as [|need].
    + cbn. exists (RChunk bs :: r). rewrite app_nil_r. repeat split; assumption.
    + cbn [read_full_acc].
      destruct (Nat.leb_spec (List.length bs) (S need)) as [C|C].
      * specialize (IH (S need - List.length bs)%nat (acc ++ bs) Hff'). cbn zeta in IH.
        rewrite app_length.
        destruct (Nat.leb_spec (S need - List.length bs) (List.length (rbytes r))) as [C2|C2].
        -- destruct (Nat.leb_spec (S need) (List.length bs + List.length (rbytes r))) as [C3|C3]; [|lia].
           destruct IH as [r' [E [Hr' Hf']]]. exists r'. split; [|split; [|assumption]].
           ++ rewrite E. rewrite <- app_assoc. rewrite firstn_app.
              rewrite (firstn_all2 bs) by lia. reflexivity.
           ++ rewrite Hr'. rewrite skipn_app. rewrite (skipn_all2 bs) by lia. reflexivity.
        -- destruct (Nat.leb_spec (S need) (List.length bs + List.length (rbytes r))) as [C3|C3]; [lia|].
           rewrite IH. rewrite <- app_assoc. reflexivity.
      * rewrite app_length.
        destruct (Nat.leb_spec (S need) (List.length bs + List.length (rbytes r))) as [C3|C3]; [|lia].
        exists (RChunk (skipn (S need) bs) :: r). split; [|split].
        -- rewrite firstn_app. replace (S need - List.length bs)%nat with O by lia.
           rewrite firstn_O, app_nil_r. reflexivity.
        -- cbn [rbytes]. rewrite skipn_app. replace (S need - List.length bs)%nat with O by lia.
           reflexivity.
        -- intros e Hin. destruct Hin as [Hin|Hin]; [discriminate|]. apply (Hff' e Hin).
Qed.

Lemma read_full_ok (n : nat) (r : reader) (b rest : bytes) :
  fault_free r -> rbytes r = b ++ rest -> List.length b = n ->
  exists r', read_full n r = (Ok b, r') /\ rbytes r' = rest /\ fault_free r'.
Proof.
  intros Hff Hr Hl. unfold read_full.
  pose proof (read_full_acc_spec r n [] Hff) as H. cbn zeta in H. rewrite Hr in H.
  rewrite app_length in H. destruct (Nat.leb_spec n (List.length b + List.length rest)) as [C|C]; [|lia].
  destruct H as [r' [E [Hr' Hf']]]. exists r'. split; [|split].
  - rewrite E. cbn. rewrite firstn_app, Hl, Nat.sub_diag, firstn_O, app_nil_r.
    rewrite firstn_all2 by lia. reflexivity.
  - rewrite Hr'. rewrite skipn_app, Hl, Nat.sub_diag. rewrite skipn_all2 by lia. reflexivity.
  - exact Hf'.
Qed.

Lemma read_full_short (n : nat) (r : reader) :
  fault_free r -> (List.length (rbytes r) < n)%nat ->
  exists e, read_full n r = (Err e, []).
Proof.
  intros Hff Hl. unfold read_full.
  pose proof (read_full_acc_spec r n [] Hff) as H. cbn zeta in H.
  destruct (Nat.leb_spec n (List.length (rbytes r))) as [C|C]; [lia|].
  rewrite H. cbn. destruct (rbytes r); eauto.
Qed.

Lemma read_u32_ok (r : reader) (z : Z) (rest : bytes) :
  fault_free r -> rbytes r = put_u32 z ++ rest ->
  exists r', read_u32 r = (Ok (z mod 2 ^ 32), r') /\ rbytes r' = rest /\ fault_free r'.
Proof.
  intros Hff Hr. destruct (read_full_ok 4 r (put_u32 z) rest Hff Hr eq_refl) as [r' [E H]].
  exists r'. split; [|exact H]. unfold read_u32. rewrite E.
  rewrite <- (app_nil_r (put_u32 z)), get_put_u32. reflexivity.
Qed.

Lemma read_all_acc_ok (r : reader) : forall acc, fault_free r ->
  read_all_acc acc r = (Ok (acc ++ rbytes r), []).
Proof.
  induction r as [|x r IH]; intros acc Hff; cbn.
  - rewrite app_nil_r. reflexivity.
  - destruct x as [bs|e]; [|exfalso; apply (Hff e); left; reflexivity].
    rewrite IH by (eapply fault_free_cons; eassumption). rewrite app_assoc. reflexivity.
Qed.
Lemma read_all_ok (r : reader) : fault_free r -> read_all r = (Ok (rbytes r), []).
Proof. intros H. unfold read_all. rewrite read_all_acc_ok by assumption. reflexivity. Qed.

(** ** Writers *)

(** Writing a list of chunks one after the other, stopping at the first error. *)
Definition write_chunks (cs : list bytes) : writer -> res unit * writer := w_each w_write cs.

Lemma write_chunks_app (a b : list bytes) (w : writer) :
  write_chunks (a ++ b) w = w_seq (write_chunks a) (write_chunks b) w.
Proof.
  revert w. induction a as [|x a IH]; intros w; [reflexivity|].
  unfold write_chunks in *. cbn [app w_each]. unfold w_seq in *.
  destruct (w_write x w) as [[[]|e|] w']; try reflexivity. apply IH.
Qed.

Lemma w_write_no_panic (bs : bytes) (w : writer) : fst (w_write bs w) <> Panic.
Proof. unfold w_write. destruct (w_plan w) as [|[k|] pl]; discriminate. Qed.

Definition is_prefix (a b : bytes) : Prop := exists c, b = a ++ c.

Lemma write_chunks_cons (c : bytes) (cs : list bytes) (w : writer) :
  write_chunks (c :: cs) w =
  match w_plan w with
  | [] => write_chunks cs (mkW (w_out w ++ c) [])
  | None :: pl => write_chunks cs (mkW (w_out w ++ c) pl)
  | Some k :: pl => (Err "write error"%string, mkW (w_out w ++ firstn k c) pl)
  end.
Proof.
  unfold write_chunks. cbn [w_each]. unfold w_seq, w_write at 1.
  destruct (w_plan w) as [|[k|] pl]; reflexivity.
Qed.

Lemma write_chunks_spec (cs : list bytes) (w : writer) :
  exists pre, w_out (snd (write_chunks cs w)) = w_out w ++ pre /\ is_prefix pre (concat cs) /\
    (fst (write_chunks cs w) = Ok tt -> pre = concat cs) /\
    (fst (write_chunks cs w) = Ok tt \/ exists e, fst (write_chunks cs w) = Err e).
Proof.
  revert w. induction cs as [|c cs IH]; intros w.
  - exists []. cbn. rewrite app_nil_r. repeat split; auto. exists []; reflexivity.
  - rewrite write_chunks_cons.
    destruct (w_plan w) as [|[k|] pl] eqn:Hp.
    + destruct (IH (mkW (w_out w ++ c) [])) as [pre [H1 [[d Hd] [H3 H4]]]]. exists (c ++ pre).
      cbn [concat]. repeat split.
      * rewrite H1. cbn. rewrite app_assoc. reflexivity.
      * exists d. rewrite Hd, app_assoc. reflexivity.
      * intros H. rewrite H3 by assumption. reflexivity.
      * exact H4.
    + exists (firstn k c). cbn. repeat split.
      * exists (skipn k c ++ concat cs). rewrite app_assoc, firstn_skipn. reflexivity.
      * discriminate.
      * right. eauto.
    + destruct (IH (mkW (w_out w ++ c) pl)) as [pre [H1 [[d Hd] [H3 H4]]]]. exists (c ++ pre).
      cbn [concat]. repeat split.
      * rewrite H1. cbn. rewrite app_assoc. reflexivity.
      * exists d. rewrite Hd, app_assoc. reflexivity.
      * intros H. rewrite H3 by assumption. reflexivity.
      * exact H4.
Qed.

Definition no_fault (w : writer) : Prop := forall k, ~ In (Some k) (w_plan w).

Lemma write_chunks_ok (cs : list bytes) (w : writer) : no_fault w ->
  fst (write_chunks cs w) = Ok tt /\ no_fault (snd (write_chunks cs w)).
Proof.
  revert w. induction cs as [|c cs IH]; intros w Hn; [split; [reflexivity|exact Hn]|].
  rewrite write_chunks_cons.
  unfold no_fault in Hn. destruct (w_plan w) as [|[k|] pl] eqn:Hp.
  - apply IH. intros k [].
  - exfalso. apply (Hn k). left. reflexivity.
  - apply IH. intros k Hin. apply (Hn k). right. exact Hin.
Qed.

(** ** Lists *)
Lemma Forall2_length {A B} {Q : A -> B -> Prop} {l : list A} {m : list B} :
  Forall2 Q l m -> List.length l = List.length m.
Proof. induction 1; cbn; congruence. Qed.
Lemma Forall2_rev {A B} {Q : A -> B -> Prop} {l : list A} {m : list B} :
  Forall2 Q l m -> Forall2 Q (rev l) (rev m).
Proof.
  induction 1 as [|x y l m Hxy HF IH]; cbn; [constructor|].
  apply Forall2_app; [exact IH|]. constructor; [exact Hxy|constructor].
Qed.
