(** Every valid signature for the ring of a session is one that its Prove can return. *)
From Coq Require Import String ZArith List Lia Bool Arith Permutation Field.
From Coq Require Import Init.Byte.
From Verif Require Import GoModel GoFacts ReadModel ReadFacts Fld Rist RistFacts SpecVector VectorFacts SpecMlsag
  MlsagModel MlsagFacts MlsagProve MlsagProps.
Import ListNotations.
Local Open Scope nat_scope.

Lemma seq_shift_n a k : forall t, map (fun i => a + i) (seq t k) = seq (a + t) k.
Proof. induction k as [|k IH]; intros t; [reflexivity|]. cbn [seq map]. f_equal. rewrite IH. f_equal. lia. Qed.

(** ** Which scalars of the stream become responses *)
Lemma responses_rows rs m n skip : skip < m ->
  forall i, i < m -> nth_error (generateResponses rs m n skip) i =
    Some (if Nat.eqb i skip then [] else map rs (seq (n * (if i <? skip then i else i - 1)) n)).
Proof.
  intros Hs. unfold generateResponses.
  assert (G : forall j, j <= m -> fold_left (fun '(acc, t) i =>
      if Nat.eqb i skip then (acc ++ [[]], t) else (acc ++ [map (fun k => rs (t + k)) (seq 0 n)], t + n)) (seq 0 j) ([], 0) =
    (map (fun i => if Nat.eqb i skip then [] else map rs (seq (n * (if i <? skip then i else i - 1)) n)) (seq 0 j),
     n * (if j <=? skip then j else j - 1))).
  { induction j as [|j IH]; intros Hj; [cbn; rewrite Nat.mul_0_r; reflexivity|]. rewrite seq_S, fold_left_app, IH by lia. cbn [fold_left Nat.add].
    rewrite map_app. cbn [map]. destruct (Nat.eqb_spec j skip) as [->|N].
    - rewrite Nat.leb_refl. destruct (Nat.leb_spec (S skip) skip); [lia|]. f_equal. f_equal. lia.
    - assert (E : (if j <=? skip then j else j - 1) = (if j <? skip then j else j - 1)).
      { destruct (Nat.leb_spec j skip), (Nat.ltb_spec j skip); lia. }
      f_equal.
      + f_equal. f_equal. rewrite E. generalize (n * (if j <? skip then j else j - 1)). clear. intros t.
        replace (seq t n) with (seq (t + 0) n) by (f_equal; lia). rewrite <- seq_shift_n, map_map. reflexivity.
      + destruct (Nat.leb_spec j skip), (Nat.leb_spec (S j) skip); try lia;
          replace (S j - 1) with (j - 1 + 1) by lia; lia. }
  intros i Hi. rewrite G by lia. cbn [fst].
  rewrite (map_nth_error _ i (seq 0 m) (d := i)); [reflexivity|]. rewrite nth_error_nth' with (d := 0) by (rewrite seq_length; exact Hi).
  rewrite seq_nth by exact Hi. reflexivity.
Qed.

(** ** A stream of scalars that yields given rows of responses *)
Lemma map_nth_from (l : list F) d : forall m, map (fun k => nth (length m + k) (m ++ l) d) (seq 0 (length l)) = l.
Proof.
  induction l as [|x l IH]; intros m; [reflexivity|]. cbn [length seq map]. f_equal.
  - rewrite Nat.add_0_r, app_nth2, Nat.sub_diag by lia. reflexivity.
  - rewrite <- seq_shift, map_map. rewrite <- (IH (m ++ [x])) at 2. apply map_ext. intros k. rewrite app_length, <- app_assoc. cbn [length app].
    f_equal. lia.
Qed.
Lemma responses_from (rows : list (list F)) n skip :
  (forall i row, nth_error rows i = Some row -> length row = if Nat.eqb i skip then 0 else n) ->
  generateResponses (fun k => nth k (concat rows) f0) (length rows) n skip = rows.
Proof.
  intros H. unfold generateResponses.
  assert (G : forall m, m <= length rows -> fold_left (fun '(acc, t) i =>
      if Nat.eqb i skip then (acc ++ [[]], t) else (acc ++ [map (fun k => nth (t + k) (concat rows) f0) (seq 0 n)], t + n)) (seq 0 m) ([], 0) =
    (firstn m rows, length (concat (firstn m rows)))).
  { induction m as [|m IH]; intros Hm; [reflexivity|]. rewrite seq_S, fold_left_app, IH by lia. cbn [fold_left Nat.add].
    destruct (nth_error rows m) as [row|] eqn:E; [|apply nth_error_None in E; lia]. pose proof (H m row E) as L.
    rewrite (firstn_S_nth _ _ _ E), concat_app, app_length. cbn [concat]. rewrite app_nil_r. destruct (Nat.eqb m skip).
    - destruct row; [|discriminate]. rewrite Nat.add_0_r. reflexivity.
    - rewrite L. f_equal. f_equal. f_equal. apply nth_error_split in E. destruct E as (a & b & Er & La).
      rewrite Er, firstn_app, La, Nat.sub_diag, <- La, firstn_all, app_nil_r. cbn [firstn]. rewrite concat_app. cbn [concat].
      rewrite <- L. transitivity (map (fun k => nth (length (concat a) + k) (concat a ++ row) f0) (seq 0 (length row))); [|apply map_nth_from].
      apply map_ext_in. intros k Hk. apply in_seq in Hk.
      rewrite app_assoc, app_nth1 by (rewrite app_length; lia). reflexivity. }
  rewrite G by lia. cbn [fst]. apply firstn_all.
Qed.

Section Attain.
Context {R : rist} (OK : rist_ok R).
Local Notation "p [+] q" := (padd R p q) (at level 50, left associativity).
Local Notation "s [*] p" := (smul R s p) (at level 40, left associativity).

Section Ring.
Context (p : mproof R) (sk : bool) (g : sig R).
Let priv := mp_priv R p.
Let msg := mp_msg R p.
Let matrix := mp_matrix R p.
Let n := length matrix.
Let s := mp_index R p.
Let len := length priv.
Let I := images (R := R) priv sk.
Context (Hrows : forall i row, nth_error matrix i = Some row -> length (pk_keys R row) = len).
Context (Hs : exists row, nth_error matrix s = Some row /\ pk_keys R row = pubs priv).
Context (Hn : 2 <= n).
Context (Hpub : sg_pub R g = matrix) (Hmsg : sg_msg R g = msg) (Hr : length (sg_r R g) = n)
  (Hlen : Forall (fun r => length r = len) (sg_r R g))
  (Hring : ring_chain R msg I (sig_rows g) (sg_c R g) = sg_c R g).

Let rows := sig_rows g.
Let c0 := sg_c R g.
Let at_ (v : nat) : F := ring_chain R msg I (firstn v rows) c0.
Let rsp (i : nat) : list F := nth i (sg_r R g) [].
(** the nonces: the signer's responses plus challenge times key *)
Let nonces : list F := zipw (fun r x => fadd r (fmul (at_ s) x)) (rsp s) priv.
Let others : list (list F) := upd (sg_r R g) s [].
Let rs (k : nat) : F := if k <? len then nth k nonces f0 else nth (k - len) (concat others) f0.

Lemma at_lt : s < n.
Proof. destruct Hs as [row [E _]]. unfold n. apply nth_error_Some. congruence. Qed.
Lemma rsp_length i : i < n -> length (rsp i) = len.
Proof. intros H. rewrite Forall_forall in Hlen. apply Hlen, nth_In. rewrite Hr. exact H. Qed.
Lemma rsp_nth i : i < n -> nth_error (sg_r R g) i = Some (rsp i).
Proof. intros H. apply nth_error_nth'. rewrite Hr. exact H. Qed.
Lemma at_nonces : generateNonces rs len = nonces.
Proof.
  assert (L : length nonces = len) by (unfold nonces; rewrite zipw_length; rewrite rsp_length by exact at_lt; reflexivity).
  unfold generateNonces. transitivity (map (fun k => nth k nonces f0) (seq 0 len)).
  - apply map_ext_in. intros k Hk. apply in_seq in Hk. unfold rs. destruct (Nat.ltb_spec k len); [reflexivity|lia].
  - rewrite <- L. exact (map_nth_from nonces f0 []).
Qed.
Lemma at_others : generateResponses (fun i => rs (len + i)) n len s = others.
Proof.
  rewrite <- (responses_from others len s) at 1.
  - unfold others at 2. rewrite upd_length, Hr. unfold generateResponses.
    assert (X : forall l a, fold_left (fun '(rows, t) i => if Nat.eqb i s then (rows ++ [[]], t)
        else (rows ++ [map (fun k => rs (len + (t + k))) (seq 0 len)], t + len)) l a =
      fold_left (fun '(rows, t) i => if Nat.eqb i s then (rows ++ [[]], t)
        else (rows ++ [map (fun k => nth (t + k) (concat others) f0) (seq 0 len)], t + len)) l a).
    { induction l as [|i l IH]; intros [a t]; [reflexivity|]. cbn [fold_left]. rewrite IH. f_equal. destruct (Nat.eqb i s); [reflexivity|].
      f_equal. f_equal. f_equal. apply map_ext. intros k. unfold rs. destruct (Nat.ltb_spec (len + (t + k)) len); [lia|].
      f_equal. lia. }
    rewrite X. reflexivity.
  - intros i row E. unfold others in E. assert (Hi : i < n) by (rewrite <- Hr, <- (upd_length _ s []); apply nth_error_Some; congruence).
    destruct (Nat.eqb_spec i s) as [->|N].
    + rewrite upd_same in E by (rewrite Hr; exact Hi). injection E as <-. reflexivity.
    + rewrite upd_other in E by congruence. rewrite (rsp_nth i Hi) in E. injection E as <-. apply rsp_length, Hi.
Qed.
Lemma at_row v : v < n -> nth_error rows v = Some (Kr p v, rsp v).
Proof.
  intros H. destruct (nth_error matrix v) as [row|] eqn:E; [|apply nth_error_None in E; fold n in E; lia].
  unfold Kr. fold matrix. rewrite E. apply sig_rows_nth; [apply rsp_nth, H|rewrite Hpub; exact E].
Qed.
Lemma at_succ v : v < n -> at_ (S v) = ring_chal R msg I (Kr p v) (rsp v) (at_ v).
Proof.
  intros H. unfold at_. rewrite (firstn_S_nth _ _ _ (at_row v H)). unfold ring_chain. rewrite fold_left_app. reflexivity.
Qed.
Lemma at_end : at_ n = c0.
Proof.
  unfold at_. rewrite firstn_all2; [exact Hring|]. unfold rows. rewrite sig_rows_length by (rewrite Hpub, Hr; apply le_n). rewrite Hr. apply le_n.
Qed.
Lemma at_other i : i < n -> i <> s -> rr p rs i = rsp i.
Proof.
  intros Hi N. unfold rr. fold priv matrix n s len. rewrite at_others. unfold others. rewrite upd_other by congruence. rewrite (rsp_nth i Hi). reflexivity.
Qed.
Lemma at_real : real p rs (at_ s) = rsp s.
Proof.
  unfold real. fold priv len. rewrite at_nonces. unfold nonces. pose proof (rsp_length s at_lt) as L. revert L. unfold len.
  generalize (rsp s) priv (at_ s). clear. induction l as [|r l IH]; intros [|x q] c L; try discriminate; [reflexivity|].
  cbn [zipw]. rewrite IH by (cbn in L; lia). f_equal. ring.
Qed.
Lemma at_first : c_first p sk rs = at_ (S s).
Proof.
  rewrite (at_succ s at_lt), <- at_real. rewrite <- (real_closes OK p sk rs Hrows (at_ s)). unfold Kr. destruct Hs as [row [E EK]]. fold matrix s. rewrite E, EK. reflexivity.
Qed.
Lemma at_chain u : s + 1 + u <= n -> chain p sk rs u = at_ (s + 1 + u).
Proof.
  induction u as [|u IH]; intros H.
  - cbn [chain]. rewrite at_first. f_equal. lia.
  - cbn [chain]. fold matrix n s. rewrite Nat.mod_small by lia. rewrite IH by lia. replace (s + 1 + S u) with (S (s + 1 + u)) by lia.
    rewrite at_succ by lia. unfold stepi. fold priv msg I. rewrite at_other by lia. reflexivity.
Qed.
Lemma at_chain2 v : v <= s -> chain p sk rs (n - 1 - s + v) = at_ v.
Proof.
  pose proof at_lt as S. induction v as [|v IH]; intros H.
  - rewrite Nat.add_0_r, at_chain by lia. replace (s + 1 + (n - 1 - s)) with n by lia. exact at_end.
  - replace (n - 1 - s + Datatypes.S v) with (Datatypes.S (n - 1 - s + v)) by lia. cbn [chain]. fold matrix n s.
    replace (s + 1 + (n - 1 - s + v)) with (v + 1 * n) by lia. rewrite Nat.mod_add, Nat.mod_small by lia.
    rewrite IH by lia. rewrite at_succ by lia. unfold stepi. fold priv msg I. rewrite at_other by lia. reflexivity.
Qed.
Lemma attained : honest_sig p sk rs = g.
Proof.
  pose proof at_lt as S. unfold honest_sig. fold priv matrix msg s n len.
  assert (E1 : chain p sk rs (n - 1) = at_ s). { rewrite <- (at_chain2 s (le_n _)). f_equal. lia. }
  assert (E0 : chain p sk rs (n - 1 - s) = c0). { pose proof (at_chain2 0 ltac:(lia)) as E. rewrite Nat.add_0_r in E. rewrite E. reflexivity. }
  rewrite E1, E0, at_real, at_others, <- Hpub, <- Hmsg. unfold others.
  assert (ER : upd (upd (sg_r R g) s []) s (rsp s) = sg_r R g).
  { apply nth_error_ext. intros i. destruct (Nat.eq_dec i s) as [->|N].
    - rewrite upd_same by (rewrite upd_length, Hr; exact S). symmetry. apply rsp_nth, S.
    - rewrite !upd_other by congruence. reflexivity. }
  rewrite ER. destruct g. reflexivity.
Qed.
End Ring.

Lemma prove_attains p sk g J : minv p -> regular p ->
  J = images (mp_priv R p) sk -> J <> [] ->
  sg_msg R g = mp_msg R p -> Permutation (mp_matrix R p ++ [mkPK R false (pubs (mp_priv R p))]) (sg_pub R g) ->
  2 <= length (sg_r R g) -> length (sg_r R g) = length (sg_pub R g) -> Forall (fun r => length r = length (mp_priv R p)) (sg_r R g) ->
  sig_Verify R g J = Ok true -> exists js rs, fst (prove R p sk js rs) = Ok (g, J).
Proof.
  intros I0 HR EJ NJ Em P L2 LL HL V. destruct I0 as [I1 I2]. rewrite <- I1 in P.
  destruct (shuffle_onto _ _ P) as [js Ej]. exists js.
  destruct (prove_snd p sk js (fun _ => f0)) as (p' & E & S & _).
  assert (EM : mp_matrix R p' = sg_pub R g).
  { unfold shuffleSet in E. cbn [addSignerPubKey addPubKeys mp_matrix mp_priv mp_signer mp_msg mp_index] in E. rewrite Ej in E.
    destruct (find_signer R (sg_pub R g) 0); [|discriminate]. injection E as <-. reflexivity. }
  destruct (shuffled_ring p p' (conj I1 I2) S HR) as (G1 & G2 & G3 & G4). pose proof S as (S1 & _ & S3 & _).
  assert (X : exists rs, honest_sig p' sk rs = g).
  { eexists. apply (attained p' sk g); [exact G1|exact G3|rewrite EM; lia|congruence|congruence|rewrite EM; exact LL|rewrite S1; exact HL|].
    rewrite S1, S3, <- EJ, <- Em. rewrite (Verify_two g J) in V.
    - destruct (feqb _ (sg_c R g)) eqn:D; [|discriminate]. apply feqb_eq in D. exact D.
    - intros C. rewrite C in LL. cbn in LL. lia.
    - lia.
    - exact NJ.
    - lia.
    - apply Forall_forall. intros row Hin. destruct row as [ks r]. apply in_combine_l in Hin as Hk. apply in_combine_r in Hin.
      rewrite Forall_forall in HL. pose proof (HL r Hin) as Lr. apply in_map_iff in Hk. destruct Hk as (row & <- & Hk). rewrite <- EM in Hk.
      apply In_nth_error in Hk. destruct Hk as [i Ei]. pose proof (G1 i row Ei) as Lk. rewrite S1 in Lk. unfold row_ok. cbn [fst snd].
      rewrite EJ, images_length. destruct sk; lia. }
  destruct X as [rs X]. exists rs. destruct (prove_snd p sk js rs) as (q & E' & _ & Ep). rewrite E in E'. injection E' as <-. rewrite Ep. cbn [fst].
  rewrite prove_shuffled_ok; [rewrite X, S1, EJ; reflexivity|exact G1|exact G2|exact G3|rewrite EM; lia|].
  destruct sk; [|reflexivity]. rewrite S1. destruct (mp_priv R p); [|reflexivity]. exfalso. apply NJ. rewrite EJ. reflexivity.
Qed.
(** The scalars behind a signature *)
Lemma prove_responses p sk js rs g J q : minv p -> mp_matrix R p <> [] -> prove R p sk js rs = (Ok (g, J), q) ->
  let len := length (mp_priv R p) in let s := mp_index R q in
  let c := ring_chain R (sg_msg R g) J (firstn s (sig_rows g)) (sg_c R g) in
  s < length (sg_r R g) /\
  nth_error (sg_r R g) s = Some (zipw (fun a x => fsub a (fmul c x)) (map rs (seq 0 len)) (mp_priv R p)) /\
  forall i, i < length (sg_r R g) -> i <> s ->
    nth_error (sg_r R g) i = Some (map rs (seq (len * (1 + if i <? s then i else i - 1)) len)).
Proof.
  intros I0 HM E. destruct (prove_snd p sk js rs) as (p' & _ & S & Ep). rewrite Ep in E. injection E as E <-.
  assert (HR : regular p).
  { destruct (forallb (fun pubKey => Nat.eqb (pk_Len R pubKey) (length (mp_priv R p'))) (mp_matrix R p')) eqn:D.
    - apply (shuffled_regular p p' I0 S). unfold regular. rewrite Forall_forall. intros row Hin. rewrite forallb_forall in D.
      apply Nat.eqb_eq. apply (D row Hin).
    - exfalso. unfold prove_shuffled in E. rewrite D in E. discriminate. }
  destruct (shuffled_ring p p' I0 S HR) as (G1 & G2 & G3 & G4). pose proof S as (S1 & _ & S3 & _).
  assert (HN : 2 <= length (mp_matrix R p')) by (rewrite G4; destruct (mp_matrix R p); [congruence|cbn; lia]).
  destruct (andb sk (Nat.eqb (length (mp_priv R p')) 0)) eqn:D.
  { exfalso. unfold prove_shuffled in E. rewrite calculateKeyImages_ok, D in E by exact G2. destruct (negb _) in E; discriminate. }
  rewrite (prove_shuffled_ok p' sk rs G1 G2 G3 HN D) in E. injection E as <- <-.
  pose proof (s_lt p' G3) as LS. cbv zeta. rewrite <- S1. cbn [honest_sig sg_r sg_msg sg_c]. rewrite upd_length, responses_length.
  split; [exact LS|]. split.
  - rewrite upd_same by (rewrite responses_length; exact LS). f_equal. unfold real, generateNonces.
    set (C := ring_chain R (mp_msg R p') (images (mp_priv R p') sk) (firstn (mp_index R p') (sig_rows (honest_sig p' sk rs))) (chain p' sk rs (length (mp_matrix R p') - 1 - mp_index R p'))).
    assert (EC : chain p' sk rs (length (mp_matrix R p') - 1) = C).
    { unfold C. rewrite (closes_upto p' sk rs G1 G3 HN) by lia. f_equal. lia. }
    rewrite EC. generalize (map rs (seq 0 (length (mp_priv R p')))). generalize (mp_priv R p') C. clear. intros y C l. revert y.
    induction l as [|a l IH]; intros [|x q]; try reflexivity. cbn [zipw]. rewrite IH. f_equal. ring.
  - intros i Hi N. rewrite upd_other by congruence. rewrite responses_rows by assumption. destruct (Nat.eqb_spec i (mp_index R p')); [contradiction|].
    f_equal. generalize (length (mp_priv R p')). intros k. rewrite Nat.mul_add_distr_l, Nat.mul_1_r.
    generalize (k * (if i <? mp_index R p' then i else i - 1)). intros t. rewrite <- seq_shift_n. rewrite map_map. reflexivity.
Qed.
End Attain.
