(** Facts behind the property of provers of ranges that ask for hash values *)
From Coq Require Import String ZArith List Lia Bool Arith.
From Coq Require Import Init.Byte.
From Verif Require Import GoModel GoFacts Prime Fld Rist RistFacts SpecVector SpecIPP SpecRange SpecSound VectorFacts PedersenModel PedersenFacts InnerProductModel GlobModel RangeProofModel
  SpecHonest P_RangeProof SpecRewind RewindIP RewindRange P_Rewind SpecFork ForkFacts SpecOracle.
Import ListNotations.
Local Open Scope nat_scope.

Section Oracle.
Context {R : rist} (OK : rist_ok R).
Local Notation pts l := (concat (map (pbytes R) l)).
Lemma pts_len (l : list (pt R)) : length (pts l) = 32 * length l.
Proof. induction l as [|a l IH]; [reflexivity|]. cbn [map concat length]. rewrite app_length, IH, (pbytes_len R OK). lia. Qed.
Lemma pts_inj : forall l l' : list (pt R), pts l = pts l' -> l = l'.
Proof.
  induction l as [|a l IH]; intros l' E; pose proof (f_equal (@length _) E) as L; rewrite !pts_len in L; destruct l' as [|b l']; cbn [length] in L; try lia; [reflexivity|].
  cbn [map concat] in E. apply app_inv_len in E; [|rewrite !(pbytes_len R OK); reflexivity]. destruct E as [E1 E2].
  f_equal; [apply (pbytes_inj OK); exact E1|apply IH; exact E2].
Qed.
Lemma sbytes_inj' (a b : F) : sbytes R a = sbytes R b -> a = b.
Proof. intros E. rewrite <- (sset_sbytes R OK a), <- (sset_sbytes R OK b), E. reflexivity. Qed.

(** ** Strings *)
Lemma str_y_inj f f' : str_y R f = str_y R f' -> cl_V R f = cl_V R f' /\ cl_A R f = cl_A R f' /\ cl_S R f = cl_S R f'.
Proof.
  unfold str_y. intros E. assert (X : pts (cl_V R f ++ [cl_A R f; cl_S R f]) = pts (cl_V R f' ++ [cl_A R f'; cl_S R f'])).
  { rewrite !map_app, !concat_app. cbn [map concat]. rewrite !app_nil_r. exact E. }
  apply pts_inj in X. replace (cl_V R f ++ [cl_A R f; cl_S R f]) with ((cl_V R f ++ [cl_A R f]) ++ [cl_S R f]) in X by (rewrite <- app_assoc; reflexivity).
  replace (cl_V R f' ++ [cl_A R f'; cl_S R f']) with ((cl_V R f' ++ [cl_A R f']) ++ [cl_S R f']) in X by (rewrite <- app_assoc; reflexivity).
  apply app_inj_tail in X. destruct X as [X E2]. apply app_inj_tail in X. destruct X as [X E1]. auto.
Qed.
Ltac peel E := let E1 := fresh "E" in apply app_inv_len in E; [destruct E as [E1 E]|rewrite ?(pbytes_len R OK), ?(sbytes_len R OK), ?pts_len; congruence].
Lemma str_x_inj f f' z z' : length (cl_V R f) = length (cl_V R f') -> str_x R f z = str_x R f' z' -> cl_T1 R f = cl_T1 R f' /\ cl_T2 R f = cl_T2 R f'.
Proof.
  intros L E. unfold str_x in E. do 5 peel E. split; apply (pbytes_inj OK); assumption.
Qed.
Lemma str_w_inj f f' z z' x x' : length (cl_V R f) = length (cl_V R f') -> str_w R f z x = str_w R f' z' x' ->
  cl_taux R f = cl_taux R f' /\ cl_mu R f = cl_mu R f' /\ cl_t R f = cl_t R f'.
Proof.
  intros L E. unfold str_w in E. do 9 peel E. repeat split; apply sbytes_inj'; assumption.
Qed.
Lemma str_rounds_nth Ls : forall Rs hs i, i < length Ls -> length Ls = length Rs ->
  exists l r pre, nth_error Ls i = Some l /\ nth_error Rs i = Some r /\ nth_error (str_rounds R hs Ls Rs) i = Some (pre ++ pbytes R l ++ pbytes R r) /\ length pre = length hs + 64 * i.
Proof.
  induction Ls as [|l Ls IH]; intros [|r Rs] hs i Hi HL; cbn [length] in *; try lia. destruct i as [|i].
  - exists l, r, hs. cbn. repeat split. lia.
  - destruct (IH Rs (hs ++ pbytes R l ++ pbytes R r) i ltac:(lia) ltac:(lia)) as (l' & r' & pre & E1 & E2 & E3 & E4). exists l', r', pre. cbn [nth_error str_rounds].
    repeat split; try assumption. rewrite E4, !app_length, !(pbytes_len R OK). lia.
Qed.
Lemma str_rounds_inj Ls Ls' Rs Rs' i : i < length Ls -> i < length Ls' -> length Ls = length Rs -> length Ls' = length Rs' ->
  nth_error (str_rounds R [] Ls Rs) i = nth_error (str_rounds R [] Ls' Rs') i -> nth_error Ls i = nth_error Ls' i /\ nth_error Rs i = nth_error Rs' i.
Proof.
  intros H H' L L' E. destruct (str_rounds_nth Ls Rs [] i H L) as (l & r & pre & E1 & E2 & E3 & E4). destruct (str_rounds_nth Ls' Rs' [] i H' L') as (l' & r' & pre' & E1' & E2' & E3' & E4').
  rewrite E3, E3' in E. injection E as E. apply app_inv_len in E; [|rewrite E4, E4'; reflexivity]. destruct E as [_ E].
  apply app_inv_len in E; [|rewrite !(pbytes_len R OK); reflexivity]. destruct E as [E5 E6].
  rewrite E1, E2, E1', E2'. split; f_equal; apply (pbytes_inj OK); assumption.
Qed.
Lemma str_rounds_challenges h Ls : forall hs Rs, map h (str_rounds R hs Ls Rs) = challenges (with_hash R h) hs Ls Rs.
Proof. induction Ls as [|l Ls IH]; intros hs [|r Rs]; try reflexivity. cbn [str_rounds map challenges]. f_equal. apply IH. Qed.
Lemma str_rounds_length Ls : forall hs Rs, length Ls = length Rs -> length (str_rounds R hs Ls Rs) = length Ls.
Proof. induction Ls as [|l Ls IH]; intros hs [|r Rs] L; cbn in *; try lia. rewrite IH by lia. reflexivity. Qed.

(** ** Histories *)
Definition checker (f : claim R) : oracle unit :=
  let ask_all := fold_right (fun s k => Ask s (fun _ => k)) (Give tt) in
  Ask (str_y R f) (fun y => Ask (sbytes R y) (fun z => Ask (str_x R f z) (fun x => Ask (str_w R f z x) (fun _ => ask_all (str_rounds R [] (cl_L R f) (cl_R R f)))))).
Lemma asked_checker h f : SpecFork.asked h (checker f) = strings R h f.
Proof.
  unfold checker, strings. cbn [SpecFork.asked]. do 4 f_equal. induction (str_rounds R [] (cl_L R f) (cl_R R f)) as [|s l IH]; [reflexivity|]. cbn. rewrite IH. reflexivity.
Qed.
Lemma history_same h h' A k : (forall s, In s (firstn k (history R h A)) -> h s = h' s) -> firstn (S k) (history R h' A) = firstn (S k) (history R h A).
Proof.
  assert (E : forall g, history R g A = SpecFork.asked g (obind A checker)) by (intros g; unfold history; rewrite asked_bind, asked_checker; reflexivity).
  rewrite !E. apply asked_same.
Qed.

(** ** The script behind the runs *)
Section Runs.
Context (m k : nat) (q : questions) (H : list F -> bytes -> F) (A : oracle (claim R)) (p : nat -> nat).
Context (HM : 0 < m) (HB : (64 * Z.of_nat m < 2 ^ 32)%Z) (HK : 2 ^ k = 64 * m) (W : wide m k q) (RW : rewound R m k q H A p).
Definition tup (t : list F) : Prop := exists y z x w us, t = y :: z :: x :: w :: us /\ SpecRewind.asked q k y z x w us.
Definition cl (t : list F) : claim R := answer (H t) A.
Lemma tup_length t : tup t -> length t = 4 + k.
Proof. intros (y & z & x & w & us & -> & A1). cbn [length]. destruct A1 as (_ & _ & _ & _ & L & _). rewrite L. reflexivity. Qed.
Lemma tup_string t t' i : tup t -> tup t' -> i < 4 + k -> firstn i t = firstn i t' ->
  nth_error (strings R (H t) (cl t)) i = nth_error (strings R (H t') (cl t')) i.
Proof.
  intros T T' Hi E. pose proof (tup_length t T) as L. pose proof (tup_length t' T') as L'. destruct RW as [RW1 RW2].
  destruct T as (y & z & x & w & us & -> & A1). destruct T' as (y' & z' & x' & w' & us' & -> & A2).
  destruct (RW1 _ _ _ _ _ A1) as (_ & _ & P1). destruct (RW1 _ _ _ _ _ A2) as (_ & _ & P2).
  unfold cl. rewrite <- P1, <- P2 by lia. pose proof (history_same _ _ A (p i) (RW2 _ _ _ _ _ _ _ _ _ _ A1 A2 i ltac:(lia) E)) as X.
  rewrite <- (nth_error_firstn_lt _ (S (p i)) (p i)) by lia. rewrite <- X. apply nth_error_firstn_lt. lia.
Qed.
Lemma claim_vals h f : vals (pf_V (with_hash R h) (claim_proof R h f)) = cl_V R f.
Proof. unfold vals, claim_proof. cbn [pf_V]. rewrite map_map. cbn [c_val]. apply map_id. Qed.
Lemma tup_shape t : tup t -> length (cl_L R (cl t)) = k /\ length (cl_R R (cl t)) = k /\ m <= length (cl_V R (cl t)) /\ k < 32.
Proof.
  intros (y & z & x & w & us & -> & A1). destruct RW as [RW1 _]. destruct (RW1 _ _ _ _ _ A1) as (_ & (c & _ & _ & V & _) & _).
  set (h := H _) in *. set (f := answer h A) in *. change (cl _) with f. pose proof (with_hash_ok R h OK) as OK'.
  assert (S : ip_size m (with_hash R h) (claim_ip R h f)).
  { unfold ip_size. set (a := length _). set (b := length (ip_R _ _)). destruct (Nat.eq_dec a b) as [E1|E1]; [destruct (lt_dec a 32) as [E2|E2]; [destruct (Nat.eq_dec (2 ^ a) (64 * m)) as [E3|E3]; [auto|]|]|].
    all: exfalso; pose proof (C33_wrong_size _ OK' c (claim_proof R h f) (claim_ip R h f) m eq_refl HM HB) as Er;
      rewrite Er in V; [discriminate V|unfold ip_size; fold a; fold b; intuition lia]. }
  assert (NP : m <= length (cl_V R f)).
  { destruct (Nat.le_gt_cases m (length (cl_V R f))) as [C|C]; [exact C|]. exfalso.
    assert (P : fst (grun (Verify (with_hash R h) c (claim_proof R h f)) (Z.of_nat m)) = Panic).
    { apply (C38_panics _ OK'); [exact HM|exact HB|]. right. exists (claim_ip R h f). split; [reflexivity|]. split; [exact S|]. unfold claim_proof. cbn [pf_V]. rewrite map_length. exact C. }
    rewrite P in V. discriminate V. }
  destruct S as (S1 & S2 & S3). unfold claim_ip in S1, S2, S3. cbn [ip_L ip_R] in S1, S2, S3.
  assert (EK : length (cl_L R f) = k) by (apply (Nat.pow_inj_r 2); [lia|rewrite HK; exact S3]). rewrite <- EK. repeat split; [symmetry; exact S1|exact NP|exact S2].
Qed.

(** canonical continuations *)
Definition hd_ (l : list F) : F := hd f0 l.
Fixpoint ext (qu : list F -> list F) (n : nat) (pre : list F) : list F := match n with O => pre | S n => ext qu n (pre ++ [hd_ (qu pre)]) end.
Definition t_u y z x w us := y :: z :: x :: w :: ext (q_u q y z x w) (k - length us) us.
Definition t_x y z x := t_u y z x (hd_ (q_w q y z x)) [].
Definition t_z y z := t_x y z (hd_ (q_x q y z)).
Definition t_0 := let y := hd_ (q_y q) in t_z y (hd_ (q_z q y)).
Lemma hd_in (l : list F) : 0 < length l -> In (hd_ l) l. Proof. destruct l; cbn; [lia|auto]. Qed.
Lemma ext_pre qu n : forall pre, exists r, ext qu n pre = pre ++ r /\ length r = n.
Proof.
  induction n as [|n IH]; intros pre; cbn [ext]; [exists []; rewrite app_nil_r; auto|]. destruct (IH (pre ++ [hd_ (qu pre)])) as (r & E & L).
  exists (hd_ (qu pre) :: r). rewrite E, <- app_assoc. cbn [length app]. rewrite L. auto.
Qed.
Lemma t_u_ok y z x w us : In y (q_y q) -> In z (q_z q y) -> In x (q_x q y z) -> In w (q_w q y z x) -> length us <= k -> path (q_u q y z x w) [] us -> tup (t_u y z x w us).
Proof.
  intros Hy Hz Hx Hw L P. exists y, z, x, w, (ext (q_u q y z x w) (k - length us) us). split; [reflexivity|].
  destruct (ext_pre (q_u q y z x w) (k - length us) us) as (r & E & Lr). split; [exact Hy|]. split; [exact Hz|]. split; [exact Hx|]. split; [exact Hw|].
  split; [rewrite E, app_length; lia|]. clear E Lr r. destruct W as [_ W1]. destruct (W1 y Hy) as [_ W2]. destruct (W2 z Hz) as [_ W3]. destruct (W3 x Hx) as [_ W4].
  assert (G : forall n us, length us + n <= k -> path (q_u q y z x w) [] us -> path (q_u q y z x w) [] (ext (q_u q y z x w) n us)).
  { induction n as [|n IH]; intros vs Lv Pv; [exact Pv|]. cbn [ext]. apply IH; [rewrite app_length; cbn; lia|]. apply (proj2 (path_app _ _ _ _)). split; [exact Pv|].
    destruct (W4 w Hw vs ltac:(lia) Pv) as (_ & L4 & _). apply hd_in. cbn [app]. lia. }
  apply G; [lia|exact P].
Qed.
Lemma t_x_ok y z x : In y (q_y q) -> In z (q_z q y) -> In x (q_x q y z) -> tup (t_x y z x).
Proof.
  intros Hy Hz Hx. apply t_u_ok; try assumption; [|cbn; lia|exact I]. destruct W as [_ W1]. destruct (W1 y Hy) as [_ W2]. destruct (W2 z Hz) as [_ W3]. destruct (W3 x Hx) as [[_ L] _]. apply hd_in. lia.
Qed.
Lemma t_z_ok y z : In y (q_y q) -> In z (q_z q y) -> tup (t_z y z).
Proof.
  intros Hy Hz. apply t_x_ok; try assumption. destruct W as [_ W1]. destruct (W1 y Hy) as [_ W2]. destruct (W2 z Hz) as [[_ L] _]. apply hd_in. lia.
Qed.
Lemma t_0_ok : tup t_0.
Proof.
  pose proof W as [(_ & L & _) W1]. assert (Hy : In (hd_ (q_y q)) (q_y q)) by (apply hd_in; lia). apply t_z_ok; [exact Hy|]. destruct (W1 _ Hy) as [(_ & L2 & _) _]. apply hd_in. lia.
Qed.

Definition run_script : script (pt R) :=
  mkScript (fun j => nth j (cl_V R (cl t_0)) (pt0 R)) (cl_A R (cl t_0)) (cl_S R (cl t_0)) (fun y z => cl_T1 R (cl (t_z y z))) (fun y z => cl_T2 R (cl (t_z y z)))
    (fun y z x w us => nth (length us) (cl_L R (cl (t_u y z x w us))) (pt0 R)) (fun y z x w us => nth (length us) (cl_R R (cl (t_u y z x w us))) (pt0 R)).
Definition run_answers : answers :=
  mkAnswers (fun y z x => cl_t R (cl (t_x y z x))) (fun y z x => cl_taux R (cl (t_x y z x))) (fun y z x => cl_mu R (cl (t_x y z x)))
    (fun y z x w us => cl_a R (cl (y :: z :: x :: w :: us))) (fun y z x w us => cl_b R (cl (y :: z :: x :: w :: us))).

Lemma same_y t t' : tup t -> tup t' -> cl_V R (cl t) = cl_V R (cl t') /\ cl_A R (cl t) = cl_A R (cl t') /\ cl_S R (cl t) = cl_S R (cl t').
Proof. intros T T'. pose proof (tup_string t t' 0 T T' ltac:(lia) eq_refl) as E. cbn [strings nth_error] in E. injection E as E. apply str_y_inj. exact E. Qed.
Lemma same_x t t' : tup t -> tup t' -> firstn 2 t = firstn 2 t' -> cl_T1 R (cl t) = cl_T1 R (cl t') /\ cl_T2 R (cl t) = cl_T2 R (cl t').
Proof.
  intros T T' E2. pose proof (tup_string t t' 2 T T' ltac:(lia) E2) as E. cbn [strings nth_error] in E. injection E as E.
  eapply str_x_inj; [|exact E]. f_equal. apply (same_y t t' T T').
Qed.
Lemma same_w t t' : tup t -> tup t' -> firstn 3 t = firstn 3 t' -> cl_taux R (cl t) = cl_taux R (cl t') /\ cl_mu R (cl t) = cl_mu R (cl t') /\ cl_t R (cl t) = cl_t R (cl t').
Proof.
  intros T T' E3. pose proof (tup_string t t' 3 T T' ltac:(lia) E3) as E. cbn [strings nth_error] in E. injection E as E.
  eapply str_w_inj; [|exact E]. f_equal. apply (same_y t t' T T').
Qed.
Lemma same_round t t' i : tup t -> tup t' -> i < k -> firstn (4 + i) t = firstn (4 + i) t' ->
  nth_error (cl_L R (cl t)) i = nth_error (cl_L R (cl t')) i /\ nth_error (cl_R R (cl t)) i = nth_error (cl_R R (cl t')) i.
Proof.
  intros T T' Hi E4. pose proof (tup_string t t' (4 + i) T T' ltac:(lia) E4) as E. change (nth_error (str_rounds R [] (cl_L R (cl t)) (cl_R R (cl t))) i = nth_error (str_rounds R [] (cl_L R (cl t')) (cl_R R (cl t'))) i) in E.
  destruct (tup_shape t T) as (L1 & L2 & _). destruct (tup_shape t' T') as (L1' & L2' & _). apply str_rounds_inj; try lia. exact E.
Qed.
Lemma rounds_nth {X} (f : list F -> X) us : forall pre i, i < length us -> nth_error (rounds f pre us) i = Some (f (pre ++ firstn i us)).
Proof.
  induction us as [|u us IH]; intros pre i Hi; cbn [length] in Hi; [lia|]. destruct i as [|i]; cbn [rounds nth_error firstn]; [rewrite app_nil_r; reflexivity|].
  rewrite IH by lia. rewrite <- app_assoc. reflexivity.
Qed.
Lemma path_firstn qu us : forall pre i, path qu pre us -> path qu pre (firstn i us).
Proof. induction us as [|u us IH]; intros pre [|i] P; cbn [firstn path] in *; try exact I. destruct P as [P1 P2]. split; [exact P1|]. apply IH. exact P2. Qed.
Lemma rounds_of y z x w us (c : claim R -> list (pt R)) : (c = cl_L R \/ c = cl_R R) -> SpecRewind.asked q k y z x w us ->
  rounds (fun us => nth (length us) (c (cl (t_u y z x w us))) (pt0 R)) [] us = c (cl (y :: z :: x :: w :: us)).
Proof.
  intros HC A1. assert (T : tup (y :: z :: x :: w :: us)) by (exists y, z, x, w, us; auto). pose proof A1 as (Hy & Hz & Hx & Hw & LU & PU).
  assert (SH : forall t, tup t -> length (c (cl t)) = k) by (intros t Tt; destruct (tup_shape t Tt) as (S1 & S2 & _); destruct HC as [-> | ->]; assumption).
  apply nth_error_ext. intros i. destruct (Nat.lt_ge_cases i k) as [Hi|Hi].
  - rewrite rounds_nth by lia. cbn [app]. assert (LF : length (firstn i us) = i) by (apply firstn_length_le; lia). rewrite LF.
    assert (T' : tup (t_u y z x w (firstn i us))) by (apply t_u_ok; try assumption; [lia|apply path_firstn; exact PU]).
    destruct (same_round _ _ i T' T Hi) as [G1 G2].
    { unfold t_u. rewrite LF. destruct (ext_pre (q_u q y z x w) (k - i) (firstn i us)) as (r & E & _). rewrite E. cbn [Nat.add firstn]. do 4 f_equal.
      rewrite firstn_app, LF, Nat.sub_diag, firstn_O, app_nil_r. apply firstn_all2. lia. }
    assert (G : nth_error (c (cl (t_u y z x w (firstn i us)))) i = nth_error (c (cl (y :: z :: x :: w :: us))) i) by (destruct HC as [-> | ->]; assumption).
    rewrite <- G. symmetry. apply nth_error_nth'. rewrite (SH _ T'). exact Hi.
  - transitivity (@None (pt R)); [apply nth_error_None; rewrite rounds_length; lia|]. symmetry. apply nth_error_None. rewrite (SH _ T). exact Hi.
Qed.
Lemma runs y z x w us : SpecRewind.asked q k y z x w us -> let h := H (y :: z :: x :: w :: us) in let f := answer h A in
  P_Rewind.run R m run_script run_answers y z x w us h (claim_proof R h f) (claim_ip R h f).
Proof.
  intros A1 h f. assert (T : tup (y :: z :: x :: w :: us)) by (exists y, z, x, w, us; auto). pose proof A1 as (Hy & Hz & Hx & Hw & LU & PU).
  pose proof RW as [RW1 _]. destruct (RW1 _ _ _ _ _ A1) as (C & _ & _). fold h in C. fold f in C. change f with (cl (y :: z :: x :: w :: us)) in *. set (t := y :: z :: x :: w :: us) in *.
  destruct (tup_shape t T) as (S1 & S2 & S3 & S4). destruct (same_y t t_0 T t_0_ok) as (Y1 & Y2 & Y3). destruct (same_x t (t_z y z) T (t_z_ok y z Hy Hz) eq_refl) as [X1 X2].
  destruct (same_w t (t_x y z x) T (t_x_ok y z x Hy Hz Hx) eq_refl) as (W1 & W2 & W3).
  pose proof (rounds_of y z x w us (cl_L R) (or_introl eq_refl) A1) as RL. pose proof (rounds_of y z x w us (cl_R R) (or_intror eq_refl) A1) as RR. fold t in RL, RR.
  unfold strings in C. cbn [map] in C. injection C as C1 C2 C3 C4 C5. rewrite C1 in *. rewrite C2 in *. rewrite C3 in *.
  unfold P_Rewind.run. cbv zeta. rewrite !claim_vals. unfold claim_proof, claim_ip. cbn [pf_ip pf_V pf_A pf_S pf_T1 pf_T2 pf_taux pf_mu pf_t ip_L ip_R ip_A ip_B].
  unfold run_script, run_answers. cbn [s_V s_A s_S s_T1 s_T2 s_L s_R an_t an_taux an_mu an_a an_b]. rewrite <- Y1, <- Y2, <- Y3, <- X1, <- X2, <- W1, <- W2, <- W3. rewrite RL, RR. fold t.
  rewrite map_length.
  split; [reflexivity|]. split; [exact S3|]. split; [lia|]. split.
  { transitivity (firstn m (map (fun j => nth j (cl_V R (cl t)) (pt0 R)) (seq 0 (length (cl_V R (cl t)))))).
    - f_equal. apply nth_error_ext. intros i. destruct (Nat.lt_ge_cases i (length (cl_V R (cl t)))) as [Hi|Hi].
      + rewrite (nth_error_nth' _ (pt0 R) Hi). symmetry. etransitivity; [apply map_nth_error; rewrite (nth_error_nth' (seq 0 _) 0) by (rewrite seq_length; exact Hi); rewrite seq_nth by exact Hi; reflexivity|]. reflexivity.
      + transitivity (@None (pt R)); [apply nth_error_None; exact Hi|]. symmetry. apply nth_error_None. rewrite map_length, seq_length. exact Hi.
    - rewrite firstn_map. f_equal. replace (length (cl_V R (cl t))) with (m + (length (cl_V R (cl t)) - m)) by lia. rewrite seq_app.
      rewrite firstn_app, seq_length, Nat.sub_diag, firstn_O, app_nil_r. apply firstn_all2. rewrite seq_length. lia. }
  do 11 (split; [reflexivity|]). split; [exact C1|]. split; [exact C2|]. split; [exact C3|]. split; [exact C4|].
  rewrite <- str_rounds_challenges. exact C5.
Qed.
End Runs.

(** ** Provers that follow a script *)
Lemma ask_rounds_runs {B} h (L Rr : list F -> pt R) (kk : list F -> oracle B) us : forall hs pre,
  challenges (with_hash R h) hs (rounds L pre us) (rounds Rr pre us) = us ->
  answer h (ask_rounds R L Rr hs (length us) pre kk) = answer h (kk (pre ++ us)) /\
  SpecFork.asked h (ask_rounds R L Rr hs (length us) pre kk) = str_rounds R hs (rounds L pre us) (rounds Rr pre us) ++ SpecFork.asked h (kk (pre ++ us)).
Proof.
  induction us as [|u us IH]; intros hs pre C; [rewrite app_nil_r; split; reflexivity|].
  cbn [rounds challenges] in C. injection C as C1 C2. cbn [length ask_rounds answer SpecFork.asked rounds str_rounds].
  change (sderive (with_hash R h)) with h in C1. change (pbytes (with_hash R h)) with (pbytes R) in C1, C2. rewrite C1.
  destruct (IH _ (pre ++ [u]) C2) as [I1 I2]. rewrite I1, I2, <- app_assoc. split; reflexivity.
Qed.
Lemma prover_runs m k s an y z x w us h : length us = k ->
  P_Rewind.run R m s an y z x w us h (claim_proof R h (script_claim R m s an y z x w us)) (claim_ip R h (script_claim R m s an y z x w us)) ->
  answer h (prover R m k s an) = script_claim R m s an y z x w us /\
  SpecFork.asked h (prover R m k s an) = strings R h (script_claim R m s an y z x w us) /\
  map h (strings R h (script_claim R m s an y z x w us)) = y :: z :: x :: w :: us.
Proof.
  intros LU (_ & _ & _ & _ & _ & _ & _ & _ & _ & _ & _ & _ & _ & _ & _ & Cy & Cz & Cx & Cw & Cu). rewrite claim_vals in Cy, Cx, Cw. subst k.
  set (f := script_claim R m s an y z x w us) in *.
  assert (Y : h (str_y R f) = y) by exact Cy. assert (Z : h (sbytes R y) = z) by exact Cz.
  assert (X : h (str_x R f z) = x) by exact Cx. assert (Wc : h (str_w R f z x) = w) by exact Cw.
  destruct (ask_rounds_runs h (s_L s y z x w) (s_R s y z x w) (fun us => Give (script_claim R m s an y z x w us)) us [] [] Cu) as [I1 I2].
  unfold prover. cbn [answer SpecFork.asked].
  change (str_y R (script_claim R m s an f0 f0 f0 f0 [])) with (str_y R f). rewrite Y, Z.
  change (str_x R (script_claim R m s an y z f0 f0 []) z) with (str_x R f z). rewrite X.
  change (str_w R (script_claim R m s an y z x f0 []) z x) with (str_w R f z x). rewrite Wc.
  rewrite I1, I2. cbn [app answer SpecFork.asked]. rewrite app_nil_r. fold f. split; [reflexivity|]. unfold strings. rewrite Y, Z, X. split; [reflexivity|].
  cbn [map]. rewrite Y, Z, X, Wc. do 4 f_equal. rewrite str_rounds_challenges. exact Cu.
Qed.
(** programs whose questions have been answered in the same way so far *)
Lemma asked_agree {B} h h' (o : oracle B) : forall i, firstn i (map h (SpecFork.asked h o)) = firstn i (map h' (SpecFork.asked h' o)) ->
  forall s, In s (firstn i (SpecFork.asked h o)) -> h s = h' s.
Proof.
  induction o as [a|q c IH]; intros [|i] E s I; cbn [SpecFork.asked firstn map In] in *; try contradiction.
  injection E as E1 E2. destruct I as [<-|I]; [exact E1|]. apply (IH (h q) i); [|exact I]. rewrite <- E1 in E2. exact E2.
Qed.
Lemma script_rewound m k q H s an :
  (forall y z x w us, SpecRewind.asked q k y z x w us -> let h := H (y :: z :: x :: w :: us) in let f := script_claim R m s an y z x w us in
     P_Rewind.run R m s an y z x w us h (claim_proof R h f) (claim_ip R h f) /\ convincing R m h f) ->
  rewound R m k q H (prover R m k s an) (fun i => i).
Proof.
  intros HR. split.
  - intros y z x w us A1 t h f. destruct (HR _ _ _ _ _ A1) as [RUN CV]. destruct (prover_runs m k s an y z x w us h ltac:(apply A1) RUN) as (E1 & E2 & E3).
    unfold f. rewrite E1. split; [exact E3|]. split; [exact CV|]. intros i Hi. unfold history. rewrite E1, E2. apply nth_error_app1.
    rewrite <- (map_length h), E3. exact Hi.
  - intros y z x w us y' z' x' w' us' A1 A2 t t' i Hi E.
    destruct (HR _ _ _ _ _ A1) as [RUN _]. destruct (prover_runs m k s an y z x w us _ ltac:(apply A1) RUN) as (E1 & E2 & E3). fold t in E1, E2, E3.
    destruct (HR _ _ _ _ _ A2) as [RUN' _]. destruct (prover_runs m k s an y' z' x' w' us' _ ltac:(apply A2) RUN') as (E1' & E2' & E3'). fold t' in E1', E2', E3'.
    intros str I. apply (asked_agree (H t) (H t') (prover R m k s an) i).
    + rewrite E2, E2', E3, E3'. exact E.
    + unfold history in I. rewrite E1, E2 in I. rewrite firstn_app in I. rewrite E2. 
      replace (i - length (strings R (H t) (script_claim R m s an y z x w us))) with 0 in I; [rewrite firstn_O, app_nil_r in I; exact I|].
      rewrite <- (map_length (H t)), E3. fold t. lia.
Qed.
End Oracle.
