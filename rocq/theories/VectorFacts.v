(** Proofs about VectorModel.v and the algebra of SpecVector.v *)
From Coq Require Import String ZArith List Lia Bool Arith Field.
From Verif Require Import GoModel GoFacts Fld Rist RistFacts SpecVector VectorModel.
Import ListNotations.
Local Open Scope nat_scope.

(** ** Loops *)
Lemma for_loop_app {S} (body : nat -> S -> res S) n m lo st :
  for_loop lo (n + m) body st = let! st' := for_loop lo n body st in for_loop (lo + n) m body st'.
Proof.
  revert lo st. induction n as [|n IH]; intros lo st; cbn [Nat.add for_loop].
  - cbn [bind]. rewrite Nat.add_0_r. reflexivity.
  - destruct (body lo st) as [x|e|]; cbn [bind]; try reflexivity.
    rewrite IH. rewrite Nat.add_succ_r. reflexivity.
Qed.

Lemma for_loop_inv {S} (P : nat -> S -> Prop) (body : nat -> S -> res S) n lo st :
  P lo st -> (forall i s, lo <= i < lo + n -> P i s -> exists s', body i s = Ok s' /\ P (1 + i) s') ->
  exists s', for_loop lo n body st = Ok s' /\ P (lo + n) s'.
Proof.
  revert lo st. induction n as [|n IH]; intros lo st H0 HS; cbn [for_loop].
  - exists st. rewrite Nat.add_0_r. auto.
  - destruct (HS lo st ltac:(lia) H0) as [s' [E H1]]. rewrite E. cbn [bind].
    destruct (IH (1 + lo) s' H1) as [s2 [E2 H2]].
    + intros i s Hi. apply HS. lia.
    + exists s2. cbn [Nat.add] in *. rewrite E2. split; [reflexivity|].
      rewrite Nat.add_succ_r. exact H2.
Qed.

Lemma nth_error_map_seq {A} (f : nat -> A) n i : i < n -> nth_error (map f (seq 0 n)) i = Some (f i).
Proof.
  intros H. rewrite nth_error_map. rewrite (nth_error_nth' (seq 0 n) 0) by (rewrite seq_length; lia).
  rewrite seq_nth by lia. reflexivity.
Qed.

(** filling a slice of length n *)
Lemma fill_loop {A} (f : nat -> res A) (g : nat -> A) init n :
  length init = n -> (forall i, i < n -> f i = Ok (g i)) ->
  for_loop 0 n (fun i r => let! x := f i in set_idx r i x) init = Ok (map g (seq 0 n)).
Proof.
  intros L HF.
  destruct (for_loop_inv (fun k r => length r = n /\ forall i, i < k -> nth_error r i = Some (g i))
    (fun i r => let! x := f i in set_idx r i x) n 0 init) as [s [E [L1 H1]]].
  - split; [exact L|intros i Hi; lia].
  - intros i s Hi [Ls Hs]. rewrite HF by lia. cbn [bind]. unfold set_idx.
    destruct (Nat.ltb_spec i (length s)); [|lia]. eexists. split; [reflexivity|].
    split; [rewrite upd_length; exact Ls|]. intros j Hj.
    destruct (Nat.eq_dec j i) as [->|D].
    + apply upd_same. lia.
    + rewrite upd_other by congruence. apply Hs. lia.
  - rewrite E. f_equal. apply nth_error_ext. intros i.
    destruct (Nat.lt_ge_cases i n) as [Hi|Hi].
    + rewrite H1 by (cbn; lia). rewrite nth_error_map_seq by lia. reflexivity.
    + rewrite (proj2 (nth_error_None s i)) by lia.
      symmetry. apply nth_error_None. rewrite map_length, seq_length. lia.
Qed.

Lemma zipw_length {A B C} (f : A -> B -> C) a b : length a = length b -> length (zipw f a b) = length a.
Proof.
  revert b. induction a as [|x a IH]; intros [|y b] L; cbn in *; try lia. rewrite IH; lia.
Qed.
Lemma zipw_nth {A B C} (f : A -> B -> C) a b i x y :
  nth_error a i = Some x -> nth_error b i = Some y -> nth_error (zipw f a b) i = Some (f x y).
Proof.
  revert a b. induction i as [|i IH]; intros [|a0 a] [|b0 b] Ha Hb; cbn in *; try discriminate; auto.
  congruence.
Qed.

Lemma map_nth_seq {A B} (f : A -> B) (l : list A) d : map (fun i => f (nth i l d)) (seq 0 (length l)) = map f l.
Proof.
  induction l as [|x l IH]; cbn; [reflexivity|]. f_equal. rewrite <- IH.
  rewrite <- seq_shift, map_map. reflexivity.
Qed.
Lemma zipw_seq {A B C} (f : A -> B -> C) a b da db : length a = length b ->
  map (fun i => f (nth i a da) (nth i b db)) (seq 0 (length a)) = zipw f a b.
Proof.
  revert b. induction a as [|x a IH]; intros [|y b] L; cbn in *; try lia; [reflexivity|].
  f_equal. rewrite <- IH by lia. rewrite <- seq_shift, map_map. reflexivity.
Qed.

Lemma idx_nth {A} (l : list A) i d : i < length l -> idx l i = Ok (nth i l d).
Proof. intros H. unfold idx. rewrite (nth_error_nth' l d H). reflexivity. Qed.

Lemma loop1_map op a : loop1 op a = Ok (map op a).
Proof.
  unfold loop1.
  transitivity (for_loop 0 (length a) (fun i r => let! x := (let! x := idx a i in Ok (op x)) in set_idx r i x)
                  (make_scalars (length a))).
  - generalize (make_scalars (length a)). generalize 0. induction (length a) as [|n IH]; intros lo st; cbn [for_loop].
    + reflexivity.
    + destruct (idx a lo); cbn [bind]; try reflexivity. destruct (set_idx st lo _); cbn [bind]; try reflexivity. apply IH.
  - rewrite (fill_loop _ (fun i => op (nth i a f0))).
    + f_equal. apply map_nth_seq.
    + apply repeat_length.
    + intros i Hi. rewrite (idx_nth a i f0 Hi). reflexivity.
Qed.

Lemma for_loop_ext {S} (b1 b2 : nat -> S -> res S) n : forall lo st,
  (forall i s, b1 i s = b2 i s) -> for_loop lo n b1 st = for_loop lo n b2 st.
Proof.
  induction n as [|n IH]; intros lo st H; cbn [for_loop]; [reflexivity|]. rewrite H.
  destruct (b2 lo st); cbn [bind]; auto.
Qed.

Lemma loop2_zipw op a b : length a = length b -> loop2 op a b = Ok (zipw op a b).
Proof.
  intros L. unfold loop2.
  rewrite (for_loop_ext _ (fun i r => let! x := (let! x := idx a i in let! y := idx b i in Ok (op x y)) in set_idx r i x)).
  - rewrite (fill_loop _ (fun i => op (nth i a f0) (nth i b f0))).
    + f_equal. apply zipw_seq. exact L.
    + apply repeat_length.
    + intros i Hi. rewrite (idx_nth a i f0) by lia. rewrite (idx_nth b i f0) by lia. reflexivity.
  - intros i s. destruct (idx a i); cbn [bind]; try reflexivity. destruct (idx b i); reflexivity.
Qed.

(** ** Model functions *)
Lemma Add_ok a b : length a = length b -> Add a b = Ok (vadd a b).
Proof. intros L. unfold Add. rewrite L, Nat.eqb_refl. apply loop2_zipw. exact L. Qed.
Lemma Sub_ok a b : length a = length b -> Sub a b = Ok (zipw fsub a b).
Proof. intros L. unfold Sub. rewrite L, Nat.eqb_refl. apply loop2_zipw. exact L. Qed.
Lemma Hadamard_ok a b : length a = length b -> Hadamard a b = Ok (zipw fmul a b).
Proof. intros L. unfold Hadamard. rewrite L, Nat.eqb_refl. apply loop2_zipw. exact L. Qed.
Lemma Add_err a b : length a <> length b -> exists e, Add a b = Err e.
Proof. intros L. unfold Add. apply Nat.eqb_neq in L. rewrite L. eexists. reflexivity. Qed.
Lemma Sub_err a b : length a <> length b -> exists e, Sub a b = Err e.
Proof. intros L. unfold Sub. apply Nat.eqb_neq in L. rewrite L. eexists. reflexivity. Qed.
Lemma Hadamard_len a b : length a <> length b -> Hadamard a b = Err "Length of a does not equal length of b"%string.
Proof. intros L. unfold Hadamard. apply Nat.eqb_neq in L. rewrite L. reflexivity. Qed.
Lemma Hadamard_err a b : length a <> length b -> exists e, Hadamard a b = Err e.
Proof. intros L. unfold Hadamard. apply Nat.eqb_neq in L. rewrite L. eexists. reflexivity. Qed.
Lemma AddScalar_ok a b : AddScalar a b = Ok (map (fun x => fadd x b) a).
Proof. apply loop1_map. Qed.
Lemma MulScalar_ok a b : MulScalar a b = Ok (map (fun x => fmul x b) a).
Proof. apply loop1_map. Qed.
Lemma MulScalar_vscale a b : MulScalar a b = Ok (vscale b a).
Proof. rewrite MulScalar_ok. f_equal. apply map_ext. intros x. ring. Qed.
Lemma Neg_ok a : Neg a = Ok (map fneg a).
Proof. unfold Neg. destruct a; [reflexivity|]. cbn [length Nat.eqb]. apply loop1_map. Qed.
Lemma SubScalar_ok a b : SubScalar a b = Ok (map (fun x => fsub x b) a).
Proof.
  unfold SubScalar. destruct (feqb_spec b f0) as [->|_]; [|apply loop1_map].
  f_equal. rewrite <- (map_id a) at 1. apply map_ext. intros x. ring.
Qed.
Lemma map_const {A B} (c : B) (l : list A) : map (fun _ => c) l = repeat c (length l).
Proof. induction l; cbn; congruence. Qed.
Lemma FromScalar_ok a n : FromScalar a n = Ok (repeat a n).
Proof.
  unfold FromScalar. rewrite (for_loop_ext _ (fun i r => let! x := Ok a in set_idx r i x)) by reflexivity.
  rewrite (fill_loop _ (fun _ => a)); [|apply repeat_length|reflexivity].
  rewrite map_const, seq_length. reflexivity.
Qed.

Lemma fsum_app a b : fsum (a ++ b) = fadd (fsum a) (fsum b).
Proof. unfold fsum. induction a as [|x a IH]; cbn; [ring|rewrite IH; ring]. Qed.
Lemma fsum_cons x l : fsum (x :: l) = fadd x (fsum l). Proof. reflexivity. Qed.

Lemma for_loop_shift {S} (b1 b2 : nat -> S -> res S) n lo : forall st,
  (forall i s, b1 (1 + i) s = b2 i s) -> for_loop (1 + lo) n b1 st = for_loop lo n b2 st.
Proof.
  revert lo. induction n as [|n IH]; intros lo st H; cbn [for_loop]; [reflexivity|].
  cbn [Nat.add] in *. rewrite H. destruct (b2 lo st); cbn [bind]; [|reflexivity..].
  apply (IH (1 + lo)). exact H.
Qed.

Lemma InnerProduct_loop a : forall b r, length a = length b ->
  for_loop 0 (length a) (fun i r => let! x := idx a i in let! y := idx b i in Ok (fadd (fmul x y) r)) r
  = Ok (fadd r (dot a b)).
Proof.
  induction a as [|x a IH]; intros [|y b] r L; try discriminate.
  - cbn. f_equal. unfold dot, fsum. cbn. ring.
  - cbn [length for_loop idx nth_error bind].
    rewrite (for_loop_shift _ (fun i r => let! x := idx a i in let! y := idx b i in Ok (fadd (fmul x y) r)) _ 0)
      by reflexivity.
    rewrite IH by (cbn in L; lia). f_equal. unfold dot. cbn [zipw]. rewrite fsum_cons. ring.
Qed.
Lemma InnerProduct_ok a b : length a = length b -> InnerProduct a b = Ok (dot a b).
Proof.
  intros L. unfold InnerProduct. rewrite L, Nat.eqb_refl. cbn [negb]. rewrite <- L at 1.
  rewrite InnerProduct_loop by exact L. f_equal. ring.
Qed.
Lemma InnerProduct_err a b : length a <> length b -> exists e, InnerProduct a b = Err e.
Proof. intros L. unfold InnerProduct. apply Nat.eqb_neq in L. rewrite L. eexists. reflexivity. Qed.

(** ** Multi-scalar products *)
Section Msm.
Context {R : rist} (OK : rist_ok R).
Local Notation "p [+] q" := (padd R p q) (at level 50, left associativity).
Local Notation "s [*] p" := (smul R s p) (at level 40, left associativity).

Lemma psum_app a b : psum R (a ++ b) = psum R a [+] psum R b.
Proof.
  unfold psum. induction a as [|x a IH]; cbn; [symmetry; apply (padd_0_l R OK)|rewrite IH].
  apply (padd_assoc R OK).
Qed.
Lemma msm_nil_l P : msm R [] P = pt0 R. Proof. reflexivity. Qed.
Lemma msm_nil_r a : msm R a [] = pt0 R. Proof. destruct a; reflexivity. Qed.
Lemma msm_cons x a p P : msm R (x :: a) (p :: P) = x [*] p [+] msm R a P. Proof. reflexivity. Qed.
Lemma msm_app a a' P P' : length a = length P -> msm R (a ++ a') (P ++ P') = msm R a P [+] msm R a' P'.
Proof.
  revert P. induction a as [|x a IH]; intros [|p P] L; try discriminate.
  - cbn [app]. rewrite msm_nil_l. symmetry. apply (padd_0_l R OK).
  - cbn [app]. rewrite !msm_cons, IH by (cbn in L; lia). apply (padd_assoc R OK).
Qed.
Lemma msm_vscale c a P : msm R (vscale c a) P = c [*] msm R a P.
Proof.
  revert P. induction a as [|x a IH]; intros [|p P]; cbn [vscale map].
  1-3: rewrite ?msm_nil_l, ?msm_nil_r, smul_0_r by exact OK; reflexivity.
  change (map (fmul c) a) with (vscale c a). rewrite !msm_cons, IH. lin OK.
Qed.
Lemma msm_pscale c a P : msm R a (pscale R c P) = c [*] msm R a P.
Proof.
  revert P. induction a as [|x a IH]; intros [|p P]; cbn [pscale map].
  1-3: rewrite ?msm_nil_l, ?msm_nil_r, smul_0_r by exact OK; reflexivity.
  change (map (smul R c) P) with (pscale R c P). rewrite !msm_cons, IH. lin OK.
Qed.
Lemma msm_vadd a b P : length a = length b -> msm R (vadd a b) P = msm R a P [+] msm R b P.
Proof.
  revert b P. induction a as [|x a IH]; intros [|y b] [|p P] L; try discriminate; unfold vadd; cbn [zipw];
    rewrite ?msm_nil_l, ?msm_nil_r, ?(padd_0_l R OK); try reflexivity.
  rewrite !msm_cons. change (zipw fadd a b) with (vadd a b). rewrite IH by (cbn in L; lia). lin OK.
Qed.
Lemma msm_pvadd a P Q : length P = length Q -> msm R a (pvadd R P Q) = msm R a P [+] msm R a Q.
Proof.
  revert P Q. induction a as [|x a IH]; intros [|p P] [|q Q] L; try discriminate; unfold pvadd; cbn [zipw];
    rewrite ?msm_nil_l, ?msm_nil_r, ?(padd_0_l R OK); try reflexivity.
  rewrite !msm_cons. change (zipw (padd R) P Q) with (pvadd R P Q). rewrite IH by (cbn in L; lia). lin OK.
Qed.
Lemma msm_had a b P : length a = length b -> msm R (zipw fmul a b) P = msm R a (zipw (smul R) b P).
Proof.
  revert b P. induction a as [|x a IH]; intros [|y b] [|p P] L; try discriminate; cbn [zipw];
    rewrite ?msm_nil_l, ?msm_nil_r; try reflexivity.
  rewrite !msm_cons, IH by (cbn in L; lia). lin OK.
Qed.
Lemma msm_firstn_skipn k a P : length a = length P ->
  msm R a P = msm R (firstn k a) (firstn k P) [+] msm R (skipn k a) (skipn k P).
Proof.
  intros L. rewrite <- (firstn_skipn k a) at 1. rewrite <- (firstn_skipn k P) at 1.
  apply msm_app. rewrite !firstn_length. lia.
Qed.
(** the scalar side only reaches as far as the shorter list *)
Lemma msm_more a P Q : length a <= length P -> msm R a (P ++ Q) = msm R a P.
Proof.
  revert P. induction a as [|x a IH]; intros [|p P] L; cbn [length] in L; try lia; cbn [app];
    rewrite ?msm_nil_l, ?msm_cons; try reflexivity.
  rewrite IH by lia. reflexivity.
Qed.

Lemma Exp_loop b : forall a r, length a = length b ->
  for_loop 0 (length b) (fun i result =>
         let! scalar := idx a i in let! point := idx b i in
         Ok (padd R result (smul R scalar point))) r = Ok (r [+] msm R a b).
Proof.
  induction b as [|p b IH]; intros [|x a] r L; try discriminate.
  - cbn. f_equal. unfold msm, psum. cbn. symmetry. apply (padd_0_r OK).
  - cbn [length for_loop idx nth_error bind].
    rewrite (for_loop_shift _ (fun i result => let! scalar := idx a i in let! point := idx b i in
         Ok (padd R result (smul R scalar point))) _ 0) by reflexivity.
    rewrite IH by (cbn in L; lia). rewrite msm_cons. f_equal. symmetry. apply (padd_assoc R OK).
Qed.
Lemma Exp_ok a b N M : length a = length b -> (i64 (N * M) <= Z.of_nat (length a))%Z ->
  Exp R a b N M = Ok (msm R a b).
Proof.
  intros L H. unfold Exp. rewrite <- L, Nat.eqb_refl. cbn [negb].
  destruct (Z.ltb_spec (Z.of_nat (length a)) (i64 (N * M))); [lia|]. rewrite L.
  rewrite Exp_loop by exact L. f_equal. apply (padd_0_l R OK).
Qed.
Lemma Exp_err a b N M : length a <> length b \/ (Z.of_nat (length a) < i64 (N * M))%Z ->
  exists e, Exp R a b N M = Err e.
Proof.
  intros H. unfold Exp. destruct (Nat.eqb_spec (length a) (length b)) as [E|E]; cbn [negb].
  - destruct (Z.ltb_spec (Z.of_nat (length a)) (i64 (N * M))); [eexists; reflexivity|lia].
  - eexists. reflexivity.
Qed.
Lemma Exp_err_len a b N M : length a <> length b ->
  Exp R a b N M = Err "length of slice of scalars a does not equal length of slices of points b".
Proof. intros H. unfold Exp. destruct (Nat.eqb_spec (length a) (length b)) as [E|E]; [contradiction|reflexivity]. Qed.
End Msm.

Lemma i64_small z : (- 2 ^ 63 <= z < 2 ^ 63)%Z -> i64 z = z.
Proof. intros H. unfold i64. rewrite Z.mod_small by lia. lia. Qed.

(** ** Inner products *)
Lemma dot_nil_l b : dot [] b = f0. Proof. reflexivity. Qed.
Lemma dot_nil_r a : dot a [] = f0. Proof. destruct a; reflexivity. Qed.
Lemma dot_cons x a y b : dot (x :: a) (y :: b) = fadd (fmul x y) (dot a b). Proof. reflexivity. Qed.
Lemma dot_app a a' b b' : length a = length b -> dot (a ++ a') (b ++ b') = fadd (dot a b) (dot a' b').
Proof.
  revert b. induction a as [|x a IH]; intros [|y b] L; try discriminate; cbn [app].
  - rewrite dot_nil_l. ring.
  - rewrite !dot_cons, IH by (cbn in L; lia). ring.
Qed.
Lemma dot_comm a b : dot a b = dot b a.
Proof.
  revert b. induction a as [|x a IH]; intros [|y b]; try reflexivity. rewrite !dot_cons, IH. ring.
Qed.
Lemma dot_vscale_l c a b : dot (vscale c a) b = fmul c (dot a b).
Proof.
  revert b. induction a as [|x a IH]; intros [|y b]; cbn [vscale map]; rewrite ?dot_nil_l, ?dot_nil_r; try ring.
  change (map (fmul c) a) with (vscale c a). rewrite !dot_cons, IH. ring.
Qed.
Lemma dot_vscale_r c a b : dot a (vscale c b) = fmul c (dot a b).
Proof. rewrite dot_comm, dot_vscale_l, dot_comm. reflexivity. Qed.
Lemma dot_vadd_l a a' b : length a = length a' -> dot (vadd a a') b = fadd (dot a b) (dot a' b).
Proof.
  revert a' b. induction a as [|x a IH]; intros [|x' a'] [|y b] L; try discriminate; unfold vadd; cbn [zipw];
    rewrite ?dot_nil_l, ?dot_nil_r; try ring.
  rewrite !dot_cons. change (zipw fadd a a') with (vadd a a'). rewrite IH by (cbn in L; lia). ring.
Qed.
Lemma dot_vadd_r a b b' : length b = length b' -> dot a (vadd b b') = fadd (dot a b) (dot a b').
Proof. intros L. rewrite dot_comm, dot_vadd_l by exact L. rewrite !(dot_comm a). reflexivity. Qed.
Lemma dot_firstn_skipn k a b : length a = length b ->
  dot a b = fadd (dot (firstn k a) (firstn k b)) (dot (skipn k a) (skipn k b)).
Proof.
  intros L. rewrite <- (firstn_skipn k a) at 1. rewrite <- (firstn_skipn k b) at 1.
  apply dot_app. rewrite !firstn_length. lia.
Qed.
Lemma vadd_length a b : length a = length b -> length (vadd a b) = length a.
Proof. apply zipw_length. Qed.
Lemma vscale_length c a : length (vscale c a) = length a.
Proof. apply map_length. Qed.

(** ** Powers *)
Lemma powers_length x n : length (powers x n) = n.
Proof. unfold powers. rewrite map_length, seq_length. reflexivity. Qed.
Lemma powers_S x n : powers x (S n) = f1 :: vscale x (powers x n).
Proof.
  unfold powers, vscale. cbn [seq map]. f_equal. rewrite <- seq_shift, !map_map. reflexivity.
Qed.
Lemma powers_snoc x n : powers x (S n) = powers x n ++ [fpow x n].
Proof. unfold powers. rewrite seq_S, map_app. reflexivity. Qed.

Lemma ScalarPowers_ok a n : a <> f0 -> ScalarPowers a n = Ok (powers a n).
Proof.
  intros Ha. unfold ScalarPowers. destruct n as [|[|n]]; [reflexivity| |].
  - cbn. destruct (feqb_spec a f0); [contradiction|]. reflexivity.
  - cbn [Nat.eqb]. destruct (feqb_spec a f0); [contradiction|].
    cbn [make_scalars repeat set_idx length Nat.ltb Nat.leb bind upd Nat.sub].
    destruct (for_loop_inv (fun k r => length r = S (S n) /\ forall i, i < k -> nth_error r i = Some (fpow a i))
      (fun i r => let! p := idx r (i - 1) in set_idx r i (fmul p a)) n 2 (f1 :: a :: repeat f0 n)) as [s [E [L1 H1]]].
    + split; [cbn; rewrite repeat_length; reflexivity|]. intros [|[|i]] Hi; cbn; try lia; try reflexivity.
      f_equal. ring.
    + intros i s Hi [Ls Hs]. unfold idx. rewrite Hs by lia. cbn [bind]. unfold set_idx.
      destruct (Nat.ltb_spec i (length s)); [|lia]. eexists. split; [reflexivity|].
      split; [rewrite upd_length; exact Ls|]. intros j Hj.
      destruct (Nat.eq_dec j i) as [->|D].
      * rewrite upd_same by lia. f_equal. destruct i as [|i]; [lia|]. cbn [fpow].
        replace (S i - 1) with i by lia. ring.
      * rewrite upd_other by congruence. apply Hs. lia.
    + rewrite Nat.sub_0_r. rewrite E. f_equal. apply nth_error_ext. intros i.
      destruct (Nat.lt_ge_cases i (S (S n))) as [Hi|Hi].
      * rewrite H1 by lia. unfold powers. rewrite nth_error_map_seq by lia. reflexivity.
      * rewrite (proj2 (nth_error_None s i)) by lia. symmetry. apply nth_error_None. rewrite powers_length. lia.
Qed.
Lemma ScalarPowers_0 n : ScalarPowers f0 n = Ok (repeat f0 n).
Proof. unfold ScalarPowers. rewrite feqb_refl. destruct (Nat.eqb n 0); reflexivity. Qed.

Lemma ScalarPowersSum_ok a n : ScalarPowersSum a n = Ok (fsum (powers a n)).
Proof.
  unfold ScalarPowersSum. destruct n as [|[|n]].
  - reflexivity.
  - cbn. f_equal; ring.
  - cbn [Nat.eqb].
    destruct (for_loop_inv (fun k '(r, prev) => r = fsum (powers a k) /\ prev = fpow a (if Nat.leb k 1 then 1 else k - 1))
      (fun i '(r, prev) => let prev := if Nat.ltb 1 i then fmul prev a else prev in
         Ok (fadd r prev, prev)) (S (S n) - 1) 1 (f1, a)) as [[r prev] [E [H1 H2]]].
    + cbn. split; ring.
    + intros i [r prev] Hi [-> ->]. eexists. split; [reflexivity|].
      cbn [Nat.add]. rewrite powers_snoc, fsum_app. cbn [fsum fold_right].
      destruct i as [|[|i]]; [lia| |].
      * cbn. split; ring.
      * cbn [Nat.ltb Nat.leb Nat.sub]. rewrite ?Nat.sub_0_r. cbn [fpow]. split; ring.
    + cbn zeta in E. rewrite E. cbn [bind fst]. rewrite H1. f_equal.
Qed.

Lemma powers_sum_0 n : fsum (powers f0 (S n)) = f1.
Proof.
  rewrite powers_S, fsum_cons. replace (fsum (vscale f0 (powers f0 n))) with f0; [ring|].
  induction (powers f0 n) as [|x l IH]; [reflexivity|]. cbn [vscale map]. rewrite fsum_cons.
  change (map (fmul f0) l) with (vscale f0 l). rewrite <- IH. ring.
Qed.
Lemma fsum_zero n : fsum (repeat f0 n) = f0.
Proof. induction n as [|n IH]; [reflexivity|]. cbn [repeat]. rewrite fsum_cons, IH. ring. Qed.

(** ** Split *)
Lemma Split_ok {A} (x : list A) n : (0 <= n < u32 (Z.of_nat (length x)))%Z ->
  exists a b, Split x n = Ok (a, b) /\ a ++ b = x /\ Z.of_nat (length a) = n.
Proof.
  intros H. unfold Split. pose proof (Z.mod_le (Z.of_nat (length x)) (2 ^ 32)) as ML.
  unfold u32 in *. destruct x as [|x0 x]; [cbn in H; lia|]. cbn [length Nat.leb].
  destruct (Z.leb_spec (Z.of_nat (S (length x)) mod 2 ^ 32) n) as [C|C].
  - cbn [length] in H. lia.
  - eexists. eexists. split; [reflexivity|]. split; [apply firstn_skipn|].
    rewrite firstn_length. cbn [length] in *. lia.
Qed.
Lemma Split_err {A} (x : list A) n : (x = [] \/ u32 (Z.of_nat (length x)) <= n)%Z -> exists e, Split x n = Err e.
Proof.
  intros H. unfold Split. destruct x as [|x0 x]; [eexists; reflexivity|]. cbn [length Nat.leb] in *.
  destruct (Z.leb_spec (u32 (Z.of_nat (S (length x)))) n) as [C|C]; [eexists; reflexivity|].
  destruct H as [H|H]; [discriminate|lia].
Qed.
