(** Sums over ranges and polynomials over the scalar field: a polynomial with as many roots as
    coefficients is zero. *)
From Coq Require Import ZArith List Lia Bool Arith Field.
From Verif Require Import Fld SpecVector VectorFacts SpecSound.
Import ListNotations.
Local Open Scope nat_scope.

(** ** Sums *)
Lemma Sum_0 f : Sum 0 f = f0. Proof. reflexivity. Qed.
Lemma Sum_S n f : Sum (S n) f = fadd (Sum n f) (f n).
Proof. unfold Sum. rewrite seq_S, map_app, fsum_app. cbn. ring. Qed.
Lemma Sum_ext n f g : (forall i, i < n -> f i = g i) -> Sum n f = Sum n g.
Proof. intros H. unfold Sum. f_equal. apply map_ext_in. intros i Hi. apply in_seq in Hi. apply H. lia. Qed.
Lemma Sum_add n f g : Sum n (fun i => fadd (f i) (g i)) = fadd (Sum n f) (Sum n g).
Proof. induction n as [|n IH]; [cbn; ring|]. rewrite !Sum_S, IH. ring. Qed.
Lemma Sum_scale n c f : Sum n (fun i => fmul c (f i)) = fmul c (Sum n f).
Proof. induction n as [|n IH]; [cbn; ring|]. rewrite !Sum_S, IH. ring. Qed.
Lemma Sum_zero n f : (forall i, i < n -> f i = f0) -> Sum n f = f0.
Proof. intros H. rewrite (Sum_ext n f (fun _ => fmul f0 f0)) by (intros; rewrite H by assumption; ring). rewrite Sum_scale. ring. Qed.
Lemma Sum_split n m f : Sum (n + m) f = fadd (Sum n f) (Sum m (fun i => f (n + i))).
Proof.
  induction m as [|m IH]; [rewrite Nat.add_0_r; cbn; ring|]. rewrite Nat.add_succ_r, !Sum_S, IH. ring.
Qed.
Lemma Sum_blocks k m f : Sum (k * m) f = Sum m (fun j => Sum k (fun i => f (k * j + i))).
Proof.
  induction m as [|m IH]; [rewrite Nat.mul_0_r; reflexivity|]. rewrite Nat.mul_succ_r, Sum_split, IH, Sum_S. reflexivity.
Qed.
Lemma Sum_first n f : Sum (S n) f = fadd (f 0) (Sum n (fun i => f (S i))).
Proof. change (S n) with (1 + n). rewrite Sum_split. cbn. ring. Qed.
Lemma dot_Sum n f g : dot (map f (seq 0 n)) (map g (seq 0 n)) = Sum n (fun i => fmul (f i) (g i)).
Proof.
  induction n as [|n IH]; [reflexivity|]. rewrite seq_S, !map_app, dot_app by (rewrite !map_length; reflexivity). rewrite Sum_S, IH. cbn. ring.
Qed.

(** ** Polynomials, lowest coefficient first *)
Definition peval (cs : list F) (x : F) : F := fold_right (fun c acc => fadd c (fmul x acc)) f0 cs.
Fixpoint qdiv (cs : list F) (r : F) : list F :=
  match cs with
  | [] => []
  | c :: cs' => match cs' with [] => [] | _ => peval cs' r :: qdiv cs' r end
  end.
Lemma qdiv_length cs r : length (qdiv cs r) = length cs - 1.
Proof. induction cs as [|c [|d cs] IH]; [reflexivity|reflexivity|]. cbn [qdiv length] in *. rewrite IH. lia. Qed.
Lemma qdiv_ok cs r x : peval cs x = fadd (peval cs r) (fmul (fsub x r) (peval (qdiv cs r) x)).
Proof.
  induction cs as [|c [|d cs] IH]; [cbn; ring|cbn; ring|]. 
  change (peval (c :: d :: cs) x) with (fadd c (fmul x (peval (d :: cs) x))).
  change (peval (c :: d :: cs) r) with (fadd c (fmul r (peval (d :: cs) r))).
  change (peval (qdiv (c :: d :: cs) r) x) with (fadd (peval (d :: cs) r) (fmul x (peval (qdiv (d :: cs) r) x))).
  rewrite IH. ring.
Qed.
Lemma qdiv_zero cs r : peval cs r = f0 -> Forall (fun c => c = f0) (qdiv cs r) -> Forall (fun c => c = f0) cs.
Proof.
  induction cs as [|c [|d cs] IH]; intros E H; [constructor| |].
  - constructor; [|constructor]. cbn in E. rewrite <- E. ring.
  - cbn [qdiv] in H. inversion H as [|? ? H1 H2]; subst.
    change (fadd c (fmul r (peval (d :: cs) r)) = f0) in E. change (fadd d (fmul r (peval cs r))) with (peval (d :: cs) r) in H1. rewrite H1 in E.
    constructor; [rewrite <- E; ring|]. apply IH; assumption.
Qed.
Theorem roots_zero xs : forall cs, NoDup xs -> length cs <= length xs -> Forall (fun x => peval cs x = f0) xs -> Forall (fun c => c = f0) cs.
Proof.
  induction xs as [|r xs IH]; intros cs ND L H.
  - destruct cs; [constructor|cbn in L; lia].
  - inversion ND as [|? ? N1 N2]; subst. inversion H as [|? ? H1 H2]; subst. apply (qdiv_zero cs r H1). apply IH; [exact N2|rewrite qdiv_length; cbn in L; lia|].
    rewrite Forall_forall in *. intros x Hx. specialize (H2 x Hx). rewrite (qdiv_ok cs r x), H1 in H2.
    assert (E : fmul (fsub x r) (peval (qdiv cs r) x) = f0) by (rewrite <- H2; ring).
    apply fmul_integral in E. destruct E as [E|E]; [|exact E]. exfalso. apply N1. replace r with x; [exact Hx|].
    replace x with (fadd (fsub x r) r) by ring. rewrite E. ring.
Qed.
(** at most d roots unless zero *)
Theorem roots_bound cs xs : NoDup xs -> Forall (fun x => peval cs x = f0) xs -> ~ Forall (fun c => c = f0) cs -> length xs < length cs.
Proof. intros ND H N. destruct (Nat.lt_ge_cases (length xs) (length cs)) as [C|C]; [exact C|]. exfalso. apply N. apply (roots_zero xs); assumption. Qed.
Lemma peval_Sum n f x : peval (map f (seq 0 n)) x = Sum n (fun i => fmul (fpow x i) (f i)).
Proof.
  assert (G : forall k, peval (map f (seq k n)) x = Sum n (fun i => fmul (fpow x i) (f (k + i)))).
  { induction n as [|n IH]; intros k; [reflexivity|]. cbn [seq map]. change (peval (f k :: map f (seq (S k) n)) x) with (fadd (f k) (fmul x (peval (map f (seq (S k) n)) x))).
    rewrite IH, Sum_first, <- Sum_scale. cbn [fpow]. rewrite Nat.add_0_r. f_equal; [ring|]. apply Sum_ext. intros i _. rewrite Nat.add_succ_r. cbn [Nat.add]. ring. }
  rewrite G. apply Sum_ext. reflexivity.
Qed.

(** ** From many challenges to some with different squares *)
Definition sq (u : F) : F := fmul u u.
Lemma sq_eq u v : sq u = sq v -> u = v \/ u = fneg v.
Proof.
  unfold sq. intros E. assert (X : fmul (fsub u v) (fadd u v) = f0). { replace (fmul (fsub u v) (fadd u v)) with (fsub (fmul u u) (fmul v v)) by ring. rewrite E. ring. }
  apply fmul_integral in X. destruct X as [X|X]; [left|right].
  - replace u with (fadd (fsub u v) v) by ring. rewrite X. ring.
  - replace u with (fsub (fadd u v) v) by ring. rewrite X. ring.
Qed.
Definition other (u v : F) : bool := negb (feqb (sq u) (sq v)).
Lemma other_length u l : NoDup l -> length l <= length (filter (other u) l) + 2.
Proof.
  intros ND. assert (E : length l = length (filter (other u) l) + length (filter (fun v => negb (other u v)) l)).
  { clear. induction l as [|x l IH]; [reflexivity|]. cbn [filter length]. destruct (other u x); cbn [negb length]; lia. }
  assert (B : length (filter (fun v => negb (other u v)) l) <= length [u; fneg u]).
  { apply NoDup_incl_length; [apply NoDup_filter; exact ND|]. intros v Hv. apply filter_In in Hv. destruct Hv as [_ Hv].
    unfold other in Hv. rewrite negb_involutive in Hv. apply feqb_eq in Hv. symmetry in Hv. apply sq_eq in Hv. destruct Hv as [ -> | -> ]; cbn; auto. }
  cbn [length] in B. lia.
Qed.
Lemma four_squares l : NoDup l -> 7 <= length l -> exists a b c d, incl [a; b; c; d] l /\ NoDup [sq a; sq b; sq c; sq d].
Proof.
  intros ND L.
  assert (P : forall k (l : list F), NoDup l -> 2 * k < length l -> exists s, length s = S k /\ incl s l /\ NoDup (map sq s)).
  { clear. induction k as [|k IH]; intros l ND L.
    - destruct l as [|a l]; [cbn in L; lia|]. exists [a]. split; [reflexivity|]. split; [intros x [ <- | [] ]; left; reflexivity|]. repeat constructor. intros [].
    - destruct l as [|a l]; [cbn in L; lia|]. pose proof (other_length a (a :: l) ND) as B.
      destruct (IH (filter (other a) (a :: l))) as (s & S1 & S2 & S3); [apply NoDup_filter; exact ND|lia|].
      exists (a :: s). split; [cbn; lia|]. split.
      + intros x [ <- | Hx ]; [left; reflexivity|]. apply S2 in Hx. apply filter_In in Hx. apply Hx.
      + cbn [map]. constructor; [|exact S3]. intros C. apply in_map_iff in C. destruct C as (v & E & Hv). apply S2 in Hv. apply filter_In in Hv.
        destruct Hv as [_ Hv]. unfold other in Hv. rewrite E, feqb_refl in Hv. discriminate. }
  destruct (P 3 l ND ltac:(lia)) as (s & S1 & S2 & S3). destruct s as [|a [|b [|c [|d [|]]]]]; cbn in S1; try lia.
  exists a, b, c, d. split; [exact S2|exact S3].
Qed.
