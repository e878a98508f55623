(** Fermat's little theorem for [Znumtheory.prime].  Mathematics only: models no code. *)
From Coq Require Import ZArith Znumtheory Zpow_facts Lia List Permutation.
Import ListNotations.
Local Open Scope Z_scope.

Definition zprod (l : list Z) : Z := fold_right Z.mul 1 l.

Lemma zprod_perm l l' : Permutation l l' -> zprod l = zprod l'.
Proof. induction 1; unfold zprod in *; cbn; [reflexivity|rewrite IHPermutation; reflexivity|ring|congruence]. Qed.

Lemma zprod_mul_mod p a l : 0 < p ->
  zprod (map (fun x => (a * x) mod p) l) mod p = (a ^ Z.of_nat (length l) * zprod l) mod p.
Proof.
  intros Hp. induction l as [|x l IH].
  - reflexivity.
  - cbn [map length]. unfold zprod in *. cbn [fold_right].
    rewrite Z.mul_mod by lia. rewrite IH, Z.mod_mod by lia. rewrite <- Z.mul_mod by lia.
    rewrite Nat2Z.inj_succ, Z.pow_succ_r by lia. f_equal. ring.
Qed.

Lemma zprod_coprime p l : prime p -> (forall x, In x l -> ~ (p | x)) -> ~ (p | zprod l).
Proof.
  intros Hp. induction l as [|x l IH]; intros H D.
  - cbn in D. destruct Hp as [H1 _]. apply Z.divide_1_r_nonneg in D; lia.
  - cbn in D. destruct (prime_mult p Hp _ _ D) as [E|E].
    + apply (H x); [left; reflexivity|exact E].
    + apply IH; [intros y Hy; apply H; right; exact Hy|exact E].
Qed.

Lemma NoDup_map_in {A B} (f : A -> B) l :
  (forall x y, In x l -> In y l -> f x = f y -> x = y) -> NoDup l -> NoDup (map f l).
Proof.
  intros Hi Hn. induction Hn as [|x l Hx Hn IH]; cbn; constructor.
  - intros H. apply in_map_iff in H. destruct H as [y [E Hy]].
    assert (y = x) by (apply Hi; cbn; auto). congruence.
  - apply IH. intros y z Hy Hz. apply Hi; cbn; auto.
Qed.

Theorem fermat_Z (p a : Z) : prime p -> ~ (p | a) -> (a ^ (p - 1)) mod p = 1.
Proof.
  intros Hp Ha. assert (Hp1 : 1 < p) by (destruct Hp; assumption).
  set (L := map Z.of_nat (seq 1 (Z.to_nat p - 1))).
  assert (InL : forall x, In x L <-> 0 < x < p).
  { intros x. unfold L. rewrite in_map_iff. split.
    - intros [n [<- Hn]]. apply in_seq in Hn. lia.
    - intros Hx. exists (Z.to_nat x). split; [lia|]. apply in_seq. lia. }
  assert (ND : forall x, 0 < x < p -> ~ (p | x)).
  { intros x Hx D. apply Z.divide_pos_le in D; lia. }
  assert (LL : Z.of_nat (length L) = p - 1).
  { unfold L. rewrite map_length, seq_length. lia. }
  assert (NL : NoDup L).
  { apply NoDup_map_in; [intros; lia|apply seq_NoDup]. }
  assert (PM : Permutation (map (fun x => (a * x) mod p) L) L).
  { apply NoDup_Permutation_bis.
    - apply NoDup_map_in; [|exact NL]. intros x y Hx Hy E.
      apply InL in Hx. apply InL in Hy.
      assert (D : (p | a * (x - y))).
      { apply Z.mod_divide; [lia|]. rewrite Z.mul_sub_distr_l, Zminus_mod, E, Z.sub_diag. reflexivity. }
      destruct (prime_mult p Hp _ _ D) as [D'|D']; [contradiction|].
      destruct D' as [k Hk]. assert (k = 0) by nia. lia.
    - rewrite map_length. reflexivity.
    - intros y Hy. apply in_map_iff in Hy. destruct Hy as [x [<- Hx]]. apply InL in Hx. apply InL.
      pose proof (Z.mod_pos_bound (a * x) p). 
      assert ((a * x) mod p <> 0); [|lia].
      intros E. apply Z.mod_divide in E; [|lia].
      destruct (prime_mult p Hp _ _ E) as [D|D]; [contradiction|]. exact (ND x Hx D). }
  pose proof (zprod_mul_mod p a L ltac:(lia)) as E. rewrite (zprod_perm _ _ PM), LL in E.
  assert (D : (p | (a ^ (p - 1) - 1) * zprod L)).
  { apply Z.mod_divide; [lia|]. rewrite Z.mul_sub_distr_r, Z.mul_1_l, Zminus_mod, <- E, Z.sub_diag. reflexivity. }
  destruct (prime_mult p Hp _ _ D) as [D'|D'].
  - destruct D' as [k Hk]. replace (a ^ (p - 1)) with (1 + k * p) by lia.
    rewrite Z_mod_plus_full. apply Z.mod_small. lia.
  - exfalso. apply (zprod_coprime p L Hp); [|exact D']. intros x Hx. apply ND. apply InL. exact Hx.
Qed.
