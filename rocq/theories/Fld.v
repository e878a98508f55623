(** The scalar field: integers modulo [ell].

    Models the type [ristretto.Scalar] of the external library
    bwesterb/go-ristretto (imported e.g. by rangeproof/vector/vector.go:6 and
    mlsag/mlsag.go:10) together with its methods SetZero, SetOne, Add, Sub, Neg,
    Mul, MulAdd, Square, Inverse, Equals, IsNonZeroI, SetBigInt and BigInt.
    A scalar is represented by its canonical value in [0, ell); the in-memory
    limb representation is not modelled. *)
From Coq Require Import ZArith Znumtheory Zpow_facts Lia Eqdep_dec Bool Field.
From Verif Require Import Fermat Prime.
Local Open Scope Z_scope.

Arguments ell : simpl never.

Definition in_range (v : Z) : bool := (0 <=? v) && (v <? ell).

Record F : Type := mkF { fval : Z; fval_ok : in_range fval = true }.

Lemma ell_pos : 0 < ell. Proof. reflexivity. Qed.
Lemma ell_gt1 : 1 < ell. Proof. reflexivity. Qed.

Lemma in_range_mod (z : Z) : in_range (z mod ell) = true.
Proof.
  unfold in_range. pose proof (Z.mod_pos_bound z ell ell_pos) as H.
  apply andb_true_intro. split; [apply Z.leb_le|apply Z.ltb_lt]; lia.
Qed.

(** [Scalar.SetBigInt]: reduction modulo the group order. *)
Definition of_Z (z : Z) : F := mkF (z mod ell) (in_range_mod z).

(** [Scalar.BigInt]: the canonical representative. *)
Definition to_Z (x : F) : Z := fval x.

Lemma F_eq (x y : F) : fval x = fval y -> x = y.
Proof.
  destruct x as [a Ha], y as [b Hb]. cbn. intros ->.
  f_equal. apply UIP_dec. apply bool_dec.
Qed.

Lemma to_Z_range (x : F) : 0 <= to_Z x < ell.
Proof.
  destruct x as [a Ha]. unfold to_Z; cbn. unfold in_range in Ha.
  apply andb_prop in Ha. destruct Ha as [H1 H2].
  apply Z.leb_le in H1. apply Z.ltb_lt in H2. lia.
Qed.

Lemma of_Z_to_Z (x : F) : of_Z (to_Z x) = x.
Proof. apply F_eq. unfold of_Z; cbn. apply Z.mod_small. apply to_Z_range. Qed.

Lemma to_Z_of_Z (z : Z) : to_Z (of_Z z) = z mod ell.
Proof. reflexivity. Qed.

Lemma to_Z_inj (x y : F) : to_Z x = to_Z y -> x = y.
Proof. apply F_eq. Qed.

Definition f0 : F := of_Z 0.
Definition f1 : F := of_Z 1.
Definition fadd (x y : F) : F := of_Z (to_Z x + to_Z y).
Definition fsub (x y : F) : F := of_Z (to_Z x - to_Z y).
Definition fmul (x y : F) : F := of_Z (to_Z x * to_Z y).
Definition fneg (x : F) : F := of_Z (- to_Z x).
(** Inverse by Fermat exponentiation; the inverse of zero is zero. *)
Definition finv (x : F) : F := of_Z (Zpow_mod (to_Z x) (ell - 2) ell).
Definition fdiv (x y : F) : F := fmul x (finv y).
(** [Scalar.Equals] *)
Definition feqb (x y : F) : bool := to_Z x =? to_Z y.

Lemma feqb_spec (x y : F) : reflect (x = y) (feqb x y).
Proof.
  unfold feqb. destruct (Z.eqb_spec (to_Z x) (to_Z y)) as [H|H]; constructor.
  - apply to_Z_inj; exact H.
  - intros ->. apply H. reflexivity.
Qed.

Lemma feqb_refl (x : F) : feqb x x = true.
Proof. destruct (feqb_spec x x); [reflexivity|congruence]. Qed.

Lemma feqb_eq (x y : F) : feqb x y = true <-> x = y.
Proof. destruct (feqb_spec x y); split; intros; congruence. Qed.

Lemma F_eq_dec (x y : F) : {x = y} + {x <> y}.
Proof. destruct (feqb_spec x y); [left|right]; assumption. Qed.

(** [of_Z] is a ring homomorphism *)
Lemma of_Z_mod (z : Z) : of_Z (z mod ell) = of_Z z.
Proof. apply F_eq. cbn. apply Z.mod_mod. pose proof ell_pos; lia. Qed.
Lemma of_Z_add (a b : Z) : of_Z (a + b) = fadd (of_Z a) (of_Z b).
Proof. apply F_eq. unfold fadd. rewrite !to_Z_of_Z. cbn. apply Zplus_mod. Qed.
Lemma of_Z_mul (a b : Z) : of_Z (a * b) = fmul (of_Z a) (of_Z b).
Proof. apply F_eq. unfold fmul. rewrite !to_Z_of_Z. cbn. apply Zmult_mod. Qed.
Lemma of_Z_sub (a b : Z) : of_Z (a - b) = fsub (of_Z a) (of_Z b).
Proof. apply F_eq. unfold fsub. rewrite !to_Z_of_Z. cbn. apply Zminus_mod. Qed.
Lemma of_Z_neg (a : Z) : of_Z (- a) = fneg (of_Z a).
Proof.
  apply F_eq. unfold fneg. rewrite !to_Z_of_Z. cbn.
  rewrite <- !Z.sub_0_l. rewrite (Zminus_mod 0 (a mod ell)), (Zminus_mod 0 a).
  rewrite Z.mod_mod by (pose proof ell_pos; lia). reflexivity.
Qed.

Lemma F_rep (x : F) : exists z, x = of_Z z.
Proof. exists (to_Z x). symmetry. apply of_Z_to_Z. Qed.

Ltac frep :=
  repeat match goal with x : F |- _ =>
    let z := fresh "z" in destruct (F_rep x) as [z ->] end;
  unfold f0, f1;
  rewrite <- ?of_Z_add, <- ?of_Z_mul, <- ?of_Z_sub, <- ?of_Z_neg.

Lemma f1_neq_f0 : f1 <> f0.
Proof. intros H. apply (f_equal to_Z) in H. vm_compute in H. discriminate. Qed.

Lemma F_ring : ring_theory f0 f1 fadd fmul fsub fneg (@eq F).
Proof.
  constructor; intros; frep.
  all: repeat (rewrite <- ?of_Z_add, <- ?of_Z_mul, <- ?of_Z_sub, <- ?of_Z_neg);
       f_equal; ring.
Qed.

Lemma finv_l (x : F) : x <> f0 -> fmul (finv x) x = f1.
Proof.
  intros Hx. unfold finv.
  rewrite Zpow_mod_correct by (pose proof ell_gt1; lia || discriminate).
  rewrite of_Z_mod. rewrite <- (of_Z_to_Z x) at 2. rewrite <- of_Z_mul.
  rewrite Z.mul_comm, <- Z.pow_succ_r by discriminate.
  apply F_eq. cbn [of_Z fval f1].
  replace (Z.succ (ell - 2)) with (ell - 1) by lia.
  rewrite fermat_Z; [reflexivity|apply ell_prime|].
  intros [k Hk]. apply Hx. apply to_Z_inj.
  pose proof (to_Z_range x) as Hr. pose proof ell_pos as Hl.
  assert (k = 0) by nia. subst k. rewrite Hk. reflexivity.
Qed.

Lemma finv_0 : finv f0 = f0.
Proof. apply F_eq. vm_compute. reflexivity. Qed.

Lemma F_field : field_theory f0 f1 fadd fmul fsub fneg fdiv finv (@eq F).
Proof.
  constructor.
  - exact F_ring.
  - exact f1_neq_f0.
  - reflexivity.
  - exact finv_l.
Qed.

Add Field F_field_tac : F_field.

Lemma fmul_integral (x y : F) : fmul x y = f0 -> x = f0 \/ y = f0.
Proof.
  intros H. destruct (F_eq_dec x f0) as [->|Hx]; [left; reflexivity|right].
  assert (E : fmul (finv x) (fmul x y) = fmul (finv x) f0) by (rewrite H; reflexivity).
  replace (fmul (finv x) (fmul x y)) with (fmul (fmul (finv x) x) y) in E by ring.
  rewrite finv_l in E by assumption.
  replace (fmul f1 y) with y in E by ring. rewrite E. ring.
Qed.

Lemma finv_neq0 (x : F) : x <> f0 -> finv x <> f0.
Proof.
  intros Hx H. pose proof (finv_l x Hx) as E. rewrite H in E.
  apply f1_neq_f0. rewrite <- E. ring.
Qed.

Fixpoint fpow (x : F) (n : nat) : F :=
  match n with O => f1 | S k => fmul x (fpow x k) end.

Lemma fpow_add (x : F) (m n : nat) : fpow x (m + n) = fmul (fpow x m) (fpow x n).
Proof. induction m as [|m IH]; cbn; [ring|rewrite IH; ring]. Qed.
Lemma fpow_1_l (n : nat) : fpow f1 n = f1.
Proof. induction n as [|n IH]; cbn; [reflexivity|rewrite IH; ring]. Qed.
Lemma fpow_mul_l (x y : F) (n : nat) : fpow (fmul x y) n = fmul (fpow x n) (fpow y n).
Proof. induction n as [|n IH]; cbn; [ring|rewrite IH; ring]. Qed.
Lemma fpow_neq0 (x : F) (n : nat) : x <> f0 -> fpow x n <> f0.
Proof.
  intros Hx. induction n as [|n IH]; cbn; [exact f1_neq_f0|].
  intros H. apply fmul_integral in H. tauto.
Qed.
Lemma fpow_of_Z (z : Z) (n : nat) : fpow (of_Z z) n = of_Z (z ^ Z.of_nat n).
Proof.
  induction n as [|n IH].
  - reflexivity.
  - cbn [fpow]. rewrite IH, Nat2Z.inj_succ, Z.pow_succ_r by lia. rewrite of_Z_mul. reflexivity.
Qed.

Global Opaque fadd fsub fmul fneg finv fdiv f0 f1.
Declare Scope F_scope.
Delimit Scope F_scope with F.
Bind Scope F_scope with F.
Infix "+" := fadd : F_scope.
Infix "-" := fsub : F_scope.
Infix "*" := fmul : F_scope.
Notation "- x" := (fneg x) : F_scope.
Notation "0" := f0 : F_scope.
Notation "1" := f1 : F_scope.
