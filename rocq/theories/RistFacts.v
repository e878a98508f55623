(** Consequences of the group laws and a decision procedure for linear
    equations between points. *)
From Coq Require Import String ZArith List Lia Bool Field Arith.
From Verif Require Import GoModel GoFacts Prime Fld Rist.
Import ListNotations.

Section Facts.
Context {R : rist} (OK : rist_ok R).
Local Notation "p [+] q" := (padd R p q) (at level 50, left associativity).
Local Notation "p [-] q" := (psub R p q) (at level 50, left associativity).
Local Notation "s [*] p" := (smul R s p) (at level 40, left associativity).

Lemma padd_0_r p : p [+] pt0 R = p.
Proof. rewrite (padd_comm R OK). apply (padd_0_l R OK). Qed.
Lemma padd_neg_l p : pneg R p [+] p = pt0 R.
Proof. rewrite (padd_comm R OK). apply (padd_neg_r R OK). Qed.
Lemma padd_cancel_l p q r : p [+] q = p [+] r -> q = r.
Proof.
  intros H. apply (f_equal (padd R (pneg R p))) in H.
  rewrite !(padd_assoc R OK), padd_neg_l, !(padd_0_l R OK) in H. exact H.
Qed.
Lemma padd_cancel_r p q r : q [+] p = r [+] p -> q = r.
Proof. rewrite !(padd_comm R OK _ p). apply padd_cancel_l. Qed.
Lemma smul_0_l p : f0 [*] p = pt0 R.
Proof.
  apply (padd_cancel_l (f0 [*] p)). rewrite <- (smul_add_l R OK), padd_0_r.
  f_equal; ring.
Qed.
Lemma smul_0_r s : s [*] pt0 R = pt0 R.
Proof.
  apply (padd_cancel_l (s [*] pt0 R)). rewrite <- (smul_add_r R OK), !padd_0_r. reflexivity.
Qed.
Lemma pneg_smul p : pneg R p = fneg f1 [*] p.
Proof.
  apply (padd_cancel_l p). rewrite (padd_neg_r R OK).
  transitivity (fadd f1 (fneg f1) [*] p).
  - replace (fadd f1 (fneg f1)) with f0 by ring. symmetry. apply smul_0_l.
  - rewrite (smul_add_l R OK), (smul_1 R OK). reflexivity.
Qed.
Lemma psub_smul p q : p [-] q = p [+] fneg f1 [*] q.
Proof. rewrite (psub_def R OK), pneg_smul. reflexivity. Qed.
Lemma psub_eq0 p q : p [-] q = pt0 R <-> p = q.
Proof.
  rewrite (psub_def R OK). split; intros H.
  - apply (padd_cancel_r (pneg R q)). rewrite H. symmetry. apply (padd_neg_r R OK).
  - subst. apply (padd_neg_r R OK).
Qed.
Lemma smul_integral s p : s [*] p = pt0 R -> s = f0 \/ p = pt0 R.
Proof.
  intros H. destruct (F_eq_dec s f0) as [E|E]; [left; exact E|right].
  rewrite <- (smul_1 R OK p), <- (finv_l s E), (smul_mul R OK), H. apply smul_0_r.
Qed.
Lemma smul_inj_l a b p : p <> pt0 R -> a [*] p = b [*] p -> a = b.
Proof.
  intros Hp H.
  assert (E : fsub a b [*] p = pt0 R).
  { replace (fsub a b) with (fadd a (fmul (fneg f1) b)) by ring.
    rewrite (smul_add_l R OK), (smul_mul R OK), <- psub_smul. apply psub_eq0. exact H. }
  apply smul_integral in E. destruct E as [E|E]; [|contradiction].
  replace a with (fadd (fsub a b) b) by ring. rewrite E. ring.
Qed.
Lemma smul_inj_r a p q : a <> f0 -> a [*] p = a [*] q -> p = q.
Proof.
  intros Ha H. rewrite <- (smul_1 R OK p), <- (smul_1 R OK q), <- (finv_l a Ha).
  rewrite !(smul_mul R OK), H. reflexivity.
Qed.
Lemma peqb_refl p : peqb R p p = true.
Proof. apply (peqb_ok R OK). reflexivity. Qed.
Lemma peqb_neq p q : peqb R p q = false <-> p <> q.
Proof.
  pose proof (peqb_ok R OK p q) as H. destruct (peqb R p q); split; intros E.
  - discriminate.
  - exfalso. apply E. apply H. reflexivity.
  - intros ->. destruct H as [_ H]. discriminate H. reflexivity.
  - reflexivity.
Qed.
Lemma pt_eq_dec (p q : pt R) : {p = q} + {p <> q}.
Proof.
  destruct (peqb R p q) eqn:E; [left; apply (peqb_ok R OK); exact E|right].
  apply peqb_neq. exact E.
Qed.
Lemma pbytes_inj p q : pbytes R p = pbytes R q -> p = q.
Proof.
  intros H. assert (E : Some p = Some q); [|congruence].
  rewrite <- !(pset_pbytes R OK), H. reflexivity.
Qed.
Lemma sbytes_inj a b : sbytes R a = sbytes R b -> a = b.
Proof. intros H. rewrite <- (sset_sbytes R OK a), <- (sset_sbytes R OK b), H. reflexivity. Qed.

(** ** Reflection of linear expressions *)
Inductive mex : Type :=
| MA (n : nat) | M0 | MAdd (a b : mex) | MSub (a b : mex) | MNeg (a : mex) | MS (f : F) (a : mex).

Fixpoint mden (env : list (pt R)) (e : mex) : pt R :=
  match e with
  | MA n => nth n env (pt0 R)
  | M0 => pt0 R
  | MAdd a b => mden env a [+] mden env b
  | MSub a b => mden env a [-] mden env b
  | MNeg a => pneg R (mden env a)
  | MS f a => f [*] mden env a
  end.

Fixpoint mcoef (k : nat) (e : mex) : F :=
  match e with
  | MA n => if Nat.eqb n k then f1 else f0
  | M0 => f0
  | MAdd a b => fadd (mcoef k a) (mcoef k b)
  | MSub a b => fsub (mcoef k a) (mcoef k b)
  | MNeg a => fneg (mcoef k a)
  | MS f a => fmul f (mcoef k a)
  end.

(** sum over the environment of coefficient times point *)
Fixpoint lsum (k : nat) (c : nat -> F) (env : list (pt R)) : pt R :=
  match env with
  | [] => pt0 R
  | p :: env' => c k [*] p [+] lsum (S k) c env'
  end.

Lemma lsum_add k c d env : lsum k (fun i => fadd (c i) (d i)) env = lsum k c env [+] lsum k d env.
Proof.
  revert k. induction env as [|p env IH]; intros k; cbn.
  - rewrite (padd_0_l R OK). reflexivity.
  - rewrite IH, (smul_add_l R OK). rewrite !(padd_assoc R OK).
    rewrite <- (padd_assoc R OK (c k [*] p)), (padd_comm R OK (d k [*] p)).
    rewrite !(padd_assoc R OK). reflexivity.
Qed.
Lemma lsum_scale k f c env : lsum k (fun i => fmul f (c i)) env = f [*] lsum k c env.
Proof.
  revert k. induction env as [|p env IH]; intros k; cbn.
  - rewrite smul_0_r. reflexivity.
  - rewrite IH, (smul_add_r R OK), (smul_mul R OK). reflexivity.
Qed.
Lemma lsum_ext k c d env : (forall i, c i = d i) -> lsum k c env = lsum k d env.
Proof. intros H. revert k. induction env as [|p env IH]; intros k; cbn; [reflexivity|]. rewrite IH, H. reflexivity. Qed.
Lemma lsum_zero k env : lsum k (fun _ => f0) env = pt0 R.
Proof.
  revert k. induction env as [|p env IH]; intros k; cbn; [reflexivity|].
  rewrite IH, smul_0_l, padd_0_r. reflexivity.
Qed.
Lemma lsum_unit_lt n k env : n < k -> lsum k (fun i => if Nat.eqb n i then f1 else f0) env = pt0 R.
Proof.
  revert k. induction env as [|p env IH]; intros k H; cbn; [reflexivity|].
  rewrite IH by lia. destruct (Nat.eqb_spec n k); [lia|]. rewrite smul_0_l, padd_0_r. reflexivity.
Qed.
Lemma lsum_unit n k env :
  lsum k (fun i => if Nat.eqb (n + k) i then f1 else f0) env = nth n env (pt0 R).
Proof.
  revert k n. induction env as [|p env IH]; intros k n; cbn.
  - destruct n; reflexivity.
  - destruct n as [|n].
    + cbn. rewrite Nat.eqb_refl, (smul_1 R OK), lsum_unit_lt by lia. apply padd_0_r.
    + destruct (Nat.eqb_spec (S n + k) k); [lia|].
      rewrite smul_0_l, (padd_0_l R OK). rewrite <- (IH (S k) n). apply lsum_ext.
      intros i. replace (S n + k) with (n + S k) by lia. reflexivity.
Qed.

Lemma mden_lsum env e : mden env e = lsum 0 (fun i => mcoef i e) env.
Proof.
  induction e as [n| |a IHa b IHb|a IHa b IHb|a IHa|f a IHa]; cbn [mden mcoef].
  - rewrite <- (lsum_unit n 0 env). apply lsum_ext. intros i. rewrite Nat.add_0_r. reflexivity.
  - symmetry. apply lsum_zero.
  - rewrite IHa, IHb, lsum_add. reflexivity.
  - rewrite IHa, IHb, psub_smul, <- lsum_scale, <- lsum_add. apply lsum_ext. intros i. ring.
  - rewrite IHa, pneg_smul, <- lsum_scale. apply lsum_ext. intros i. ring.
  - rewrite IHa, lsum_scale. reflexivity.
Qed.

Fixpoint coef_eq (k : nat) (a b : mex) (env : list (pt R)) : Prop :=
  match env with
  | [] => True
  | _ :: env' => mcoef k a = mcoef k b /\ coef_eq (S k) a b env'
  end.

Lemma coef_eq_sound k a b env :
  coef_eq k a b env -> lsum k (fun i => mcoef i a) env = lsum k (fun i => mcoef i b) env.
Proof.
  revert k. induction env as [|p env IH]; intros k H; cbn in *; [reflexivity|].
  destruct H as [H1 H2]. rewrite H1, (IH (S k) H2). reflexivity.
Qed.

Lemma mden_eq env a b : coef_eq 0 a b env -> mden env a = mden env b.
Proof. intros H. rewrite !mden_lsum. apply coef_eq_sound. exact H. Qed.
End Facts.

Ltac lin_mem x l :=
  lazymatch l with
  | @nil _ => constr:(false)
  | x :: _ => constr:(true)
  | _ :: ?l' => lin_mem x l'
  end.
Ltac lin_add x l :=
  let m := lin_mem x l in
  lazymatch m with
  | true => l
  | false => constr:(x :: l)
  end.
Ltac lin_pos x l :=
  lazymatch l with
  | x :: _ => constr:(O)
  | _ :: ?l' => let n := lin_pos x l' in constr:(S n)
  end.
Ltac lin_env R e acc :=
  lazymatch e with
  | pt0 _ => acc
  | padd _ ?a ?b => let acc := lin_env R a acc in lin_env R b acc
  | psub _ ?a ?b => let acc := lin_env R a acc in lin_env R b acc
  | pneg _ ?a => lin_env R a acc
  | smul _ _ ?a => lin_env R a acc
  | ?x => lin_add x acc
  end.
Ltac lin_reify e env :=
  lazymatch e with
  | pt0 _ => constr:(M0)
  | padd _ ?a ?b => let a := lin_reify a env in let b := lin_reify b env in constr:(MAdd a b)
  | psub _ ?a ?b => let a := lin_reify a env in let b := lin_reify b env in constr:(MSub a b)
  | pneg _ ?a => let a := lin_reify a env in constr:(MNeg a)
  | smul _ ?s ?a => let a := lin_reify a env in constr:(MS s a)
  | ?x => let n := lin_pos x env in constr:(MA n)
  end.

(** Reduces an equation between points to the equality of the coefficients of
    each atom. *)
Ltac lin_goals OK :=
  lazymatch goal with
  | |- @eq (pt ?R) ?a ?b =>
      let env := lin_env R a (@nil (pt R)) in
      let env := lin_env R b env in
      let ra := lin_reify a env in
      let rb := lin_reify b env in
      change (mden env ra = mden env rb);
      apply (mden_eq OK);
      cbn [coef_eq mcoef Nat.eqb]; repeat split
  end.
Ltac lin OK := lin_goals OK; try ring.
Ltac linf OK := lin_goals OK; try ring; try (field; auto).
