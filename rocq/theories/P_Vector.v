(** Properties C12-C15: rangeproof/vector/vector.go *)
From Coq Require Import String ZArith List Lia Bool Arith Field.
From Verif Require Import GoModel GoFacts Fld Rist RistFacts RistInst SpecVector VectorModel VectorFacts VectorProps.
Import ListNotations.
Local Open Scope nat_scope.

(** C12.  Results are stated index by index. *)
Theorem C12_add a b :
  (length a = length b -> exists c, Add a b = Ok c /\ length c = length a /\
     forall i x y, nth_error a i = Some x -> nth_error b i = Some y -> nth_error c i = Some (fadd x y)) /\
  (length a <> length b <-> exists e, Add a b = Err e).
Proof. exact (add_spec a b). Qed.
Print Assumptions C12_add.
Theorem C12_sub a b :
  (length a = length b -> exists c, Sub a b = Ok c /\ length c = length a /\
     forall i x y, nth_error a i = Some x -> nth_error b i = Some y -> nth_error c i = Some (fsub x y)) /\
  (length a <> length b <-> exists e, Sub a b = Err e).
Proof. exact (sub_spec a b). Qed.
Print Assumptions C12_sub.
Theorem C12_hadamard a b :
  (length a = length b -> exists c, Hadamard a b = Ok c /\ length c = length a /\
     forall i x y, nth_error a i = Some x -> nth_error b i = Some y -> nth_error c i = Some (fmul x y)) /\
  (length a <> length b <-> exists e, Hadamard a b = Err e).
Proof. exact (hadamard_spec a b). Qed.
Print Assumptions C12_hadamard.
Theorem C12_scalar_operations a b :
  AddScalar a b = Ok (map (fun x => fadd x b) a) /\
  SubScalar a b = Ok (map (fun x => fsub x b) a) /\
  MulScalar a b = Ok (map (fun x => fmul x b) a) /\
  Neg a = Ok (map fneg a) /\
  (forall n, FromScalar b n = Ok (repeat b n)).
Proof. exact (scalar_ops_spec a b). Qed.
Print Assumptions C12_scalar_operations.
Theorem C12_inner_product a b :
  (length a = length b -> InnerProduct a b = Ok (dot a b)) /\
  (length a <> length b <-> exists e, InnerProduct a b = Err e).
Proof. exact (inner_product_spec a b). Qed.
Print Assumptions C12_inner_product.
(** which error; the order of the checks in Exp and Split *)
Theorem C12_errors a b : length a <> length b ->
  Add a b = Err "Length of a does not equal b"%string /\ Sub a b = Err "Length of a does not equal b"%string /\
  Hadamard a b = Err "Length of a does not equal length of b"%string /\
  InnerProduct a b = Err "[Inner Product]:Length of a does not equal length of b"%string.
Proof. intros H. apply Nat.eqb_neq in H. unfold Add, Sub, Hadamard, InnerProduct. rewrite H. repeat split. Qed.
Print Assumptions C12_errors.
Example C12_ex : Add [of_Z 1; of_Z 2] [of_Z 3; of_Z (-2)] = Ok [of_Z 4; of_Z 0] /\
  InnerProduct [of_Z 1; of_Z 2] [of_Z 3; of_Z 4] = Ok (of_Z 11) /\
  (exists e, Add [f1] [] = Err e) /\ SubScalar [of_Z 5] f0 = Ok [of_Z 5].
Proof.
  rewrite Add_ok, InnerProduct_ok, SubScalar_ok by reflexivity. unfold vadd, dot, fsum. cbn.
  rewrite <- !of_Z_mul, <- !of_Z_add. change f0 with (of_Z 0). rewrite <- !of_Z_add, <- !of_Z_sub.
  repeat split; try reflexivity. eexists. reflexivity.
Qed.

(** C13. *)
Theorem C13_exp R (OK : rist_ok R) a b N M :
  (- 2 ^ 63 <= N * M < 2 ^ 63)%Z ->
  (length a = length b /\ (N * M <= Z.of_nat (length a))%Z -> Exp R a b N M = Ok (msm R a b)) /\
  (length a <> length b \/ (Z.of_nat (length a) < N * M)%Z <-> exists e, Exp R a b N M = Err e).
Proof. exact (exp_spec R OK a b N M). Qed.
Print Assumptions C13_exp.
Theorem C13_exp_errors R a b N M :
  (length a <> length b -> Exp R a b N M = Err "length of slice of scalars a does not equal length of slices of points b"%string) /\
  (length a = length b -> (- 2 ^ 63 <= N * M < 2 ^ 63)%Z -> (Z.of_nat (length a) < N * M)%Z ->
   Exp R a b N M = Err "length of scalar a is not less than N*M"%string).
Proof.
  split.
  - intros H. apply Nat.eqb_neq in H. unfold Exp. rewrite H. reflexivity.
  - intros L B H. unfold Exp. rewrite L, Nat.eqb_refl. cbn [negb]. rewrite i64_small by exact B. rewrite <- L. rewrite (proj2 (Z.ltb_lt _ _) H). reflexivity.
Qed.
Print Assumptions C13_exp_errors.
Theorem C13_exp_linear R (OK : rist_ok R) a a' b N M p p' c :
  Exp R a b N M = Ok p -> Exp R a' b N M = Ok p' ->
  Exp R (vadd (vscale c a) a') b N M = Ok (padd R (smul R c p) p').
Proof. exact (exp_linear R OK a a' b N M p p' c). Qed.
Print Assumptions C13_exp_linear.
Theorem C13_exp_linear_points R (OK : rist_ok R) a b b' N M p p' c :
  Exp R a b N M = Ok p -> Exp R a b' N M = Ok p' ->
  Exp R a (pvadd R (pscale R c b) b') N M = Ok (padd R (smul R c p) p').
Proof. exact (exp_linear_points R OK a b b' N M p p' c). Qed.
Print Assumptions C13_exp_linear_points.
Example C13_ex : Exp toy [f1; f1] [pbase toy; pbase toy] 1 2 = Ok (smul toy (fadd f1 f1) (pbase toy)) /\
  exists e, Exp toy [f1] [pbase toy] 1 2 = Err e.
Proof.
  split; [|eexists; reflexivity]. rewrite (Exp_ok toy_ok) by (vm_compute; congruence || reflexivity).
  f_equal.
Qed.

(** C14. *)
Theorem C14_powers a n : a <> f0 -> ScalarPowers a n = Ok (powers a n).
Proof. exact (ScalarPowers_ok a n). Qed.
Print Assumptions C14_powers.
Theorem C14_powers_zero_base n : ScalarPowers f0 n = Ok (repeat f0 n).
Proof. exact (ScalarPowers_0 n). Qed.
Print Assumptions C14_powers_zero_base.
Theorem C14_powers_refuted : ~ (forall a n, ScalarPowers a n = Ok (powers a n)).
Proof. exact powers_refuted. Qed.
Print Assumptions C14_powers_refuted.
Theorem C14_powers_sum a n : ScalarPowersSum a n = Ok (fsum (powers a n)).
Proof. exact (ScalarPowersSum_ok a n). Qed.
Print Assumptions C14_powers_sum.
Theorem C14_disagree a n l s : ScalarPowers a n = Ok l -> ScalarPowersSum a n = Ok s ->
  (fsum l <> s <-> a = f0 /\ 0 < n).
Proof. exact (powers_disagree a n l s). Qed.
Print Assumptions C14_disagree.
Theorem C14_geometric a n s : ScalarPowersSum a n = Ok s -> fmul (fsub a f1) s = fsub (fpow a n) f1.
Proof. exact (powers_sum_geometric a n s). Qed.
Print Assumptions C14_geometric.
Example C14_ex : ScalarPowers (of_Z 5) 3 = Ok [of_Z 1; of_Z 5; of_Z 25] /\ ScalarPowersSum (of_Z 5) 3 = Ok (of_Z 31).
Proof.
  rewrite ScalarPowers_ok, ScalarPowersSum_ok by (intros H; apply (f_equal to_Z) in H; vm_compute in H; discriminate).
  unfold powers. cbn [seq map fsum fold_right]. rewrite !fpow_of_Z. change f0 with (of_Z 0). rewrite <- !of_Z_add.
  split; reflexivity.
Qed.

(** C15.  (Split models both SplitPoints and SplitScalars.) *)
Theorem C15_split {A} (x : list A) n : (Z.of_nat (length x) < 2 ^ 32)%Z -> (0 <= n < 2 ^ 32)%Z ->
  ((x <> [] /\ (n < Z.of_nat (length x))%Z) ->
    exists a b, Split x n = Ok (a, b) /\ a ++ b = x /\ Z.of_nat (length a) = n) /\
  (x = [] \/ (Z.of_nat (length x) <= n)%Z <-> exists e, Split x n = Err e).
Proof. exact (split_spec x n). Qed.
Print Assumptions C15_split.
Theorem C15_split_errors {A} (x : list A) n : (Z.of_nat (length x) < 2 ^ 32)%Z ->
  Split ([] : list A) n = Err "Original vector has length of zero"%string /\
  (x <> [] -> (Z.of_nat (length x) <= n)%Z -> Split x n = Err "n is larger than the size of the slice x"%string).
Proof.
  intros B. split; [reflexivity|]. intros N H. unfold Split. destruct x as [|a x]; [congruence|]. cbn [length Nat.leb] in *.
  unfold u32. rewrite Z.mod_small by lia. rewrite (proj2 (Z.leb_le _ _) H). reflexivity.
Qed.
Print Assumptions C15_split_errors.
Theorem C15_points_and_scalars R (x : list (pt R)) (y : list F) n :
  ((Z.of_nat (length x) < 2 ^ 32)%Z -> SplitPoints R x n =
     if Nat.eqb (length x) 0 then Err "Original vector has length of zero"%string
     else if (Z.of_nat (length x) <=? n)%Z then Err "n is larger than the size of the slice x"%string else Ok (firstn (Z.to_nat n) x, skipn (Z.to_nat n) x)) /\
  ((Z.of_nat (length y) < 2 ^ 32)%Z -> SplitScalars y n =
     if Nat.eqb (length y) 0 then Err "Original vector has length of zero"%string
     else if (Z.of_nat (length y) <=? n)%Z then Err "n is larger than the size of the slice x"%string else Ok (firstn (Z.to_nat n) y, skipn (Z.to_nat n) y)).
Proof.
  split; intros B; unfold SplitPoints, SplitScalars, Split, u32; rewrite Z.mod_small by lia; [destruct x|destruct y]; reflexivity.
Qed.
Print Assumptions C15_points_and_scalars.
(** Beyond 2^32 elements the length is truncated, and a legal split position is refused. *)
Theorem C15_split_any_length_refuted :
  ~ (forall (x : list unit) n, (0 <= n < Z.of_nat (length x))%Z -> exists p, Split x n = Ok p).
Proof. exact split_refuted. Qed.
Print Assumptions C15_split_any_length_refuted.
Example C15_ex : Split [f0; f1; f0] 1 = Ok ([f0], [f1; f0]) /\ exists e, Split [f0; f1; f0] 3 = Err e.
Proof. split; [reflexivity|eexists; reflexivity]. Qed.
