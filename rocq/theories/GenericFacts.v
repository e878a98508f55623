(** Generators without relations: coefficients whose point is zero in every library are zero *)
From Coq Require Import String ZArith List Lia Bool Arith Field.
From Coq Require Import Init.Byte.
From Verif Require Import GoModel GoFacts Prime Fld Rist RistFacts RistInst SpecVector SpecPedersen SpecIPP SpecRange SpecSound Poly.
Import ListNotations.
Local Open Scope nat_scope.

(** the first generators are a and b, every further one is u times the one before; the base of values is c *)
Definition geo (a b c u : F) (s : bytes) : F :=
  if length s =? 10 then c else if length s =? 21 then a else if length s =? 22 then b else fmul u (f_set s).
Lemma geo_chain a b c u n : forall p, chain (fin_rist (geo a b c u)) (f_bytes p) n = map (fun i => fmul p (fpow u (S i))) (seq 0 n).
Proof.
  induction n as [|n IH]; intros p; [reflexivity|]. cbn [chain]. 
  assert (E : pderive (fin_rist (geo a b c u)) (f_bytes p) = fmul u p).
  { change (geo a b c u (f_bytes p) = fmul u p). unfold geo. assert (L : length (f_bytes p) = 32) by apply le_bytes_length. rewrite L. cbn [Nat.eqb]. rewrite f_set_bytes. reflexivity. }
  cbv zeta. rewrite E. cbn [seq map]. f_equal; [cbn [fpow]; ring|].
  change (pbytes (fin_rist (geo a b c u)) (fmul u p)) with (f_bytes (fmul u p)). etransitivity; [exact (IH (fmul u p))|].
  rewrite <- seq_shift, map_map. apply map_ext. intros i. cbn [fpow]. ring.
Qed.
Lemma geo_seed a b c u s p n : geo a b c u s = p -> chain (fin_rist (geo a b c u)) s n = map (fun i => fmul p (fpow u i)) (seq 0 n).
Proof.
  intros E. destruct n as [|n]; [reflexivity|]. cbn [chain]. cbv zeta. change (pderive (fin_rist (geo a b c u)) s) with (geo a b c u s). rewrite E.
  cbn [seq map]. f_equal; [cbn [fpow]; ring|]. etransitivity; [exact (geo_chain a b c u n p)|]. rewrite <- seq_shift, map_map. reflexivity.
Qed.
Lemma fin_msm h (f g : nat -> F) (l : list nat) : msm (fin_rist h) (map f l) (map g l) = fsum (map (fun i => fmul (f i) (g i)) l).
Proof.
  induction l as [|i l IH]; [reflexivity|]. cbn [map].
  change (fadd (fmul (f i) (g i)) (msm (fin_rist h) (map f l) (map g l)) = fadd (fmul (f i) (g i)) (fsum (map (fun i => fmul (f i) (g i)) l))).
  f_equal. exact IH.
Qed.
Lemma geo_reval a b c u n v : reval (fin_rist (geo a b c u)) n v =
  fadd (fadd (fmul a (peval (map (rg v) (seq 0 n)) u)) (fmul b (peval (map (rh v) (seq 0 n)) u))) (fadd (fmul c (rb v)) (rl v)).
Proof.
  unfold reval, rp_G, rp_H. rewrite (geo_seed a b c u rp_seed a n) by reflexivity.
  rewrite (geo_seed a b c u (rp_seed ++ [Byte.x01]) b n) by reflexivity. rewrite !fin_msm, !peval_Sum.
  assert (S1 : forall p (w : nat -> F), fsum (map (fun i => fmul (w i) (fmul p (fpow u i))) (seq 0 n)) = fmul p (Sum n (fun i => fmul (fpow u i) (w i)))).
  { intros p w. rewrite <- Sum_scale. apply (Sum_ext n (fun i => fmul (w i) (fmul p (fpow u i)))). intros i _. ring. }
  rewrite !S1. change (rp_Base (fin_rist (geo a b c u))) with c. change (rp_Blind (fin_rist (geo a b c u))) with f1.
  change (@eq F (fadd (fadd (fmul a (Sum n (fun i => fmul (fpow u i) (rg v i)))) (fmul b (Sum n (fun i => fmul (fpow u i) (rh v i))))) (fadd (fmul (rb v) c) (fmul (rl v) f1)))
    (fadd (fadd (fmul a (Sum n (fun i => fmul (fpow u i) (rg v i)))) (fmul b (Sum n (fun i => fmul (fpow u i) (rh v i))))) (fadd (fmul c (rb v)) (rl v)))). ring.
Qed.
(** n different scalars tell n powers apart *)
Theorem free n v (us : list F) : NoDup us -> n <= length us -> (forall h, reval (fin_rist h) n v = f0) -> vanishes n v.
Proof.
  intros ND L H.
  assert (E : forall a b c u, fadd (fadd (fmul a (peval (map (rg v) (seq 0 n)) u)) (fmul b (peval (map (rh v) (seq 0 n)) u))) (fadd (fmul c (rb v)) (rl v)) = f0).
  { intros a b c u. rewrite <- geo_reval. apply H. }
  assert (EL : rl v = f0). { rewrite <- (E f0 f0 f0 f0). ring. }
  assert (EB : rb v = f0). { transitivity (fsub (rb v) (rl v)); [rewrite EL; ring|]. pose proof (E f0 f0 f1 f0) as X. rewrite EL in *. rewrite <- X at 2. ring. }
  assert (Z : forall w, (forall u, peval (map w (seq 0 n)) u = f0) -> forall i, i < n -> w i = f0).
  { intros w P i Hi. assert (A : Forall (fun x => x = f0) (map w (seq 0 n))).
    { apply (roots_zero us); [exact ND|rewrite map_length, seq_length; exact L|]. apply Forall_forall. intros x _. apply P. }
    rewrite Forall_map, Forall_forall in A. apply A. apply in_seq. lia. }
  split; [|split; [|split; [exact EB|exact EL]]]; apply Z; intros u.
  - pose proof (E f1 f0 f0 u) as X. rewrite EL, EB in X. rewrite <- X. ring.
  - pose proof (E f0 f1 f0 u) as X. rewrite EL, EB in X. rewrite <- X. ring.
Qed.
