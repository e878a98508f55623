(** The laws [bn_ok] are satisfiable: groups of order five.  Used in the examples only. *)
From Coq Require Import String ZArith List Lia Bool Znumtheory Arith.
From Coq Require Import Init.Byte.
From Verif Require Import GoModel GoFacts Base64Model Bn.
Import ListNotations.
Local Open Scope Z_scope.

Inductive c5 := e0 | e1 | e2 | e3 | e4.
Definition to5 (x : c5) : Z := match x with e0 => 0 | e1 => 1 | e2 => 2 | e3 => 3 | e4 => 4 end.
Definition of5 (z : Z) : c5 := match z mod 5 with 0 => e0 | 1 => e1 | 2 => e2 | 3 => e3 | _ => e4 end.
Lemma of5_to5 x : of5 (to5 x) = x. Proof. destruct x; reflexivity. Qed.
Lemma to5_of5 z : to5 (of5 z) = z mod 5.
Proof.
  unfold of5. pose proof (Z.mod_pos_bound z 5 ltac:(lia)) as H. assert (C : z mod 5 = 0 \/ z mod 5 = 1 \/ z mod 5 = 2 \/ z mod 5 = 3 \/ z mod 5 = 4) by lia.
  destruct C as [C|[C|[C|[C|C]]]]; rewrite C; reflexivity.
Qed.
Lemma of5_mod a b : a mod 5 = b mod 5 -> of5 a = of5 b. Proof. unfold of5. intros ->. reflexivity. Qed.
Lemma of5_eq a b : of5 a = of5 b <-> (5 | a - b).
Proof.
  split.
  - intros E. apply (f_equal to5) in E. rewrite !to5_of5 in E. exists (a / 5 - b / 5). Z.div_mod_to_equations. lia.
  - intros [k E]. apply of5_mod. replace a with (b + k * 5) by lia. apply Z_mod_plus_full.
Qed.
Definition mul5 (k : Z) (x : c5) : c5 := of5 (k * to5 x).
Definition add5 (x y : c5) : c5 := of5 (to5 x + to5 y).
(** encodings of n bytes; the generator has the encoding given *)
Definition enc5 (n : nat) (g : bytes) (x : c5) : bytes := match x with e1 => g | _ => repeat (Z_byte (to5 x + 200)) n end.
Definition dec5 (n : nat) (g : bytes) (b : bytes) : option (c5 * bytes) :=
  match find (fun x => bytes_eqb (enc5 n g x) (firstn n b)) [e0; e1; e2; e3; e4] with Some x => Some (x, skipn n b) | None => None end.
Definition unhex (s : string) : bytes := match hex_dec (list_byte_of_string s) with Ok b => b | _ => [] end.
Definition decomp (b : bytes) : option c5 := match dec5 33 (repeat x01 33) b with Some (x, []) => Some x | _ => None end.

Definition five (h : bytes -> bytes) : bn :=
  mkBn c5 c5 c5 5 e1 e1 add5 mul5 add5 mul5 add5 of5 (fun x y => of5 (to5 x * to5 y))
    (enc5 64 (unhex g1Str)) (dec5 64 (unhex g1Str)) (enc5 129 (unhex g2Str)) (dec5 129 (unhex g2Str))
    (fun x => repeat (Z_byte (to5 x)) 384) (enc5 33 (repeat x01 33)) decomp
    (option c5) Some (fun _ => None)
    (fun x y => match x, y with Some x, Some y => Ok (Some (add5 x y)) | _, _ => Panic end)
    (fun k x => match x with Some x => Ok (Some (mul5 k x)) | None => Panic end)
    (fun x => match x with Some x => Ok (enc5 129 (unhex g2Str) x) | None => Ok [] end)
    (fun s x => match x with Some x => Ok (of5 (to5 s * to5 x)) | None => Panic end)
    (fun r => match r with RChunk (b :: _) :: _ => Ok (1 + byte_Z b mod 4) | _ => Err "EOF" end)
    h.

Lemma mul5_gen a : mul5 a e1 = of5 a. Proof. unfold mul5. f_equal. cbn. lia. Qed.
Lemma mul5_of k a : mul5 k (of5 a) = of5 (k * a).
Proof. unfold mul5. rewrite to5_of5. apply of5_mod. apply Zmult_mod_idemp_r. Qed.
Lemma add5_of a b : add5 (of5 a) (of5 b) = of5 (a + b).
Proof. unfold add5. rewrite !to5_of5. apply of5_mod. rewrite <- Zplus_mod. reflexivity. Qed.
Lemma prime5 : prime 5.
Proof.
  constructor; [lia|]. intros n H. assert (C : n = 1 \/ n = 2 \/ n = 3 \/ n = 4) by lia. destruct C as [-> | [-> | [-> | ->]]]; apply Zgcd_1_rel_prime; reflexivity.
Qed.
Lemma dec5_enc5 n g x r : length g = n -> (forall y, enc5 n g x = enc5 n g y -> x = y) -> dec5 n g (enc5 n g x ++ r) = Some (x, r).
Proof.
  intros L J. assert (Le : forall y, length (enc5 n g y) = n) by (intros []; cbn [enc5]; rewrite ?repeat_length; auto).
  assert (E1 : firstn n (enc5 n g x ++ r) = enc5 n g x) by (rewrite firstn_app, (Le x), Nat.sub_diag, firstn_O, app_nil_r; apply firstn_all2; rewrite (Le x); apply Nat.le_refl).
  assert (E2 : skipn n (enc5 n g x ++ r) = r) by (rewrite skipn_app, (Le x), Nat.sub_diag, skipn_O, skipn_all2 by (rewrite (Le x); apply Nat.le_refl); reflexivity).
  unfold dec5. rewrite E1, E2.
  destruct (find _ _) as [y|] eqn:E.
  - apply find_some in E. destruct E as [_ E]. destruct (bytes_eqb_spec (enc5 n g y) (enc5 n g x)) as [Q|]; [|discriminate]. rewrite (J y) by (symmetry; exact Q). reflexivity.
  - exfalso. assert (X : bytes_eqb (enc5 n g x) (enc5 n g x) = false) by (apply (find_none _ _ E); destruct x; cbn; tauto). rewrite bytes_eqb_refl in X. discriminate.
Qed.
Lemma enc5_inj n g x y : (forall y, y <> e1 -> hd x00 g <> Z_byte (to5 y + 200)) -> n <> O -> enc5 n g x = enc5 n g y -> x = y.
Proof.
  intros A N E. apply (f_equal (hd x00)) in E. destruct n; [contradiction|].
  destruct x, y; cbn [enc5 repeat hd] in E; try reflexivity; exfalso;
    first [ apply (A e0); [discriminate|congruence] | apply (A e2); [discriminate|congruence] | apply (A e3); [discriminate|congruence]
          | apply (A e4); [discriminate|congruence] | (vm_compute in E; discriminate) ].
Qed.
Ltac neq := let y := fresh in let N := fresh in let H := fresh in intros y N H; destruct y; [|contradiction| | |]; vm_compute in H; discriminate.
Lemma five_ok h : bn_ok (five h).
Proof.
  assert (J1 : forall x y, enc5 64 (unhex g1Str) x = enc5 64 (unhex g1Str) y -> x = y) by (intros x y; apply enc5_inj; (neq || discriminate)).
  assert (J2 : forall x y, enc5 129 (unhex g2Str) x = enc5 129 (unhex g2Str) y -> x = y) by (intros x y; apply enc5_inj; (neq || discriminate)).
  assert (J3 : forall x y, enc5 33 (repeat x01 33) x = enc5 33 (repeat x01 33) y -> x = y) by (intros x y; apply enc5_inj; (neq || discriminate)).
  constructor; cbn [five g1 g2 gt ord gen1 gen2 add1 mul1 add2 mul2 addt expt pair marshal1 unm1 marshal2 unm2 marshalt compress decompress v2 emb2 junk2 vadd2 vmul2 vmarshal2 vpair rand_k].
  - apply prime5.
  - intros P. exists (to5 P). rewrite mul5_gen, of5_to5. reflexivity.
  - intros. rewrite !mul5_gen, mul5_of. reflexivity.
  - intros. rewrite !mul5_gen, add5_of. reflexivity.
  - intros. rewrite !mul5_gen. apply of5_eq.
  - intros P. exists (to5 P). rewrite mul5_gen, of5_to5. reflexivity.
  - intros. rewrite !mul5_gen, mul5_of. reflexivity.
  - intros. rewrite !mul5_gen, add5_of. reflexivity.
  - intros. rewrite !mul5_gen. apply of5_eq.
  - reflexivity.
  - reflexivity.
  - intros. rewrite !mul5_gen, !to5_of5. apply of5_mod. rewrite <- Zmult_mod. reflexivity.
  - intros. apply add5_of.
  - intros. apply of5_eq.
  - intros. apply dec5_enc5; [vm_compute; reflexivity|intros y; apply J1].
  - intros []; vm_compute; reflexivity.
  - intros. apply dec5_enc5; [vm_compute; reflexivity|intros y; apply J2].
  - intros x y E. apply (f_equal (hd x00)) in E. destruct x, y; (reflexivity || (vm_compute in E; discriminate)).
  - intros x. apply repeat_length.
  - intros []; vm_compute; reflexivity.
  - intros P _. unfold decomp. rewrite <- (app_nil_r (enc5 33 (repeat x01 33) P)). rewrite dec5_enc5; [reflexivity|apply repeat_length|intros y; apply J3].
  - reflexivity.
  - reflexivity.
  - reflexivity.
  - reflexivity.
  - intros r x E. destruct r as [|[[|b r]|] l]; try discriminate. assert (X : x = 1 + byte_Z b mod 4) by congruence. clear E. pose proof (Z.mod_pos_bound (byte_Z b) 4 ltac:(lia)). lia.
  - exists (unhex g1Str). split; vm_compute; reflexivity.
  - exists (unhex g2Str). split; vm_compute; reflexivity.
Qed.
(** the hash used in the examples: one byte, the sum of the bytes plus two *)
Definition B5 : bn := five (fun b => [Z_byte (fold_right (fun x a => byte_Z x + a) 2 b)]).
Lemma B5_ok : bn_ok B5. Proof. apply five_ok. Qed.
