(** Signatures made without the right key images, or without private keys *)
From Coq Require Import String ZArith List Lia Bool Arith Field.
From Coq Require Import Init.Byte.
From Verif Require Import GoModel GoFacts Fld Rist RistFacts SpecVector VectorFacts SpecMlsag MlsagModel MlsagFacts MlsagProve MlsagProps SpecRewind SpecFork ForkFacts.
Import ListNotations.
Local Open Scope nat_scope.

Section Attack.
Context {R : rist} (OK : rist_ok R).
Local Notation "p [+] q" := (padd R p q) (at level 50, left associativity).
Local Notation "s [*] p" := (smul R s p) (at level 40, left associativity).

Lemma respond_length c ns xs : length ns = length xs -> length (respond c ns xs) = length xs.
Proof. intros H. unfold respond. rewrite zipw_length by exact H. exact H. Qed.
Lemma scale_back c p q : c <> f0 -> p [+] c [*] (finv c [*] psub R q p) = q.
Proof.
  intros N. rewrite <- (smul_mul R OK). replace (fmul c (finv c)) with f1 by (rewrite <- (finv_l c N); ring).
  rewrite (smul_1 R OK). lin OK.
Qed.
Lemma respond_points c : forall ns xs, length ns = length xs ->
  zipw (fun r k => r [*] pbase R [+] c [*] k) (respond c ns xs) (keys_of R xs) = keys_of R ns.
Proof.
  unfold respond, keys_of. induction ns as [|a ns IH]; intros [|x xs] L; try discriminate; [reflexivity|].
  cbn in *. rewrite IH by lia. f_equal. lin OK.
Qed.
Lemma copy_points c ns xs Ts : length ns = length xs -> length Ts <= length xs -> c <> f0 ->
  row_points R (copy_images R c ns xs Ts) (keys_of R xs) (respond c ns xs) c = keys_of R ns ++ Ts.
Proof.
  intros L LT N. unfold row_points. rewrite respond_points by exact L. f_equal. unfold copy_images, respond, keys_of.
  revert xs Ts L LT. induction ns as [|a ns IH]; intros [|x xs] Ts L LT; try discriminate.
  - destruct Ts; [reflexivity|cbn in LT; lia].
  - destruct Ts as [|T Ts]; [reflexivity|]. cbn in *. rewrite IH by lia. f_equal. apply scale_back, N.
Qed.
Lemma copy_images_length c ns xs Ts : length ns = length xs -> length Ts <= length xs -> length (copy_images R c ns xs Ts) = length Ts.
Proof.
  intros L LT. unfold copy_images. revert L LT. unfold respond, keys_of. revert xs Ts.
  induction ns as [|a ns IH]; intros [|x xs] [|T Ts] L LT; try discriminate; cbn in *; try lia. rewrite IH; lia.
Qed.
(** n copies of one row *)
Lemma copies_verify msg ns xs Ts n d : let c := sderive R (copy_input R msg ns Ts) in
  length ns = length xs -> 0 < length Ts <= length xs -> c <> f0 -> 0 < n ->
  sig_Verify R (mkSig R c (repeat (respond c ns xs) n) (repeat (mkPK R d (keys_of R xs)) n) msg) (copy_images R c ns xs Ts) = Ok true.
Proof.
  intros c L LT N Hn. set (J := copy_images R c ns xs Ts). set (s := mkSig R c _ _ msg).
  assert (SR : sig_rows s = repeat (keys_of R xs, respond c ns xs) n).
  { unfold sig_rows. cbn [s sg_pub sg_r]. clear. induction n as [|n IH]; [reflexivity|]. cbn. rewrite IH. reflexivity. }
  assert (LJ : length J = length Ts) by (apply copy_images_length; lia).
  assert (FX : ring_chal R msg J (keys_of R xs) (respond c ns xs) c = c).
  { unfold ring_chal, J. rewrite copy_points by (assumption || lia). reflexivity. }
  assert (CH : forall k, ring_chain R msg J (repeat (keys_of R xs, respond c ns xs) k) c = c).
  { intros k. unfold ring_chain. induction k as [|k IH]; [reflexivity|]. cbn [repeat fold_left fst snd]. rewrite FX. exact IH. }
  rewrite Verify_shape.
  - replace (verify_rows s) with (repeat (keys_of R xs, respond c ns xs) (if Nat.eqb n 1 then n + n else n)).
    + cbn [s sg_msg sg_c]. rewrite CH, feqb_refl. reflexivity.
    + unfold verify_rows. rewrite SR. cbn [s sg_r]. rewrite repeat_length. destruct (Nat.eqb n 1); [apply repeat_app|reflexivity].
  - cbn [s sg_pub]. destruct n; [lia|discriminate].
  - cbn [s sg_r]. destruct n; [lia|discriminate].
  - intros C. rewrite C in LJ. cbn in LJ. lia.
  - split; [cbn [s sg_pub sg_r]; rewrite !repeat_length; apply le_n|]. rewrite SR. apply Forall_forall. intros r Ir. apply repeat_spec in Ir. subst r.
    unfold row_ok. cbn [fst snd]. rewrite respond_length by exact L. unfold keys_of. rewrite map_length. lia.
Qed.
Lemma copies_image msg ns xs Ts j a x T : let c := sderive R (copy_input R msg ns Ts) in c <> f0 ->
  nth_error ns j = Some a -> nth_error xs j = Some x -> nth_error Ts j = Some T ->
  exists im, nth_error (copy_images R c ns xs Ts) j = Some im /\
    (im = key_image R x <-> T = a [*] pderive R (pbytes R (x [*] pbase R))) /\
    key_image R x [+] finv c [*] psub R T (a [*] pderive R (pbytes R (x [*] pbase R))) = im.
Proof.
  intros c N Ea Ex ET. set (H := pderive R (pbytes R (x [*] pbase R))).
  assert (E : nth_error (combine (respond c ns xs) (keys_of R xs)) j = Some (fsub a (fmul c x), x [*] pbase R)).
  { apply combine_nth_error; [unfold respond; apply (zipw_nth (fun a x => fsub a (fmul c x)) ns xs j a x Ea Ex)|].
    unfold keys_of. rewrite (map_nth_error _ _ _ Ex). reflexivity. }
  pose proof (zipw_nth (fun T rk => finv c [*] psub R T (fst rk [*] pderive R (pbytes R (snd rk)))) Ts _ j T _ ET E) as Z.
  cbn [fst snd] in Z. fold H in Z. eexists. split; [exact Z|].
  assert (V : key_image R x [+] finv c [*] psub R T (a [*] H) = finv c [*] psub R T (fsub a (fmul c x) [*] H)).
  { unfold key_image. fold H. replace x with (fmul (finv c) (fmul c x)) at 1.
    - rewrite (smul_mul R OK). rewrite <- (smul_add_r R OK). f_equal. lin OK.
    - transitivity (fmul (fmul (finv c) c) x); [ring|]. rewrite finv_l by exact N. ring. }
  split; [|exact V]. rewrite <- V. split.
  - intros C. assert (D : finv c [*] psub R T (a [*] H) = pt0 R).
    { apply (padd_cancel_l OK (key_image R x)). rewrite C, (padd_0_r OK). reflexivity. }
    apply (smul_integral OK) in D. destruct D as [D|D]; [exfalso; exact (finv_neq0 c N D)|]. exact (proj1 (psub_eq0 OK _ _) D).
  - intros ->. rewrite (proj2 (psub_eq0 OK _ _) eq_refl), (smul_0_r OK), (padd_0_r OK). reflexivity.
Qed.

(** keys chosen last *)
Lemma late_points c ns xs ss Ts : length ns = length xs -> length ss = length Ts -> c <> f0 ->
  row_points R (map (key_image R) xs) (keys_of R xs ++ late_keys R c ss Ts) (respond c ns xs ++ ss) c =
  keys_of R ns ++ Ts ++ zipw (fun a x => a [*] pderive R (pbytes R (x [*] pbase R))) ns xs.
Proof.
  intros L LS N. unfold row_points.
  assert (ZA : forall A B C (g : A -> B -> C) u v u' v', length u = length v -> zipw g (u ++ u') (v ++ v') = zipw g u v ++ zipw g u' v').
  { clear. intros A B C g. induction u as [|x u IH]; intros [|y v] u' v' L; try discriminate; [reflexivity|]. cbn in *. rewrite IH by lia. reflexivity. }
  rewrite ZA by (rewrite respond_length by exact L; unfold keys_of; rewrite map_length; reflexivity).
  rewrite respond_points by exact L. rewrite <- app_assoc. f_equal. f_equal.
  - unfold late_keys. clear L. revert Ts LS. induction ss as [|s ss IH]; intros [|T Ts] LS; try discriminate; [reflexivity|].
    cbn in *. rewrite IH by lia. f_equal. apply scale_back, N.
  - unfold respond, keys_of. generalize (late_keys R c ss Ts). clear LS. revert xs L. 
    induction ns as [|a ns IH]; intros [|x xs] L K; try discriminate.
    + cbn. destruct K, ss; reflexivity.
    + cbn in *. rewrite IH by lia. f_equal. unfold key_image. lin OK.
Qed.
Lemma ring_chal_late c msg ns xs ss Ts : length ns = length xs -> length ss = length Ts -> c <> f0 ->
  ring_chal R msg (map (key_image R) xs) (keys_of R xs ++ late_keys R c ss Ts) (respond c ns xs ++ ss) c = sderive R (late_input R msg ns xs Ts).
Proof. intros L LS N. unfold ring_chal. rewrite late_points by assumption. reflexivity. Qed.
Lemma late_verify msg ns xs ss Ts decoys d : let J := map (key_image R) xs in
  let c := ring_chain R msg J decoys (sderive R (late_input R msg ns xs Ts)) in
  length ns = length xs -> length ss = length Ts -> xs <> [] -> c <> f0 -> Forall (row_ok R J) decoys ->
  sig_Verify R (mkSig R c ((respond c ns xs ++ ss) :: map snd decoys)
    (mkPK R d (keys_of R xs ++ late_keys R c ss Ts) :: map (fun row => mkPK R d (fst row)) decoys) msg) J = Ok true.
Proof.
  intros J c L LS NX N FD. set (row0 := (keys_of R xs ++ late_keys R c ss Ts, respond c ns xs ++ ss)). set (s := mkSig R c _ _ msg).
  assert (SR : sig_rows s = row0 :: decoys).
  { unfold sig_rows. cbn [s sg_pub sg_r map pk_keys combine]. unfold row0. f_equal. rewrite map_map. cbn [pk_keys].
    clear. induction decoys as [|[K r] l IH]; [reflexivity|]. cbn. rewrite IH. reflexivity. }
  assert (F0 : ring_chal R msg J (fst row0) (snd row0) c = sderive R (late_input R msg ns xs Ts)) by (apply ring_chal_late; assumption).
  assert (CH : ring_chain R msg J (row0 :: decoys) c = c).
  { unfold ring_chain. cbn [fold_left]. rewrite F0. reflexivity. }
  rewrite Verify_shape.
  - replace (ring_chain R (sg_msg R s) J (verify_rows s) (sg_c R s)) with c; [cbn [s sg_c]; rewrite feqb_refl; reflexivity|].
    unfold verify_rows. rewrite SR. cbn [s sg_msg sg_c]. destruct (Nat.eqb _ 1).
    + unfold ring_chain. rewrite fold_left_app. fold (ring_chain R msg J (row0 :: decoys) c). rewrite CH. symmetry. exact CH.
    + symmetry. exact CH.
  - discriminate.
  - discriminate.
  - unfold J. destruct xs; [congruence|discriminate].
  - split; [cbn [s sg_pub sg_r length]; rewrite !map_length; apply le_n|]. rewrite SR. constructor; [|exact FD].
    unfold row_ok, row0, J. cbn [fst snd]. rewrite !app_length, respond_length, map_length by exact L. unfold keys_of, late_keys. rewrite map_length, zipw_length by exact LS. lia.
Qed.
Lemma late_unknown c ss Ts j s T z : c <> f0 -> nth_error ss j = Some s -> nth_error Ts j = Some T ->
  exists k, nth_error (late_keys R c ss Ts) j = Some k /\ (k = smul R z (pbase R) <-> T = smul R (fadd s (fmul c z)) (pbase R)).
Proof.
  intros N Es ET. pose proof (zipw_nth (fun s T => smul R (finv c) (psub R T (smul R s (pbase R)))) ss Ts j s T Es ET) as Z.
  eexists. split; [exact Z|]. split; intros E.
  - rewrite <- (scale_back c (smul R s (pbase R)) T N). rewrite E. lin OK.
  - apply (smul_inj_r OK c _ _ N). apply (padd_cancel_l OK (smul R s (pbase R))). rewrite (scale_back c _ T N), E. lin OK.
Qed.
End Attack.

(** the signer as a program *)
Section Signer.
Context {R : rist} (OK : rist_ok R).
Lemma with_hash_laws h : rist_ok (with_hash R h).
Proof. destruct OK. constructor; assumption. Qed.
Lemma answer_pass {A} h msg J rows (k : F -> oracle A) : forall c,
  answer h (pass_rows R msg J rows c k) = answer h (k (ring_chain (with_hash R h) msg J rows c)).
Proof. induction rows as [|r rows IH]; intros c; [reflexivity|]. cbn [pass_rows answer]. rewrite IH. reflexivity. Qed.
Lemma signer_accepted h msg ns xs decoys : length ns = length xs -> xs <> [] ->
  Forall (row_ok R (map (key_image R) xs)) decoys ->
  let f := answer h (signer R msg ns xs decoys) in
  fg_c R f <> f0 -> accepted R (keys_of R xs :: map fst decoys) (length xs) h f /\ fg_msg R f = msg /\ fg_images R f = map (key_image R) xs.
Proof.
  intros L NX FD f N. set (J := map (key_image R) xs) in *.
  set (c := ring_chain (with_hash R h) msg J decoys (h (late_input R msg ns xs []))).
  assert (E : f = mkForgery R msg c (respond c ns xs :: map snd decoys) J).
  { unfold f, signer. cbn [answer]. rewrite answer_pass. reflexivity. }
  rewrite E in *. cbn [fg_c fg_msg fg_images] in *. split; [|split; reflexivity].
  unfold accepted. cbn [fg_c fg_r fg_msg fg_images]. split; [|split; [cbn [length]; rewrite !map_length; reflexivity|unfold J; apply map_length]].
  pose proof (late_verify (R := with_hash R h) (with_hash_laws h) msg ns xs [] [] decoys true L eq_refl NX N FD) as V.
  cbv zeta in V. cbn [late_keys zipw] in V. rewrite !app_nil_r in V.
  cbn [map]. rewrite map_map. exact V.
Qed.
Lemma asked_pass {A} h msg J rows (k : F -> oracle A) : forall c,
  asked h (pass_rows R msg J rows c k) = inputs R h msg J rows c ++ asked h (k (ring_chain (with_hash R h) msg J rows c)).
Proof. induction rows as [|r rows IH]; intros c; [reflexivity|]. cbn [pass_rows asked inputs app]. rewrite IH. reflexivity. Qed.
(** it asks for the strings of the rows, its own row first *)
Lemma signer_hashed h msg ns xs decoys : length ns = length xs -> decoys <> [] ->
  let A := signer R msg ns xs decoys in fg_c R (answer h A) <> f0 ->
  asked h A = late_input R msg ns xs [] :: inputs R h msg (map (key_image R) xs) decoys (h (late_input R msg ns xs [])) /\
  hashed R (keys_of R xs :: map fst decoys) h (answer h A) = asked h A.
Proof.
  intros L ND A. unfold A, signer. cbn [answer asked]. rewrite answer_pass, asked_pass. cbn [answer asked fg_c]. rewrite app_nil_r.
  set (J := map (key_image R) xs). set (c := ring_chain _ _ _ _ _). intros N. split; [reflexivity|].
  unfold hashed. cbn [fg_msg fg_images fg_c fg_r]. unfold passed. cbn [fg_r].
  replace (combine _ _) with ((keys_of R xs, respond c ns xs) :: decoys).
  2:{ cbn [combine]. f_equal. clear. induction decoys as [|[K r] l IH]; [reflexivity|]. cbn. rewrite <- IH. reflexivity. }
  destruct decoys as [|d l]; [congruence|].
  assert (E : input R msg J (keys_of R xs, respond c ns xs) c = late_input R msg ns xs []).
  { unfold input, late_input. cbn [fst snd]. pose proof (late_points OK c ns xs [] [] L eq_refl N) as P. cbn [late_keys zipw] in P. rewrite !app_nil_r in P. rewrite <- P. reflexivity. }
  cbn [inputs]. rewrite E. reflexivity.
Qed.
End Signer.
