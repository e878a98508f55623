(** Base64 encoding and decoding meet their specification *)
From Coq Require Import String ZArith List Lia Bool Arith.
From Coq Require Import Init.Byte.
From Verif Require Import GoModel GoFacts Base64Model SpecBase64.
Import ListNotations.
Local Open Scope Z_scope.

(** ** Numbers in positional notation *)
Lemma horner {A} (f : A -> Z) b l : forall acc, fold_left (fun a x => a * b + f x) l acc = acc * b ^ Z.of_nat (length l) + fold_left (fun a x => a * b + f x) l 0.
Proof.
  induction l as [|x l IH]; intros acc; cbn [fold_left length]; [cbn; lia|]. rewrite IH, (IH (0 * b + f x)). rewrite Nat2Z.inj_succ, Z.pow_succ_r by lia. ring.
Qed.
Lemma be_Z_cat a b : be_Z (a ++ b) = be_Z a * 256 ^ Z.of_nat (length b) + be_Z b.
Proof. unfold be_Z. rewrite fold_left_app. apply (horner byte_Z 256). Qed.
Lemma value64_cat a b : value64 (a ++ b) = value64 a * 64 ^ Z.of_nat (length b) + value64 b.
Proof. unfold value64. rewrite fold_left_app. apply (horner Z.of_nat 64). Qed.
Lemma value64_bound ds : digits ds -> 0 <= value64 ds < 64 ^ Z.of_nat (length ds).
Proof.
  induction ds as [|d ds IH] using rev_ind; intros H; [cbn; lia|]. apply Forall_app in H. destruct H as [H1 H2]. specialize (IH H1). inversion H2; subst.
  rewrite value64_cat, app_length. cbn [length value64 fold_left]. rewrite Nat2Z.inj_add, Z.pow_add_r by lia. change (64 ^ Z.of_nat 1) with 64. unfold value64 in *. lia.
Qed.

(** ** Characters *)
Lemma byte_eqb_eq a b : byte_eqb a b = true -> a = b.
Proof. intros E. apply Byte.byte_dec_bl. exact E. Qed.
Lemma char_alpha d : (d < 64)%nat -> b64_char (Z.of_nat d) = nth d alphabet x00 /\ b64_val (nth d alphabet x00) = Some (Z.of_nat d) /\ b64_skip (nth d alphabet x00) = false.
Proof.
  intros H. assert (C : forallb (fun d => byte_eqb (b64_char (Z.of_nat d)) (nth d alphabet x00) && match b64_val (nth d alphabet x00) with Some v => v =? Z.of_nat d | None => false end && negb (b64_skip (nth d alphabet x00))) (seq 0 64) = true) by (vm_compute; reflexivity).
  rewrite forallb_forall in C. assert (I : In d (seq 0 64)) by (apply in_seq; lia). specialize (C d I). apply andb_prop in C. destruct C as [C1 C3]. apply andb_prop in C1. destruct C1 as [C1 C2].
  split; [apply byte_eqb_eq; exact C1|]. split; [|apply negb_true_iff; exact C3]. destruct (b64_val (nth d alphabet x00)); [|discriminate]. apply Z.eqb_eq in C2. subst. reflexivity.
Qed.
Lemma val_alpha c v : b64_val c = Some v -> exists d, (d < 64)%nat /\ v = Z.of_nat d /\ c = nth d alphabet x00.
Proof.
  assert (C : match b64_val c with Some v => (Z.to_nat v <? 64)%nat && (0 <=? v) && byte_eqb c (nth (Z.to_nat v) alphabet x00) | None => true end = true) by (destruct c; vm_compute; reflexivity).
  intros E. rewrite E in C. apply andb_prop in C. destruct C as [C1 C3]. apply andb_prop in C1. destruct C1 as [C1 C2]. exists (Z.to_nat v).
  split; [apply Nat.ltb_lt; exact C1|]. split; [apply Z.leb_le in C2; lia|apply byte_eqb_eq; exact C3].
Qed.
Lemma skip_spec c : b64_skip c = byte_eqb c x0a || byte_eqb c x0d.
Proof. destruct c; reflexivity. Qed.

(** ** Encoding *)
Definition dg (v : Z) : nat := Z.to_nat (v mod 64).
Fixpoint enc_digits (src : bytes) : list nat :=
  match src with
  | a :: b :: c :: src' =>
      let val := byte_Z a * 65536 + byte_Z b * 256 + byte_Z c in dg (val / 262144) :: dg (val / 4096) :: dg (val / 64) :: dg val :: enc_digits src'
  | [a; b] => let val := byte_Z a * 65536 + byte_Z b * 256 in [dg (val / 262144); dg (val / 4096); dg (val / 64)]
  | [a] => let val := byte_Z a * 65536 in [dg (val / 262144); dg (val / 4096)]
  | [] => []
  end.
Lemma dg_range v : (dg v < 64)%nat.
Proof. unfold dg. pose proof (Z.mod_pos_bound v 64). lia. Qed.
Lemma dg_char v : b64_char (v mod 64) = nth (dg v) alphabet x00.
Proof. rewrite <- (proj1 (char_alpha (dg v) (dg_range v))). f_equal. unfold dg. pose proof (Z.mod_pos_bound v 64). lia. Qed.
Lemma list_ind3 {A} (P : list A -> Prop) : P [] -> (forall a, P [a]) -> (forall a b, P [a; b]) -> (forall a b c l, P l -> P (a :: b :: c :: l)) -> forall l, P l.
Proof.
  intros H0 H1 H2 H3. assert (K : forall n l, (length l <= n)%nat -> P l).
  { induction n as [|n IH]; intros l L; [destruct l; [exact H0|cbn in L; lia]|]. destruct l as [|a [|b [|c l]]]; auto. apply H3, IH. cbn in L. lia. }
  intros l. exact (K (length l) l (Nat.le_refl _)).
Qed.
Lemma list_ind4 {A} (P : list A -> Prop) : P [] -> (forall a, P [a]) -> (forall a b, P [a; b]) -> (forall a b c, P [a; b; c]) -> (forall a b c d l, P l -> P (a :: b :: c :: d :: l)) -> forall l, P l.
Proof.
  intros H0 H1 H2 H3 H4. assert (K : forall n l, (length l <= n)%nat -> P l).
  { induction n as [|n IH]; intros l L; [destruct l; [exact H0|cbn in L; lia]|]. destruct l as [|a [|b [|c [|d l]]]]; auto. apply H4, IH. cbn in L. lia. }
  intros l. exact (K (length l) l (Nat.le_refl _)).
Qed.
Lemma enc_text src : b64_enc src = text (enc_digits src) /\ digits (enc_digits src).
Proof.
  induction src as [|a|a b|a b c l IH] using list_ind3; cbn [b64_enc enc_digits text map]; rewrite ?dg_char.
  - split; [reflexivity|constructor].
  - split; [reflexivity|]. unfold digits; repeat (apply Forall_cons; [apply dg_range|]); apply Forall_nil.
  - split; [reflexivity|]. unfold digits; repeat (apply Forall_cons; [apply dg_range|]); apply Forall_nil.
  - destruct IH as [-> H]. split; [reflexivity|]. unfold digits; repeat (apply Forall_cons; [apply dg_range|]). exact H.
Qed.
Lemma enc_len src : let s := spare (enc_digits src) src in (s = 0 \/ s = 2 \/ s = 4) /\ (length (enc_digits src) = (4 * length src + 2) / 3)%nat.
Proof.
  cbn zeta. unfold spare. induction src as [|a|a b|a b c l IH] using list_ind3; try (cbn; split; [lia|reflexivity]).
  cbn [enc_digits length] in *. destruct IH as [H1 H2]. split; [lia|]. rewrite H2. replace (4 * S (S (S (length l))) + 2)%nat with (4 * length l + 2 + 4 * 3)%nat by lia. rewrite Nat.div_add by lia. lia.
Qed.
Lemma pow_split ds b : 0 <= spare ds b -> 64 ^ Z.of_nat (length ds) = 256 ^ Z.of_nat (length b) * 2 ^ spare ds b.
Proof.
  intros H. change 64 with (2 ^ 6). change 256 with (2 ^ 8). rewrite <- !Z.pow_mul_r, <- Z.pow_add_r by lia. f_equal. unfold spare. lia.
Qed.
Lemma Zdg v : Z.of_nat (dg v) = v mod 64.
Proof. unfold dg. pose proof (Z.mod_pos_bound v 64). lia. Qed.
Lemma four_digits v : 0 <= v < 16777216 -> value64 [dg (v / 262144); dg (v / 4096); dg (v / 64); dg v] = v.
Proof. intros H. cbn [value64 fold_left]. rewrite !Zdg. Z.div_mod_to_equations. lia. Qed.
Lemma enc_value src : value64 (enc_digits src) = be_Z src * 2 ^ spare (enc_digits src) src.
Proof.
  induction src as [|a|a b|a b c l IH] using list_ind3.
  - reflexivity.
  - unfold spare. cbn [enc_digits length value64 fold_left be_Z]. rewrite !Zdg. change (2 ^ (6 * Z.of_nat 2 - 8 * Z.of_nat 1)) with 16. pose proof (byte_Z_range a). Z.div_mod_to_equations. lia.
  - unfold spare. cbn [enc_digits length value64 fold_left be_Z]. rewrite !Zdg. change (2 ^ (6 * Z.of_nat 3 - 8 * Z.of_nat 2)) with 4. pose proof (byte_Z_range a). pose proof (byte_Z_range b). Z.div_mod_to_equations. lia.
  - cbn [enc_digits]. cbv zeta. set (v := byte_Z a * 65536 + byte_Z b * 256 + byte_Z c).
    change (dg (v / 262144) :: dg (v / 4096) :: dg (v / 64) :: dg v :: enc_digits l) with ([dg (v / 262144); dg (v / 4096); dg (v / 64); dg v] ++ enc_digits l).
    change (a :: b :: c :: l) with ([a; b; c] ++ l). rewrite value64_cat, be_Z_cat, IH.
    pose proof (byte_Z_range a). pose proof (byte_Z_range b). pose proof (byte_Z_range c). rewrite four_digits by (unfold v; lia).
    assert (S : spare ([dg (v / 262144); dg (v / 4096); dg (v / 64); dg v] ++ enc_digits l) ([a; b; c] ++ l) = spare (enc_digits l) l) by (unfold spare; rewrite !app_length; cbn [length]; lia).
    rewrite S, pow_split with (b := l) by (destruct (proj1 (enc_len l)) as [X|[X|X]]; rewrite X; lia). replace (be_Z [a; b; c]) with v by (unfold v; cbn [be_Z fold_left]; ring). ring.
Qed.

(** ** Decoding *)
Lemma dec_unbroken s : forall q dst, b64_dec q dst s = b64_dec q dst (unbroken s).
Proof.
  induction s as [|c s IH]; intros q dst; cbn [unbroken filter]; [reflexivity|]. fold (unbroken s). rewrite <- skip_spec. cbn [b64_dec]. destruct (b64_skip c) eqn:E; cbn [negb]; [apply IH|].
  cbn [b64_dec]. rewrite E. destruct (b64_val c); [|reflexivity]. cbv zeta. destruct (Nat.eqb _ 4); apply IH.
Qed.
Fixpoint quanta (ds : list nat) : bytes :=
  match ds with
  | x :: y :: z :: w :: ds' => b64_quantum (map Z.of_nat [x; y; z; w]) ++ quanta ds'
  | ds => b64_quantum (map Z.of_nat ds)
  end.
Ltac step H := match type of H with digits (_ :: _) => let H1 := fresh "D" in inversion H as [|? ? H1 ?]; subst; clear H end.
Lemma dec_digits ds : digits ds -> forall dst, b64_dec [] dst (text ds) = if (length ds mod 4 =? 1)%nat then Err "illegal base64 data" else Ok (dst ++ quanta ds).
Proof.
  assert (ST : forall d q dst s, (d < 64)%nat -> b64_dec q dst (nth d alphabet x00 :: s) =
    (let q' := q ++ [Z.of_nat d] in if Nat.eqb (length q') 4 then b64_dec [] (dst ++ b64_quantum q') s else b64_dec q' dst s)).
  { intros d q dst s H. destruct (char_alpha d H) as [_ [E1 E2]]. cbn [b64_dec]. rewrite E1, E2. reflexivity. }
  induction ds as [|x|x y|x y z|x y z w ds IH] using list_ind4; intros H dst; cbn [text map].
  - cbn. rewrite app_nil_r. reflexivity.
  - inversion H; subst. rewrite ST by assumption. reflexivity.
  - inversion H as [|? ? Hx H1]; subst. inversion H1 as [|? ? Hy H2]; subst. rewrite !ST by assumption. cbv zeta. cbn [app length Nat.eqb]. rewrite ST by assumption. reflexivity.
  - inversion H as [|? ? Hx H1]; subst. inversion H1 as [|? ? Hy H2]; subst. inversion H2 as [|? ? Hz H3]; subst. rewrite !ST by assumption. cbv zeta. cbn [app length Nat.eqb]. rewrite ST by assumption. cbv zeta. cbn [app length Nat.eqb].
    rewrite ST by assumption. reflexivity.
  - inversion H as [|? ? Hx H1]; subst. inversion H1 as [|? ? Hy H2]; subst. inversion H2 as [|? ? Hz H3]; subst. inversion H3 as [|? ? Hw H4]; subst.
    rewrite ST by assumption. cbv zeta. cbn [app length Nat.eqb]. rewrite ST by assumption. cbv zeta. cbn [app length Nat.eqb]. rewrite ST by assumption. cbv zeta. cbn [app length Nat.eqb]. rewrite ST by assumption. cbv zeta. cbn [app length Nat.eqb].
    fold (text ds). rewrite (IH H4). replace (S (S (S (S (length ds)))) mod 4)%nat with (length ds mod 4)%nat.
    + destruct (_ =? 1)%nat; [reflexivity|]. cbn [quanta map]. rewrite app_assoc. reflexivity.
    + replace (S (S (S (S (length ds))))) with (length ds + 1 * 4)%nat by lia. rewrite Nat.mod_add by lia. reflexivity.
Qed.
Lemma quanta_spec ds : digits ds -> (length ds mod 4 <> 1)%nat ->
  length (quanta ds) = (6 * length ds / 8)%nat /\ (let s := spare ds (quanta ds) in s = 0 \/ s = 2 \/ s = 4) /\ be_Z (quanta ds) = value64 ds / 2 ^ spare ds (quanta ds).
Proof.
  induction ds as [|x|x y|x y z|x y z w ds IH] using list_ind4; intros H N; cbn zeta.
  - cbn. auto.
  - destruct N. reflexivity.
  - inversion H as [|? ? Hx H1]; subst. inversion H1 as [|? ? Hy H2]; subst. cbn [quanta map b64_quantum length]. split; [reflexivity|]. unfold spare. cbn [length]. split; [lia|].
    change (2 ^ (6 * Z.of_nat 2 - 8 * Z.of_nat 1)) with 16. cbn [be_Z value64 fold_left]. rewrite byte_Z_byte. Z.div_mod_to_equations. lia.
  - inversion H as [|? ? Hx H1]; subst. inversion H1 as [|? ? Hy H2]; subst. inversion H2 as [|? ? Hz H3]; subst. cbn [quanta map b64_quantum length]. split; [reflexivity|]. unfold spare. cbn [length]. split; [lia|].
    change (2 ^ (6 * Z.of_nat 3 - 8 * Z.of_nat 2)) with 4. cbn [be_Z value64 fold_left]. rewrite !byte_Z_byte. Z.div_mod_to_equations. lia.
  - inversion H as [|? ? Hx H1]; subst. inversion H1 as [|? ? Hy H2]; subst. inversion H2 as [|? ? Hz H3]; subst. inversion H3 as [|? ? Hw H4]; subst.
    assert (N' : (length ds mod 4 <> 1)%nat) by (intros E; apply N; cbn [length]; replace (S (S (S (S (length ds))))) with (length ds + 1 * 4)%nat by lia; rewrite Nat.mod_add by lia; exact E).
    destruct (IH H4 N') as [L [S V]]. cbn zeta in S.
    change (quanta (x :: y :: z :: w :: ds)) with (b64_quantum (map Z.of_nat [x; y; z; w]) ++ quanta ds). change (x :: y :: z :: w :: ds) with ([x; y; z; w] ++ ds).
    set (u := b64_quantum (map Z.of_nat [x; y; z; w])). assert (Lu : length u = 3%nat) by reflexivity.
    assert (ES : spare ([x; y; z; w] ++ ds) (u ++ quanta ds) = spare ds (quanta ds)) by (unfold spare; rewrite !app_length, Lu; cbn [length]; lia).
    split; [rewrite !app_length, Lu, L; cbn [length]; replace (6 * (4 + length ds))%nat with (6 * length ds + 3 * 8)%nat by lia; rewrite Nat.div_add by lia; lia|].
    rewrite ES. split; [exact S|]. rewrite be_Z_cat, value64_cat, V. rewrite (pow_split ds (quanta ds)) by lia.
    rewrite Z.mul_assoc, Z.div_add_l by (apply Z.pow_nonzero; lia). f_equal. f_equal.
    unfold u. cbn [map b64_quantum be_Z value64 fold_left]. rewrite !byte_Z_byte. Z.div_mod_to_equations. lia.
Qed.
Lemma dec_chars s : forall q dst b, b64_dec q dst s = Ok b -> exists ds, digits ds /\ unbroken s = text ds.
Proof.
  induction s as [|c s IH]; intros q dst b E; [exists []; split; [constructor|reflexivity]|]. cbn [unbroken filter]. fold (unbroken s). rewrite <- skip_spec. cbn [b64_dec] in E. destruct (b64_skip c) eqn:K; cbn [negb].
  - exact (IH _ _ _ E).
  - destruct (b64_val c) as [v|] eqn:V; [|discriminate]. cbv zeta in E. assert (X : exists ds, digits ds /\ unbroken s = text ds) by (destruct (Nat.eqb _ 4); exact (IH _ _ _ E)).
    destruct X as [ds [D ->]]. destruct (val_alpha c v V) as [d [Hd [_ ->]]]. exists (d :: ds). split; [constructor; assumption|reflexivity].
Qed.
Lemma dec_spec s b : decodeText s = Ok b <->
  exists ds, digits ds /\ unbroken s = text ds /\ (length ds mod 4 <> 1)%nat /\ length b = (6 * length ds / 8)%nat /\ be_Z b = value64 ds / 2 ^ spare ds b.
Proof.
  unfold decodeText. split.
  - intros E. destruct (dec_chars s [] [] b E) as [ds [D U]]. exists ds. split; [exact D|]. split; [exact U|]. rewrite dec_unbroken, U, (dec_digits ds D) in E.
    destruct (Nat.eqb_spec (length ds mod 4) 1) as [C|C]; [discriminate|]. injection E as <-. cbn [app]. destruct (quanta_spec ds D C) as [L [_ V]]. auto.
  - intros [ds [D [U [C [L V]]]]]. rewrite dec_unbroken, U, (dec_digits ds D). destruct (Nat.eqb_spec (length ds mod 4) 1) as [X|X]; [contradiction|]. cbn [app]. f_equal.
    destruct (quanta_spec ds D X) as [L' [_ V']]. apply be_Z_inj; [congruence|]. rewrite V, V'. unfold spare. rewrite L, L'. reflexivity.
Qed.
Lemma dec_total s : decodeText s <> Panic.
Proof.
  unfold decodeText. assert (K : forall s q dst, b64_dec q dst s <> Panic).
  { clear s. induction s as [|c s IH]; intros q dst; cbn [b64_dec]; [destruct q as [|? [|? ?]]; discriminate|]. destruct (b64_skip c); [apply IH|]. destruct (b64_val c); [|discriminate]. cbv zeta. destruct (Nat.eqb _ 4); apply IH. }
  apply K.
Qed.
Lemma unbroken_text ds : digits ds -> unbroken (text ds) = text ds.
Proof.
  induction ds as [|d ds IH]; intros H; [reflexivity|]. inversion H; subst. cbn [text map unbroken filter]. fold (text ds). fold (unbroken (text ds)). rewrite <- skip_spec, (proj2 (proj2 (char_alpha d H2))). cbn [negb]. rewrite IH by assumption. reflexivity.
Qed.
Lemma text_inj ds ds' : digits ds -> digits ds' -> text ds = text ds' -> ds = ds'.
Proof.
  revert ds'. induction ds as [|d ds IH]; intros [|d' ds'] H H' E; try discriminate; [reflexivity|]. inversion H; subst. inversion H'; subst. pose proof (f_equal (hd x00) E) as E1. pose proof (f_equal (@tl byte) E) as E2. cbn [text map hd tl] in E1, E2. f_equal; [|apply IH; assumption].
  pose proof (proj1 (proj2 (char_alpha d H2))) as X. rewrite E1, (proj1 (proj2 (char_alpha d' H4))) in X. apply Nat2Z.inj. congruence.
Qed.
Lemma value64_inj ds ds' : digits ds -> digits ds' -> length ds = length ds' -> value64 ds = value64 ds' -> ds = ds'.
Proof.
  revert ds'. induction ds as [|d ds IH] using rev_ind; intros ds' H H' L E; [destruct ds'; [reflexivity|discriminate]|].
  destruct ds' as [|d' ds'] using rev_ind; [rewrite app_length in L; cbn in L; lia|]. clear IHds'. apply Forall_app in H. apply Forall_app in H'. destruct H as [H1 H2], H' as [H1' H2']. inversion H2; inversion H2'; subst.
  rewrite !app_length in L. cbn [length] in L. rewrite !value64_cat in E. cbn [length value64 fold_left] in E. change (64 ^ Z.of_nat 1) with 64 in E. fold (value64 ds) (value64 ds') in E.
  assert (X : value64 ds = value64 ds' /\ d = d') by lia. destruct X as [X ->]. f_equal. apply IH; [assumption|assumption|lia|exact X].
Qed.
Lemma dec_enc b : decodeText (encodeToText b) = Ok b.
Proof.
  apply dec_spec. unfold encodeToText. destruct (enc_text b) as [-> D]. exists (enc_digits b). split; [exact D|]. split; [apply unbroken_text, D|]. destruct (enc_len b) as [S L]. cbn zeta in S.
  assert (Lb : length b = (6 * length (enc_digits b) / 8)%nat) by (unfold spare in S; apply Nat.div_unique with (r := Z.to_nat (6 * Z.of_nat (length (enc_digits b)) - 8 * Z.of_nat (length b))); lia).
  split; [|split; [exact Lb|]].
  - intros C. pose proof (Nat.div_mod (length (enc_digits b)) 4) as Q. rewrite C in Q. unfold spare in S. lia.
  - rewrite enc_value. rewrite Z.div_mul by (apply Z.pow_nonzero; lia). reflexivity.
Qed.
(** two texts without line breaks whose length is a multiple of four *)
Lemma dec_inj s s' b : unbroken s = s -> unbroken s' = s' -> (length s mod 4 = 0)%nat -> decodeText s = Ok b -> decodeText s' = Ok b -> s = s'.
Proof.
  intros U U' M E E'. apply dec_spec in E. apply dec_spec in E'. destruct E as [ds [D [T [N [L V]]]]]. destruct E' as [ds' [D' [T' [N' [L' V']]]]]. rewrite U in T. rewrite U' in T'. subst s s'.
  unfold text in M. rewrite map_length in M. f_equal. assert (LL : length ds = length ds').
  { pose proof (Nat.div_mod (length ds) 4). pose proof (Nat.div_mod (length ds') 4). pose proof (Nat.mod_upper_bound (length ds') 4).
    pose proof (Nat.div_mod (6 * length ds) 8). pose proof (Nat.mod_upper_bound (6 * length ds) 8). pose proof (Nat.div_mod (6 * length ds') 8). pose proof (Nat.mod_upper_bound (6 * length ds') 8). lia. }
  apply value64_inj; try assumption. assert (S : spare ds b = 0).
  { unfold spare. rewrite L. pose proof (Nat.div_mod (length ds) 4). pose proof (Nat.div_mod (6 * length ds) 8). pose proof (Nat.mod_upper_bound (6 * length ds) 8). lia. }
  assert (S' : spare ds' b = 0) by (unfold spare in *; rewrite <- LL; exact S). rewrite S in V. rewrite S' in V'. change (2 ^ 0) with 1 in *. rewrite Z.div_1_r in *. congruence.
Qed.

(** ** Other texts of the same bytes *)
(** the last digit of the encoding has spare zero bits *)
Lemma other_text b : (length b mod 3 <> 0)%nat -> exists s, unbroken s = s /\ s <> encodeToText b /\ decodeText s = Ok b.
Proof.
  intros N. destruct (enc_text b) as [E D]. destruct (enc_len b) as [S L]. cbn zeta in S. pose proof (enc_value b) as V.
  assert (S4 : spare (enc_digits b) b = 2 \/ spare (enc_digits b) b = 4).
  { destruct S as [S|S]; [|exact S]. exfalso. apply N. unfold spare in S. apply Nat.mod_divide; [lia|]. exists (length (enc_digits b) - length b)%nat. lia. }
  assert (NE : enc_digits b <> []) by (intros X; unfold spare in S4; rewrite X in S4; cbn [length] in S4; lia).
  destruct (exists_last NE) as [ds [d Q]]. rewrite Q in *. apply Forall_app in D. destruct D as [D1 D2]. inversion D2 as [|? ? Hd _]; subst.
  rewrite value64_cat in V. cbn [length value64 fold_left] in V. change (64 ^ Z.of_nat 1) with 64 in V. fold (value64 ds) in V.
  assert (EV : exists k, Z.of_nat d = 4 * k).
  { exists (be_Z b * 2 ^ (spare (ds ++ [d]) b - 2) - 16 * value64 ds). rewrite Z.mul_sub_distr_l. rewrite Z.mul_assoc, (Z.mul_comm 4 (be_Z b)), <- Z.mul_assoc.
    replace (4 * 2 ^ (spare (ds ++ [d]) b - 2)) with (2 ^ spare (ds ++ [d]) b) by (destruct S4 as [-> | ->]; reflexivity). lia. }
  destruct EV as [k Ek]. assert (Hd' : (d + 1 < 64)%nat) by lia. assert (D' : digits (ds ++ [(d + 1)%nat])) by (apply Forall_app; split; [exact D1|repeat (apply Forall_cons || apply Forall_nil); exact Hd']).
  exists (text (ds ++ [(d + 1)%nat])). split; [apply unbroken_text, D'|]. unfold encodeToText. rewrite E. split.
  - intros X. apply text_inj in X; [|exact D'|apply Forall_app; split; assumption]. apply app_inv_head in X. injection X as X. lia.
  - pose proof (dec_enc b) as DE. unfold encodeToText in DE. rewrite E in DE. apply dec_spec in DE. destruct DE as [ds0 [D0 [U0 [N0 [L0 V0]]]]].
    assert (X : ds0 = ds ++ [d]) by (apply text_inj; [exact D0|apply Forall_app; split; assumption|rewrite <- U0; apply unbroken_text, Forall_app; split; assumption]). subst ds0.
    apply dec_spec. exists (ds ++ [(d + 1)%nat]). split; [exact D'|]. split; [apply unbroken_text, D'|]. rewrite !app_length in *. cbn [length] in *.
    split; [exact N0|]. split; [exact L0|]. rewrite V0. assert (SS : spare (ds ++ [(d + 1)%nat]) b = spare (ds ++ [d]) b) by (unfold spare; rewrite !app_length; reflexivity). rewrite SS.
    rewrite !value64_cat. cbn [length value64 fold_left]. change (64 ^ Z.of_nat 1) with 64. rewrite Nat2Z.inj_add, Ek. change (0 * 64 + 4 * k) with (4 * k). change (0 * 64 + (4 * k + Z.of_nat 1)) with (4 * k + 1).
    destruct S4 as [-> | S4'].
    + change (2 ^ 2) with 4. Z.div_mod_to_equations. lia.
    + rewrite S4' in *. change (2 ^ 4) with 16 in *. Z.div_mod_to_equations. lia.
Qed.
Lemma other_broken b : exists s, s <> encodeToText b /\ decodeText s = Ok b.
Proof.
  exists (x0a :: encodeToText b). split.
  - intros X. apply (f_equal (@length byte)) in X. cbn in X. lia.
  - exact (dec_enc b).
Qed.

(** * Hexadecimal text *)
Lemma list_ind2 {A} (P : list A -> Prop) : P [] -> (forall a, P [a]) -> (forall a b l, P l -> P (a :: b :: l)) -> forall l, P l.
Proof. intros H0 H1 H2. assert (X : forall l, P l /\ forall a, P (a :: l)) by (induction l as [|x l [IH1 IH2]]; split; auto). intros l. apply X. Qed.
Lemma hex_val_digit (d : nat) (c : byte) : nth_error hex_lower d = Some c \/ nth_error hex_upper d = Some c -> hex_val c = Some (Z.of_nat d) /\ (d < 16)%nat.
Proof.
  intros H. assert (L : (d < 16)%nat).
  { destruct H as [H|H]; [change 16%nat with (length hex_lower)|change 16%nat with (length hex_upper)]; apply nth_error_Some; rewrite H; discriminate. }
  split; [|exact L].
  do 16 (destruct d as [|d]; [destruct H as [H|H]; cbv in H; injection H as <-; reflexivity|]). lia.
Qed.
Lemma hex_val_some (c : byte) (z : Z) : hex_val c = Some z ->
  exists d, z = Z.of_nat d /\ (nth_error hex_lower d = Some c \/ nth_error hex_upper d = Some c).
Proof.
  intros H. exists (Z.to_nat z). destruct c; cbv in H; try discriminate H; injection H as <-; (split; [reflexivity|]); (left; reflexivity) || (right; reflexivity).
Qed.
Lemma value16_cat a b : value16 (a ++ b) = value16 a * 16 ^ Z.of_nat (length b) + value16 b.
Proof.
  unfold value16. rewrite fold_left_app. generalize (fold_left (fun x d => x * 16 + Z.of_nat d) a 0) as v.
  induction b as [|d b IH] using rev_ind; intros v; [cbn; lia|]. rewrite !fold_left_app. cbn [fold_left]. rewrite IH, app_length. cbn [length].
  rewrite Nat2Z.inj_add, Z.pow_add_r by lia. change (16 ^ Z.of_nat 1) with 16. lia.
Qed.
Lemma hex_dec_value s b : hex_dec s = Ok b -> exists ds, hex_text ds s /\ length s = (2 * length b)%nat /\ be_Z b = value16 ds.
Proof.
  revert b. induction s as [ |a|a c s IH] using list_ind2; intros b H; cbn [hex_dec] in H.
  - injection H as <-. exists []. repeat split. constructor.
  - discriminate H.
  - destruct (hex_val a) as [x|] eqn:Ea; [|discriminate H]. destruct (hex_val c) as [y|] eqn:Ec; [|discriminate H].
    destruct (hex_dec s) as [b'| |] eqn:E; cbn [bind] in H; try discriminate H. injection H as <-.
    destruct (IH b' eq_refl) as [ds [T [L V]]]. destruct (hex_val_some _ _ Ea) as [d [-> Da]]. destruct (hex_val_some _ _ Ec) as [e [-> De]].
    exists (d :: e :: ds). split; [repeat (constructor; try assumption)|]. split; [cbn [length]; lia|].
    apply hex_val_digit in Da. apply hex_val_digit in De. destruct Da as [_ Ld], De as [_ Le].
    change (Z_byte (Z.of_nat d * 16 + Z.of_nat e) :: b') with ([Z_byte (Z.of_nat d * 16 + Z.of_nat e)] ++ b'). change (d :: e :: ds) with ([d; e] ++ ds).
    rewrite be_Z_cat, value16_cat, V. f_equal. assert (LL : length ds = (2 * length b')%nat) by (rewrite <- L; apply Forall2_length in T; exact T).
    rewrite LL. cbn [be_Z value16 fold_left]. rewrite byte_Z_byte, Z.mod_small by lia. rewrite Nat2Z.inj_mul, Z.pow_mul_r by lia. change (16 ^ Z.of_nat 2) with 256. lia.
Qed.
Lemma hex_dec_total s ds : hex_text ds s -> (length s mod 2 = 0)%nat -> exists b, hex_dec s = Ok b.
Proof.
  revert ds. induction s as [ |a|a c s IH] using list_ind2; intros ds T L.
  - exists []. reflexivity.
  - cbn in L. discriminate L.
  - inversion T as [|d ? ds1 ? Da T1]; subst. inversion T1 as [|e ? ds2 ? De T2]; subst.
    apply hex_val_digit in Da. apply hex_val_digit in De. cbn [hex_dec]. rewrite (proj1 Da), (proj1 De).
    destruct (IH ds2 T2) as [b ->]; [|eexists; reflexivity].
    cbn [length] in L. replace (S (S (length s))) with (length s + 1 * 2)%nat in L by lia. rewrite Nat.mod_add in L by lia. exact L.
Qed.
Lemma hex_text_fun ds ds' s : hex_text ds s -> hex_text ds' s -> ds = ds'.
Proof.
  intros T. revert ds'. induction T as [|d c ds s D T IH]; intros ds' T'; inversion T' as [|d' ? ds1 ? D' T1]; subst; [reflexivity|].
  apply hex_val_digit in D. apply hex_val_digit in D'. destruct D as [D _], D' as [D' _]. rewrite D in D'. injection D' as X. apply Nat2Z.inj in X. subst d'. f_equal. apply IH, T1.
Qed.
Lemma hex_dec_spec s b : hex_dec s = Ok b <-> exists ds, hex_text ds s /\ length s = (2 * length b)%nat /\ be_Z b = value16 ds.
Proof.
  split; [apply hex_dec_value|]. intros [ds [T [L V]]].
  destruct (hex_dec_total s ds T) as [b' E]; [rewrite L, Nat.mul_comm; apply Nat.mod_mul; lia|].
  rewrite E. f_equal. destruct (hex_dec_value _ _ E) as [ds' [T' [L' V']]]. rewrite (hex_text_fun ds' ds s T' T) in V'. apply be_Z_inj; [lia|congruence].
Qed.
Lemma hex_dec_errs s : hex_dec s <> Panic.
Proof.
  induction s as [ |a|a c s IH] using list_ind2; cbn [hex_dec]; try discriminate.
  destruct (hex_val a); [|discriminate]. destruct (hex_val c); [|discriminate]. destruct (hex_dec s); try discriminate. contradiction.
Qed.
