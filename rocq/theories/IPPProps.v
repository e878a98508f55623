(** Malformed input, codec and equality of inner-product proofs *)
From Coq Require Import String ZArith List Lia Bool Arith Field.
From Verif Require Import GoModel GoFacts ReadModel ReadFacts Fld Rist RistFacts SpecVector VectorModel VectorFacts
  PedersenModel PedersenFacts InnerProductModel SpecIPP InnerProductFacts IPPVerifyFacts.
Import ListNotations.
Local Open Scope nat_scope.

Lemma split_ignore_cases {A} (x : list A) h : 0 < h ->
  split_ignore x (Z.of_nat h) = ([], []) \/
  (split_ignore x (Z.of_nat h) = (firstn h x, skipn h x)).
Proof.
  intros H. unfold split_ignore, Split.
  destruct (Nat.leb (length x) 0); [left; reflexivity|].
  destruct (Z.leb (u32 (Z.of_nat (length x))) (Z.of_nat h)); [left; reflexivity|].
  right. rewrite Nat2Z.id. reflexivity.
Qed.
Lemma Exp_Ok_len (R : rist) a b n m p : Exp R a b n m = Ok p -> length a = length b.
Proof.
  unfold Exp. destruct (Nat.eqb_spec (length a) (length b)) as [E|E]; [auto|discriminate].
Qed.
Lemma InnerProduct_Ok_len a b c : InnerProduct a b = Ok c -> length a = length b.
Proof. unfold InnerProduct. destruct (Nat.eqb_spec (length a) (length b)) as [E|E]; [auto|discriminate]. Qed.
Lemma mul_factors_Ok v fs off w : mul_factors v fs off = Ok w -> length w = length v /\ (0 < length v -> off + length v <= length fs).
Proof.
  intros H. destruct (Nat.le_gt_cases (off + length v) (length fs)) as [C|C].
  - rewrite mul_factors_ok in H by exact C. injection H as <-. rewrite zipw_length_min, skipn_length. lia.
  - destruct (length v) as [|k] eqn:E.
    + destruct v; [|discriminate]. cbn in H. injection H as <-. cbn. lia.
    + rewrite mul_factors_short in H by (rewrite ?E; lia). discriminate.
Qed.

Section Props.
Context {R : rist} (OK : rist_ok R).

Lemma Generate_not_pow2 G H a b fs Q : (Z.of_nat (length G) < 2 ^ 32)%Z -> G <> [] ->
  (forall k, length G <> 2 ^ k) -> Generate R G H a b fs Q = Err "[IPProof]: size of n (NM) is not a power of 2"%string.
Proof.
  intros HB HG HN. unfold Generate.
  replace (u32 (Z.of_nat (length G))) with (Z.of_nat (length G)) by (unfold u32; rewrite Z.mod_small; lia).
  destruct (isPower2 (Z.of_nat (length G))) eqn:E; [|reflexivity].
  exfalso. destruct (isPower2_inv (Z.of_nat (length G))) as [k [K1 K2]]; [|exact E|].
  - destruct G; [congruence|cbn [length] in *; lia].
  - apply (HN (Z.to_nat k)). apply Nat2Z.inj. rewrite K2, Nat2Z.inj_pow, Z2Nat.id by lia. reflexivity.
Qed.

Lemma round_first_len h fs Q a b G H hs Ls Rs st' : 0 < h -> length G = h + h -> (Z.of_nat (h + h) < 2 ^ 32)%Z ->
  round_first R (Z.of_nat h) fs Q (mkG R a b G H hs Ls Rs) = Ok st' ->
  length a = h + h /\ length b = h + h /\ length H = h + h /\ h + h <= length fs.
Proof.
  intros Hh HG HB E. unfold round_first in E. cbn [g_a g_b g_G g_H g_hs g_L g_R] in E.
  rewrite (split_ignore_ok G) in E by lia.
  destruct (half_len G h HG) as [G1 G2].
  destruct (split_ignore a (Z.of_nat h)) as [aL aR] eqn:Ea.
  destruct (split_ignore b (Z.of_nat h)) as [bL bR] eqn:Eb.
  destruct (split_ignore H (Z.of_nat h)) as [HL HR] eqn:EH.
  destruct (InnerProduct aR bL) as [cR| |] eqn:E1; cbn [bind] in E; try discriminate.
  destruct (Exp R aL (skipn h G) (Z.of_nat h) 1) as [e1| |] eqn:E2; cbn [bind] in E; try discriminate.
  destruct (mul_factors bR fs 0) as [bRYi| |] eqn:E3; cbn [bind] in E; try discriminate.
  destruct (Exp R bRYi HL (Z.of_nat h) 1) as [e2| |] eqn:E4; cbn [bind] in E; try discriminate.
  destruct (Exp R aR (firstn h G) (Z.of_nat h) 1) as [e4| |] eqn:E5; cbn [bind] in E; try discriminate.
  destruct (mul_factors bL fs (Z.to_nat (Z.of_nat h))) as [bLYi| |] eqn:E6; cbn [bind] in E; try discriminate.
  destruct (Exp R bLYi HR (Z.of_nat h) 1) as [e5| |] eqn:E7; cbn [bind] in E; try discriminate.
  apply InnerProduct_Ok_len in E1. apply Exp_Ok_len in E2, E4, E5, E7. apply mul_factors_Ok in E3, E6.
  rewrite Nat2Z.id in E6. destruct E3 as [E3 _]. destruct E6 as [E6 E6'].
  assert (SA : (aL, aR) = (firstn h a, skipn h a)).
  { destruct (split_ignore_cases a h Hh) as [S|S]; rewrite Ea in S; injection S as -> ->; [cbn in E2; lia|reflexivity]. }
  injection SA as -> ->.
  assert (SB : (bL, bR) = (firstn h b, skipn h b)).
  { destruct (split_ignore_cases b h Hh) as [S|S]; rewrite Eb in S; injection S as -> ->; [cbn in E1; lia|reflexivity]. }
  injection SB as -> ->.
  assert (SH : (HL, HR) = (firstn h H, skipn h H)).
  { destruct (split_ignore_cases H h Hh) as [S|S]; rewrite EH in S; injection S as -> ->; [|reflexivity].
    exfalso. cbn [length] in E7. rewrite E7 in E6. lia. }
  injection SH as -> ->.
  rewrite firstn_length in *. rewrite skipn_length in *. lia.
Qed.

Lemma Generate_mismatch G H a b fs Q p : 2 <= length G -> (Z.of_nat (length G) < 2 ^ 32)%Z ->
  Generate R G H a b fs Q = Ok p ->
  length a = length G /\ length b = length G /\ length H = length G /\ length G <= length fs.
Proof.
  intros H2 HB E. unfold Generate in E.
  replace (u32 (Z.of_nat (length G))) with (Z.of_nat (length G)) in E by (unfold u32; rewrite Z.mod_small; lia).
  destruct (isPower2 (Z.of_nat (length G))) eqn:P2; cbn [negb] in E; [|discriminate].
  destruct (isPower2_inv (Z.of_nat (length G))) as [k [K1 K2]]; [lia|exact P2|].
  destruct (Z.eqb_spec (Z.of_nat (length G)) 1) as [C|C]; [lia|]. cbn [negb] in E.
  assert (K3 : (0 < k)%Z). { destruct (Z.eq_dec k 0) as [->|]; [cbn in K2; lia|lia]. }
  set (h := 2 ^ Z.to_nat (k - 1)).
  assert (Hh : length G = h + h).
  { apply Nat2Z.inj. rewrite K2. unfold h. rewrite Nat2Z.inj_add, Nat2Z.inj_pow, Z2Nat.id by lia.
    replace k with (k - 1 + 1)%Z at 1 by lia. rewrite Z.pow_add_r, Z.pow_1_r by lia. change (Z.of_nat 2) with 2%Z. lia. }
  rewrite Hh in E at 1.
  replace (Z.of_nat (h + h) / 2)%Z with (Z.of_nat h) in E by (rewrite Nat2Z.inj_add, Z.add_diag, Z.mul_comm, Z.div_mul by lia; reflexivity).
  destruct (round_first R (Z.of_nat h) fs Q (mkG R a b G H [] [] [])) as [st'| |] eqn:RF; cbn [bind] in E; try discriminate.
  apply round_first_len in RF; try lia.
Qed.

(** which lengths lead to an error and which to a panic *)
Lemma split_ignore_if {A} (x : list A) h : 0 < h -> (Z.of_nat (length x) < 2 ^ 32)%Z ->
  split_ignore x (Z.of_nat h) = if Nat.ltb h (length x) then (firstn h x, skipn h x) else ([], []).
Proof.
  intros Hh HB. unfold split_ignore, Split. destruct (Nat.leb_spec (length x) 0) as [C|C].
  - destruct (Nat.ltb_spec h (length x)); [lia|reflexivity].
  - unfold u32. rewrite Z.mod_small by lia. destruct (Z.leb_spec (Z.of_nat (length x)) (Z.of_nat h)) as [D|D].
    + destruct (Nat.ltb_spec h (length x)); [lia|reflexivity].
    + destruct (Nat.ltb_spec h (length x)); [|lia]. rewrite Nat2Z.id. reflexivity.
Qed.
(** the texts of the two errors *)
Definition exp_text : string := "length of slice of scalars a does not equal length of slices of points b".
Definition ip_text : string := "[Inner Product]:Length of a does not equal length of b".
Lemma Exp_mismatch a (b : list (pt R)) h : length a <> length b -> Exp R a b (Z.of_nat h) 1 = Err exp_text.
Proof. intros E. unfold Exp. apply Nat.eqb_neq in E. rewrite E. reflexivity. Qed.
Lemma IP_mismatch a b : length a <> length b -> InnerProduct a b = Err ip_text.
Proof. intros E. unfold InnerProduct. apply Nat.eqb_neq in E. rewrite E. reflexivity. Qed.
Lemma Exp_fine a (b : list (pt R)) h : length a = length b -> h <= length a -> (Z.of_nat h < 2 ^ 32)%Z -> exists e, Exp R a b (Z.of_nat h) 1 = Ok e.
Proof. intros E L B. rewrite (Exp_ok OK); [eexists; reflexivity|exact E|]. rewrite i64_len by exact B. lia. Qed.
Lemma IP_fine a b : length a = length b -> exists e, InnerProduct a b = Ok e.
Proof. intros E. rewrite InnerProduct_ok by exact E. eexists. reflexivity. Qed.
Ltac fin := cbn [bind]; f_equal; repeat match goal with
  | |- context [Nat.ltb ?x ?y] => destruct (Nat.ltb_spec x y); try lia
  | |- context [Nat.eqb ?x ?y] => destruct (Nat.eqb_spec x y); try lia end; reflexivity.
Lemma round_first_fails h fs Q a b G H : 0 < h -> length G = h + h ->
  (Z.of_nat (length a) < 2 ^ 32)%Z -> (Z.of_nat (length b) < 2 ^ 32)%Z -> (Z.of_nat (length G) < 2 ^ 32)%Z -> (Z.of_nat (length H) < 2 ^ 32)%Z ->
  ~ (length a = h + h /\ length b = h + h /\ length H = h + h /\ h + h <= length fs) ->
  let r := round_first R (Z.of_nat h) fs Q (mkG R a b G H [] [] []) in
  let bad := length a = h + h /\ h < length b /\ (length fs < length b - h \/ (length b = h + h /\ h < length H /\ length fs < h + h)) in
  (bad -> r = Panic) /\ (~ bad -> r = Err (if Nat.eqb (length a - h) (if Nat.ltb h (length b) then h else 0) then exp_text else ip_text)).
Proof.
  intros Hh LG Ba Bb BG BH NOK r bad. subst r.
  unfold round_first. cbn [g_a g_b g_G g_H g_hs g_L g_R]. rewrite !split_ignore_if by assumption.
  assert (LL : forall A (x : list A), h < length x -> length (firstn h x) = h /\ length (skipn h x) = length x - h).
  { intros A x Hx. rewrite firstn_length, skipn_length. lia. }
  destruct (Nat.ltb_spec h (length G)) as [CG|CG]; [|lia]. destruct (LL _ G CG) as [G1 G2].
  destruct (Nat.ltb_spec h (length a)) as [Ca|Ca].
  2:{ (* aL and aR are empty *)
    split; [intros (X & _); lia|]. intros _. destruct (Nat.ltb_spec h (length b)) as [Cb|Cb].
    - destruct (LL _ b Cb) as [b1 b2]. destruct (Nat.ltb h (length H)); rewrite (IP_mismatch [] (firstn h b)) by (cbn [length]; lia); fin.
    - destruct (Nat.ltb h (length H)); destruct (IP_fine [] []) as [e E]; try reflexivity; rewrite E; cbn [bind];
        rewrite (Exp_mismatch [] (skipn h G) h) by (cbn [length]; lia); fin. }
  destruct (LL _ a Ca) as [a1 a2].
  destruct (Nat.ltb_spec h (length b)) as [Cb|Cb].
  2:{ split; [intros (_ & X & _); lia|]. intros _.
    destruct (Nat.ltb h (length H)); rewrite (IP_mismatch (skipn h a) []) by (cbn [length]; lia); fin. }
  destruct (LL _ b Cb) as [b1 b2].
  destruct (Nat.eq_dec (length a) (h + h)) as [Ea|Ea].
  2:{ split; [intros (X & _); lia|]. intros _.
    destruct (Nat.ltb h (length H)); rewrite (IP_mismatch (skipn h a) (firstn h b)) by lia; fin. }
  assert (Bh : (Z.of_nat h < 2 ^ 32)%Z) by lia.   destruct (IP_fine (skipn h a) (firstn h b)) as [cR EcR]; [lia|]. destruct (Exp_fine (firstn h a) (skipn h G) h) as [e1 Ee1]; [lia..|].
  destruct (Exp_fine (skipn h a) (firstn h G) h) as [e4 Ee4]; [lia..|].
  destruct (Nat.le_gt_cases (length b - h) (length fs)) as [Cf|Cf].
  2:{ split.
    - intros _. destruct (Nat.ltb h (length H)); rewrite EcR; cbn [bind]; rewrite Ee1; cbn [bind]; rewrite mul_factors_short by lia; reflexivity.
    - intros X. exfalso. apply X. split; [exact Ea|]. split; [exact Cb|]. left. exact Cf. }
  assert (Lm : length (zipw fmul (skipn h b) (skipn 0 fs)) = length b - h) by (rewrite zipw_length_min, ?firstn_length, !skipn_length; lia).
  destruct (Nat.ltb_spec h (length H)) as [CH|CH].
  2:{ split; [intros (_ & _ & [X|(_ & X & _)]); lia|]. intros _. rewrite EcR; cbn [bind]; rewrite Ee1; cbn [bind]; rewrite mul_factors_ok by lia; cbn [bind].
    rewrite (Exp_mismatch (zipw fmul (skipn h b) (skipn 0 fs)) [] h) by (cbn [length]; lia). fin. }
  destruct (LL _ H CH) as [H1 H2].
  destruct (Nat.eq_dec (length b) (h + h)) as [Eb|Eb].
  2:{ split; [intros (_ & _ & [X|(X & _)]); lia|]. intros _. rewrite EcR; cbn [bind]; rewrite Ee1; cbn [bind]; rewrite mul_factors_ok by lia; cbn [bind].
    rewrite (Exp_mismatch (zipw fmul (skipn h b) (skipn 0 fs)) (firstn h H) h) by lia. fin. }
  destruct (Exp_fine (zipw fmul (skipn h b) (skipn 0 fs)) (firstn h H) h) as [e2 Ee2]; [lia..|].
  rewrite EcR; cbn [bind]; rewrite Ee1; cbn [bind]; rewrite mul_factors_ok by lia; cbn [bind]. rewrite Ee2; cbn [bind]. rewrite Ee4; cbn [bind]. rewrite Nat2Z.id.
  destruct (Nat.le_gt_cases (h + h) (length fs)) as [Cg|Cg].
  2:{ split; [intros _; rewrite mul_factors_short by lia; reflexivity|]. intros X. exfalso. apply X. split; [exact Ea|]. split; [exact Cb|]. right. repeat split; assumption. }
  split; [intros (_ & _ & [X|(_ & _ & X)]); lia|]. intros _. rewrite mul_factors_ok by lia; cbn [bind].
  rewrite (Exp_mismatch (zipw fmul (firstn h b) (skipn h fs)) (skipn h H) h) by (rewrite zipw_length_min, ?firstn_length, !skipn_length; lia). fin.
Qed.
Lemma Generate_fails k G H a b fs Q : k < 31 -> length G = 2 ^ S k ->
  (Z.of_nat (length a) < 2 ^ 32)%Z -> (Z.of_nat (length b) < 2 ^ 32)%Z -> (Z.of_nat (length H) < 2 ^ 32)%Z ->
  let good := length a = length G /\ length b = length G /\ length H = length G /\ length G <= length fs in
  let bad := length a = length G /\ 2 ^ k < length b /\
    (length fs < length b - 2 ^ k \/ (length b = length G /\ 2 ^ k < length H /\ length fs < length G)) in
  (good -> exists p, Generate R G H a b fs Q = Ok p) /\ (bad -> Generate R G H a b fs Q = Panic) /\
  (~ good -> ~ bad -> Generate R G H a b fs Q = Err (if Nat.eqb (length a - 2 ^ k) (if Nat.ltb (2 ^ k) (length b) then 2 ^ k else 0) then exp_text else ip_text)).
Proof.
  intros HK LG Ba Bb BH good bad. 
  assert (P2 : length G = 2 ^ k + 2 ^ k) by (rewrite LG; cbn [Nat.pow]; lia). pose proof (Nat.pow_nonzero 2 k ltac:(lia)) as PK.
  assert (ZG : Z.of_nat (length G) = (2 ^ (Z.of_nat k + 1))%Z) by (rewrite LG, Nat2Z.inj_pow; f_equal; lia).
  assert (BG : (Z.of_nat (length G) < 2 ^ 32)%Z). { rewrite ZG. apply Z.pow_lt_mono_r; lia. }
  assert (RED : ~ good -> Generate R G H a b fs Q = match round_first R (Z.of_nat (2 ^ k)) fs Q (mkG R a b G H [] [] []) with Ok _ => Generate R G H a b fs Q | Err e => Err e | Panic => Panic end).
  { intros _. destruct (round_first _ _ _ _ _) eqn:E; [reflexivity| |]; unfold Generate;
    replace (u32 (Z.of_nat (length G))) with (Z.of_nat (length G)) by (unfold u32; rewrite Z.mod_small; lia);
    rewrite ZG, isPower2_pow, <- ZG by lia; cbn [negb]; (destruct (Z.eqb_spec (Z.of_nat (length G)) 1) as [C|C]; [lia|]); cbn [negb];
    replace (Z.of_nat (length G) / 2)%Z with (Z.of_nat (2 ^ k)) by (rewrite P2, Nat2Z.inj_add, Z.add_diag, Z.mul_comm, Z.div_mul by lia; reflexivity);
    rewrite E; reflexivity. }
  split; [|split].
  - intros (A1 & A2 & A3 & A4). destruct (Generate_ok OK G H a b fs Q (S k)) as (p & E & _); try lia. exists p. exact E.
  - intros B. assert (NG : ~ good) by (intros (X1 & X2 & X3 & X4); destruct B as (B1 & B2 & [B3|(_ & _ & B3)]); lia). rewrite (RED NG).
    rewrite (proj1 (round_first_fails (2 ^ k) fs Q a b G H ltac:(lia) P2 Ba Bb BG BH ltac:(intros X; apply NG; unfold good; lia))); [reflexivity|].
    unfold bad in B. lia.
  - intros NG NB. rewrite (RED NG).
    rewrite (proj2 (round_first_fails (2 ^ k) fs Q a b G H ltac:(lia) P2 Ba Bb BG BH ltac:(intros X; apply NG; unfold good; lia))); [reflexivity|].
    intros X. apply NB. unfold bad. lia.
Qed.

Lemma Generate_empty fs Q : Generate R [] [] [] [] fs Q = Panic.
Proof.
  unfold Generate. change (u32 (Z.of_nat (length (@nil (pt R))))) with 0%Z.
  change (isPower2 0) with true. cbn [negb Z.eqb].
  unfold round_first. cbn. reflexivity.
Qed.

Lemma Generate_single g H a b fs Q : a <> [] -> b <> [] ->
  Generate R [g] H a b fs Q = Ok (mkIPP R [] [] (last a f0) (last b f0)).
Proof.
  intros Ha Hb. unfold Generate. change (u32 (Z.of_nat (length [g]))) with 1%Z.
  change (isPower2 1) with true. cbn [negb Z.eqb Pos.eqb bind rounds Z.ltb Z.compare Pos.compare Pos.compare_cont g_a g_b g_L g_R].
  assert (LE : forall l : list F, l <> [] -> last_elem l = Ok (last l f0)).
  { intros l Hl. destruct (exists_last Hl) as [l' [x ->]]. unfold last_elem.
    rewrite app_length, Nat.add_comm. cbn [length plus]. rewrite last_last.
    apply idx_some. rewrite nth_error_app2 by lia. rewrite Nat.sub_diag. reflexivity. }
  rewrite (LE a Ha), (LE b Hb). reflexivity.
Qed.

(** ** Codec *)
Definition ipp_enc (p : ipproof R) : bytes := concat (ipp_chunks R p).

Lemma lr_chunks_len Ls : forall Rs, length Ls = length Rs -> length (concat (lr_chunks R Ls Rs)) = 64 * length Ls.
Proof.
  induction Ls as [|l Ls IH]; intros [|r Rs] H; cbn [length] in *; try discriminate; [reflexivity|].
  cbn [lr_chunks concat]. rewrite !app_length, !(pbytes_len R OK), IH by lia. lia.
Qed.
Lemma firstn_app_exact {A} (a b : list A) n : length a = n -> firstn n (a ++ b) = a /\ skipn n (a ++ b) = b.
Proof. intros <-. rewrite firstn_app, skipn_app, Nat.sub_diag, firstn_all, skipn_all. cbn. rewrite app_nil_r. auto. Qed.
Lemma pset_ignore_pbytes q : pset_ignore R (pbytes R q) = q.
Proof. unfold pset_ignore. rewrite (pset_pbytes R OK). reflexivity. Qed.
Lemma lr_decode_chunks Ls : forall Rs rest, length Ls = length Rs ->
  lr_decode R (length Ls) (concat (lr_chunks R Ls Rs) ++ rest) = (Ls, Rs).
Proof.
  induction Ls as [|l Ls IH]; intros [|r Rs] rest H; cbn [length] in *; try discriminate; [reflexivity|].
  cbn [lr_chunks concat lr_decode]. rewrite <- !app_assoc.
  set (t := concat (lr_chunks R Ls Rs) ++ rest).
  destruct (firstn_app_exact (pbytes R l) (pbytes R r ++ t) 32 (pbytes_len R OK l)) as [A1 A2].
  destruct (firstn_app_exact (pbytes R r) t 32 (pbytes_len R OK r)) as [B1 B2].
  replace (skipn 64 (pbytes R l ++ pbytes R r ++ t)) with t.
  - unfold t. rewrite IH by lia. fold t. rewrite A1, A2, B1. rewrite !pset_ignore_pbytes. reflexivity.
  - rewrite app_assoc. destruct (firstn_app_exact (pbytes R l ++ pbytes R r) t 64) as [_ C]; [|symmetry; exact C].
    rewrite app_length, !(pbytes_len R OK). reflexivity.
Qed.

Lemma ipp_encode p : length (ip_L R p) = length (ip_R R p) -> ipp_Encode R p w_fresh = (Ok tt, mkW (ipp_enc p) []).
Proof.
  intros H. unfold ipp_Encode. rewrite <- H, Nat.leb_refl.
  change (w_each w_write (ipp_chunks R p) w_fresh) with (write_chunks (ipp_chunks R p) w_fresh).
  unfold ipp_enc, w_fresh. generalize (ipp_chunks R p). intros cs.
  assert (G : forall out, write_chunks cs (mkW out []) = (Ok tt, mkW (out ++ concat cs) [])).
  { induction cs as [|c cs IH]; intros out.
    - cbn. rewrite app_nil_r. reflexivity.
    - rewrite write_chunks_cons. cbn [w_plan w_out]. rewrite IH, <- app_assoc. reflexivity. }
  rewrite G. reflexivity.
Qed.
Lemma ipp_encode_short p w : length (ip_R R p) < length (ip_L R p) -> no_fault w -> fst (ipp_Encode R p w) = Panic.
Proof.
  intros H W. unfold ipp_Encode. destruct (Nat.leb_spec (length (ip_L R p)) (length (ip_R R p))) as [C|C]; [lia|].
  unfold w_seq.
  match goal with |- context [w_each w_write ?cs w] =>
    pose proof (write_chunks_ok cs w W) as [A _]; unfold write_chunks in A; destruct (w_each w_write cs w) as [r w'] end.
  cbn [fst] in A. subst r. reflexivity.
Qed.

Lemma ipp_decode_gen p0 r A B buf : fault_free r -> length A = 32 -> length B = 32 ->
  rbytes r = A ++ B ++ buf -> length buf mod 32 = 0 -> (Z.of_nat (length buf / 64) < 2 ^ 32)%Z ->
  exec (ipp_Decode R p0) r =
  ((let (Ls, Rs) := lr_decode R (length buf / 64) buf in mkIPP R Ls Rs (sset R A) (sset R B), Ok tt), []).
Proof.
  intros F LA LB E M Z. unfold ipp_Decode. rewrite exec_rbind.
  destruct (reads_bytes 32 A LA r (B ++ buf) F E) as [r1 [X1 [Y1 Z1]]]. rewrite X1. rewrite exec_rbind.
  destruct (reads_bytes 32 B LB r1 buf Z1 Y1) as [r2 [X2 [Y2 Z2]]]. rewrite X2.
  rewrite exec_RAll, (read_all_ok r2 Z2), Y2, M. cbn [Nat.eqb negb].
  unfold u32. rewrite Z.mod_small by lia. rewrite !exec_RAlloc. rewrite Nat2Z.id.
  destruct (lr_decode R (length buf / 64) buf) as [Ls Rs]. reflexivity.
Qed.

Lemma ipp_decode_ok p p0 r extra : length (ip_L R p) = length (ip_R R p) -> (Z.of_nat (length (ip_L R p)) < 2 ^ 32)%Z ->
  fault_free r -> rbytes r = ipp_enc p ++ extra -> length extra = 0 \/ length extra = 32 ->
  exec (ipp_Decode R p0) r = ((p, Ok tt), []).
Proof.
  intros HL HB F E X. unfold ipp_enc, ipp_chunks in E. cbn [concat] in E. rewrite <- !app_assoc in E.
  assert (LB : length (concat (lr_chunks R (ip_L R p) (ip_R R p)) ++ extra) = 64 * length (ip_L R p) + length extra).
  { rewrite app_length, (lr_chunks_len _ _ HL). reflexivity. }
  assert (D : length (concat (lr_chunks R (ip_L R p) (ip_R R p)) ++ extra) / 64 = length (ip_L R p)).
  { rewrite LB. symmetry. apply (Nat.div_unique _ _ _ (length extra)); lia. }
  rewrite (ipp_decode_gen p0 r _ _ _ F (sbytes_len R OK _) (sbytes_len R OK _) E).
  - rewrite D, (lr_decode_chunks _ _ extra HL), !(sset_sbytes R OK). destruct p. reflexivity.
  - rewrite LB. replace (64 * length (ip_L R p) + length extra) with (length extra + 2 * length (ip_L R p) * 32) by lia.
    rewrite Nat.mod_add by lia. destruct X as [->| ->]; reflexivity.
  - rewrite D. exact HB.
Qed.

(** ** Equality *)
Lemma lr_equals_spec L Rs oL oR : forall n i, i + n = length L -> length Rs = length L ->
  match lr_equals R L Rs oL oR i n with
  | Ok true => firstn n (skipn i oL) = skipn i L /\ firstn n (skipn i oR) = skipn i Rs
  | Ok false => exists j, i <= j < length L /\
       ((exists x y, nth_error L j = Some x /\ nth_error oL j = Some y /\ x <> y) \/
        (exists x y, nth_error Rs j = Some x /\ nth_error oR j = Some y /\ x <> y)) /\
       (forall m, i <= m < j -> nth_error L m = nth_error oL m /\ nth_error Rs m = nth_error oR m)
  | Panic => exists j, i <= j < length L /\ (length oL <= j \/ length oR <= j) /\
       (forall m, i <= m < j -> nth_error L m = nth_error oL m /\ nth_error Rs m = nth_error oR m)
  | Err _ => False
  end.
Proof.
  induction n as [|n IH]; intros i Hi HR; cbn [lr_equals].
  - cbn. rewrite !skipn_all2 by lia. auto.
  - destruct (nth_error_ex L i) as [l El]; [lia|]. destruct (nth_error_ex Rs i) as [r Er]; [lia|].
    rewrite (idx_some _ _ _ El). cbn [bind]. unfold idx at 1.
    destruct (nth_error oL i) as [ol|] eqn:Eol; cbn [bind].
    2:{ exists i. split; [lia|]. split; [left; apply nth_error_None; exact Eol|intros; lia]. }
    destruct (peqb R l ol) eqn:P1; cbn [negb].
    2:{ exists i. split; [lia|]. split; [|intros; lia]. left. exists l, ol. repeat split; auto.
        apply (peqb_neq OK). exact P1. }
    apply (peqb_ok R OK) in P1. subst ol.
    rewrite (idx_some _ _ _ Er). cbn [bind]. unfold idx at 1.
    destruct (nth_error oR i) as [or|] eqn:Eor; cbn [bind].
    2:{ exists i. split; [lia|]. split; [right; apply nth_error_None; exact Eor|intros; lia]. }
    destruct (peqb R r or) eqn:P2; cbn [negb].
    2:{ exists i. split; [lia|]. split; [|intros; lia]. right. exists r, or. repeat split; auto.
        apply (peqb_neq OK). exact P2. }
    apply (peqb_ok R OK) in P2. subst or.
    specialize (IH (S i) ltac:(lia) HR).
    assert (EXT : forall j, (forall m, S i <= m < j -> nth_error L m = nth_error oL m /\ nth_error Rs m = nth_error oR m) ->
       forall m, i <= m < j -> nth_error L m = nth_error oL m /\ nth_error Rs m = nth_error oR m).
    { intros j A m Hm. destruct (Nat.eq_dec m i) as [->|]; [rewrite El, Er; auto|apply A; lia]. }
    destruct (lr_equals R L Rs oL oR (S i) n) as [[]| |].
    + destruct IH as [A1 A2].
      destruct (nth_error_split_eq _ _ _ El) as [B1 _]. destruct (nth_error_split_eq _ _ _ Er) as [B2 _].
      destruct (nth_error_split_eq _ _ _ Eol) as [B3 _]. destruct (nth_error_split_eq _ _ _ Eor) as [B4 _].
      rewrite B1, B2, B3, B4. cbn [firstn]. rewrite A1, A2. auto.
    + destruct IH as [j [J1 [J2 J3]]]. exists j. split; [lia|]. split; [exact J2|]. apply EXT. exact J3.
    + exact IH.
    + destruct IH as [j [J1 [J2 J3]]]. exists j. split; [lia|]. split; [exact J2|]. apply EXT. exact J3.
Qed.

Lemma ipp_equals_true p q : length (ip_L R p) = length (ip_R R p) ->
  ipp_Equals R p q = Ok true <->
  ip_A R p = ip_A R q /\ ip_B R p = ip_B R q /\
  (exists l', ip_L R q = ip_L R p ++ l') /\ (exists r', ip_R R q = ip_R R p ++ r').
Proof.
  intros HL. unfold ipp_Equals.
  destruct (feqb (ip_A R p) (ip_A R q)) eqn:EA; cbn [negb].
  2:{ split; [discriminate|]. intros [A _]. apply feqb_eq in A. congruence. }
  destruct (feqb (ip_B R p) (ip_B R q)) eqn:EB; cbn [negb].
  2:{ split; [discriminate|]. intros [_ [B _]]. apply feqb_eq in B. congruence. }
  apply feqb_eq in EA, EB.
  pose proof (lr_equals_spec (ip_L R p) (ip_R R p) (ip_L R q) (ip_R R q) (length (ip_L R p)) 0 eq_refl (eq_sym HL)) as S.
  cbn [skipn] in S. split.
  - intros E. rewrite E in S. destruct S as [S1 S2]. repeat split; try assumption.
    + exists (skipn (length (ip_L R p)) (ip_L R q)). rewrite <- S1 at 1. symmetry. apply firstn_skipn.
    + exists (skipn (length (ip_L R p)) (ip_R R q)). rewrite <- S2 at 1. symmetry. apply firstn_skipn.
  - intros [_ [_ [[l' Hl] [r' Hr]]]].
    destruct (lr_equals R (ip_L R p) (ip_R R p) (ip_L R q) (ip_R R q) 0 (length (ip_L R p))) as [[]| |].
    + reflexivity.
    + exfalso. destruct S as [j [J1 [[[x [y [X [Y N]]]]|[x [y [X [Y N]]]]] _]]]; apply N.
      * rewrite Hl, nth_error_app1 in Y by lia. congruence.
      * rewrite Hr, nth_error_app1 in Y by lia. congruence.
    + contradiction.
    + exfalso. destruct S as [j [J1 [[J2|J2] _]]]; [rewrite Hl in J2|rewrite Hr in J2]; rewrite app_length in J2; lia.
Qed.
Lemma ipp_equals_panic p q l l' : ip_A R p = ip_A R q -> ip_B R p = ip_B R q ->
  length (ip_L R p) = length (ip_R R p) -> length (ip_L R q) = length (ip_R R q) ->
  ip_L R p = ip_L R q ++ l -> l <> [] -> ip_R R p = ip_R R q ++ l' -> ipp_Equals R p q = Panic.
Proof.
  intros EA EB HLp HLq Hl Nl Hr. unfold ipp_Equals.
  rewrite (proj2 (feqb_eq _ _) EA), (proj2 (feqb_eq _ _) EB). cbn [negb].
  pose proof (lr_equals_spec (ip_L R p) (ip_R R p) (ip_L R q) (ip_R R q) (length (ip_L R p)) 0 eq_refl (eq_sym HLp)) as S.
  cbn [skipn] in S.
  assert (LL : length (ip_L R q) < length (ip_L R p)).
  { rewrite Hl, app_length. destruct l; [congruence|cbn; lia]. }
  destruct (lr_equals R (ip_L R p) (ip_R R p) (ip_L R q) (ip_R R q) 0 (length (ip_L R p))) as [[]| |].
  - exfalso. destruct S as [S1 _]. apply (f_equal (@length _)) in S1. rewrite firstn_length in S1. lia.
  - exfalso. destruct S as [j [J1 [[[x [y [X [Y N]]]]|[x [y [X [Y N]]]]] _]]]; apply N.
    + assert (j < length (ip_L R q)) by (apply nth_error_Some; congruence).
      rewrite Hl, nth_error_app1 in X by lia. congruence.
    + assert (j < length (ip_R R q)) by (apply nth_error_Some; congruence).
      rewrite Hr, nth_error_app1 in X by lia. congruence.
  - contradiction.
  - reflexivity.
Qed.
(** [Equals] on proofs with any numbers of points *)
Definition agree_at (p q : ipproof R) (j : nat) : Prop :=
  exists l r, nth_error (ip_L R p) j = Some l /\ nth_error (ip_L R q) j = Some l /\ nth_error (ip_R R p) j = Some r /\ nth_error (ip_R R q) j = Some r.
Definition missing_at (p q : ipproof R) (j : nat) : Prop :=
  nth_error (ip_L R q) j = None \/ nth_error (ip_L R q) j = nth_error (ip_L R p) j /\ (nth_error (ip_R R p) j = None \/ nth_error (ip_R R q) j = None).
Lemma lr_any p q : forall n i, i + n = length (ip_L R p) ->
  let l := lr_equals R (ip_L R p) (ip_R R p) (ip_L R q) (ip_R R q) i n in
  (l = Ok true /\ forall j, i <= j < i + n -> agree_at p q j) \/
  exists j, i <= j < i + n /\ (forall m, i <= m < j -> agree_at p q m) /\ ~ agree_at p q j /\
    ((l = Panic /\ missing_at p q j) \/ (l = Ok false /\ ~ missing_at p q j)).
Proof.
  induction n as [|n IH]; intros i Hi; cbn [lr_equals].
  - left. split; [reflexivity|]. intros j J. lia.
  - destruct (nth_error_ex (ip_L R p) i) as [l El]; [lia|]. rewrite (idx_some _ _ _ El). cbn [bind].
    assert (HERE : forall v, ~ agree_at p q i -> ((v = Panic /\ missing_at p q i) \/ (v = Ok false /\ ~ missing_at p q i)) ->
      (v = Ok true /\ forall j, i <= j < i + S n -> agree_at p q j) \/
      exists j, i <= j < i + S n /\ (forall m, i <= m < j -> agree_at p q m) /\ ~ agree_at p q j /\
        ((v = Panic /\ missing_at p q j) \/ (v = Ok false /\ ~ missing_at p q j))).
    { intros v N Q. right. exists i. split; [lia|]. split; [intros m M; lia|]. split; [exact N|exact Q]. }
    cbv zeta. destruct (nth_error (ip_L R q) i) as [ol|] eqn:Eol; unfold idx; rewrite Eol; cbn [bind].
    2:{ apply HERE; [intros (a & b & _ & X & _); congruence|]. left. split; [reflexivity|]. left. exact Eol. }
    destruct (peqb R l ol) eqn:EQ; cbn [negb].
    2:{ apply (peqb_neq OK) in EQ. apply HERE; [intros (a & b & X & Y & _); congruence|]. right. split; [reflexivity|]. intros [X|[X _]]; congruence. }
    apply (peqb_ok R OK) in EQ. subst ol. destruct (nth_error (ip_R R p) i) as [r|] eqn:Er; cbn [bind].
    2:{ apply HERE; [intros (a & b & _ & _ & X & _); congruence|]. left. split; [reflexivity|]. right. split; [congruence|]. left. exact Er. }
    destruct (nth_error (ip_R R q) i) as [or|] eqn:Eor; cbn [bind].
    2:{ apply HERE; [intros (a & b & _ & _ & _ & X); congruence|]. left. split; [reflexivity|]. right. split; [congruence|]. right. exact Eor. }
    destruct (peqb R r or) eqn:EQ; cbn [negb].
    2:{ apply (peqb_neq OK) in EQ. apply HERE; [intros (a & b & _ & _ & X & Y); congruence|]. right. split; [reflexivity|]. intros [X|[_ [X|X]]]; congruence. }
    apply (peqb_ok R OK) in EQ. subst or.
    assert (A : agree_at p q i) by (exists l, r; auto).
    destruct (IH (S i)) as [[X H]|(j & J & H & N & Q)]; [lia| |].
    + left. split; [exact X|]. intros j J. destruct (Nat.eq_dec j i) as [->|NE]; [exact A|apply H; lia].
    + right. exists j. split; [lia|]. split; [|split; [exact N|exact Q]]. intros m M. destruct (Nat.eq_dec m i) as [->|NE]; [exact A|apply H; lia].
Qed.
Lemma ipp_equals_any p q : let e := ipp_Equals R p q in let same := ip_A R p = ip_A R q /\ ip_B R p = ip_B R q in
  (e = Ok true <-> same /\ forall j, j < length (ip_L R p) -> agree_at p q j) /\
  (e = Panic <-> same /\ exists j, j < length (ip_L R p) /\ (forall m, m < j -> agree_at p q m) /\ missing_at p q j) /\
  (forall x, e <> Err x).
Proof.
  cbv zeta. unfold ipp_Equals.
  destruct (feqb_spec (ip_A R p) (ip_A R q)) as [EA|EA]; cbn [negb].
  2:{ split; [|split; [|discriminate]]; (split; [discriminate|tauto]). }
  destruct (feqb_spec (ip_B R p) (ip_B R q)) as [EB|EB]; cbn [negb].
  2:{ split; [|split; [|discriminate]]; (split; [discriminate|tauto]). }
  assert (MA : forall j, missing_at p q j -> ~ agree_at p q j).
  { intros j [X|[_ [X|X]]] (a & b & Y1 & Y2 & Y3 & Y4); congruence. }
  destruct (lr_any p q (length (ip_L R p)) 0 eq_refl) as [[X H]|(j & J & H & N & Q)]; [cbv zeta in X; rewrite X|].
  - split; [|split; [|discriminate]]; (split; [try discriminate|]).
    + intros _. split; [auto|]. intros j J. apply H. lia.
    + reflexivity.
    + intros (_ & j & J & _ & M). exfalso. apply (MA j M), H. lia.
  - destruct Q as [[X M]|[X M]]; cbv zeta in X; rewrite X; split; try (split; [|discriminate]); (split; [try discriminate|]).
    + intros [_ A]. exfalso. apply N, A. lia.
    + intros _. split; [auto|]. exists j. split; [lia|]. split; [|exact M]. intros m Hm. apply H. lia.
    + reflexivity.
    + intros [_ A]. exfalso. apply N, A. lia.
    + intros (_ & j' & J' & H' & M'). exfalso. destruct (lt_eq_lt_dec j j') as [[L|E]|L].
      * apply N, H', L.
      * subst. contradiction.
      * apply (MA j' M'), H. lia.
Qed.
End Props.
