(** Properties C88-C90: forgers of MLSAG signatures (mlsag/mlsag.go) *)
From Coq Require Import String ZArith List Lia Bool Arith.
From Coq Require Import Init.Byte.
From Verif Require Import GoModel GoFacts Fld Rist RistFacts RistInst SpecVector SpecMlsag MlsagModel SpecRewind SpecFork ForkFacts ForkAttack.
Import ListNotations.
Local Open Scope nat_scope.

(** ** C88.  Soundness of MLSAG by rewinding. *)
(** Runs of one forger against a ring fixed in advance, with hash functions that agree until the k-th question
    and answer it differently, where k is in each run the row string hashed last.  Among enough accepted runs two give,
    by the formula [secret], the private keys of a row and all key images are the right ones; or all rows hashed the same
    string in both, and the private keys of all rows are found. *)
Theorem C88_many R (OK : rist_ok R) ring m k A (hs : list (bytes -> F)) :
  (forall h, In h hs -> accepted R ring m h (answer h A) /\ list_max (places R ring h A) = k /\
     forall s, In s (hashed R ring h (answer h A)) -> h s <> f0) ->
  (forall h h' q, In h hs -> In h' hs -> In q (firstn k (queries R ring h A)) -> h q = h' q) ->
  NoDup (map (fun h => h (nth k (queries R ring h A) [])) hs) ->
  Nat.max 2 (length ring) * k * (k + 1) + 1 < length hs ->
  exists h h', In h hs /\ In h' hs /\
   let f := answer h A in let f' := answer h' A in
   ((exists i r r' c c', nth_error (passed R ring f) i = Some r /\ nth_error (passed R ring f') i = Some r' /\
      nth_error (entering R ring h f) i = Some c /\ nth_error (entering R ring h' f') i = Some c' /\
      keys_found R r r' c c' /\ fg_images R f = fg_images R f' /\ images_found R (fg_images R f) r r' c c') \/
    (exists q, Forall (eq q) (hashed R ring h f) /\ Forall (eq q) (hashed R ring h' f') /\
      forall i r r', nth_error (passed R ring f) i = Some r -> nth_error (passed R ring f') i = Some r' -> keys_found R r r' (h q) (h' q))).
Proof. exact (fork_many OK ring m k A hs). Qed.
Print Assumptions C88_many.
(** the rows that are passed are those of the ring *)
Theorem C88_rows R ring m h f i r : accepted R ring m h f -> nth_error (passed R ring f) i = Some r ->
  nth_error ring (i mod length ring) = Some (fst r).
Proof. intros A E. pose proof (accepted_facts ring m h f A) as (_ & _ & _ & W & _). exact (proj2 (W i r E)). Qed.
Print Assumptions C88_rows.
(** two runs in which row l was hashed last, at k, row l+1 earlier, at p1, and row l+2 at p2 *)
Theorem C88_two R (OK : rist_ok R) ring m k A h h' q l p1 p2 : let f := answer h A in let f' := answer h' A in let n := Nat.max 2 (length ring) in
  accepted R ring m h f -> accepted R ring m h' f' ->
  (forall q, In q (firstn k (queries R ring h A)) -> h q = h' q) -> nth_error (queries R ring h A) k = Some q -> h q <> h' q ->
  p1 < k -> p2 <= k ->
  nth_error (places R ring h A) l = Some k -> nth_error (places R ring h' A) l = Some k ->
  nth_error (places R ring h A) (S l mod n) = Some p1 -> nth_error (places R ring h' A) (S l mod n) = Some p1 ->
  nth_error (places R ring h A) (S (S l mod n) mod n) = Some p2 -> nth_error (places R ring h' A) (S (S l mod n) mod n) = Some p2 ->
  (forall s, In s (hashed R ring h f) -> h s <> f0) ->
  exists r r' c c', nth_error (passed R ring f) (S l mod n) = Some r /\ nth_error (passed R ring f') (S l mod n) = Some r' /\
    nth_error (entering R ring h f) (S l mod n) = Some c /\ nth_error (entering R ring h' f') (S l mod n) = Some c' /\
    keys_found R r r' c c' /\ fg_images R f = fg_images R f' /\ images_found R (fg_images R f) r r' c c'.
Proof. intros f f' n A1 A2 SM Hq NE. exact (fork OK ring m k A h h' q A1 A2 SM Hq NE l p1 p2). Qed.
Print Assumptions C88_two.
(** all rows hashed the same string: then different keys with a key image give a relation between their hashes *)
Theorem C88_same_string R (OK : rist_ok R) ring m h f q i i' r r' j k k' a a' im :
  accepted R ring m h f -> Forall (eq q) (hashed R ring h f) -> h q <> f0 ->
  nth_error (passed R ring f) i = Some r -> nth_error (passed R ring f) i' = Some r' ->
  nth_error (fst r) j = Some k -> nth_error (fst r') j = Some k' -> nth_error (snd r) j = Some a -> nth_error (snd r') j = Some a' ->
  nth_error (fg_images R f) j = Some im -> k <> k' ->
  smul R a (pderive R (pbytes R k)) = smul R a' (pderive R (pbytes R k')) /\ ~ (a = f0 /\ a' = f0).
Proof. exact (degenerate OK ring m h f q i i' r r' j k k' a a' im). Qed.
Print Assumptions C88_same_string.
(** who knows the private keys of a row is accepted whatever the hash function is *)
Theorem C88_signer R (OK : rist_ok R) h msg ns xs decoys : length ns = length xs -> xs <> [] ->
  Forall (row_ok R (map (key_image R) xs)) decoys ->
  let f := answer h (signer R msg ns xs decoys) in
  fg_c R f <> f0 -> accepted R (keys_of R xs :: map fst decoys) (length xs) h f /\ fg_msg R f = msg /\ fg_images R f = map (key_image R) xs.
Proof. exact (signer_accepted OK h msg ns xs decoys). Qed.
Print Assumptions C88_signer.

Lemma tiny_ok : rist_ok tiny. Proof. apply fin_rist_ok. Qed.
Definition fx_decoys : list (list F * list F) := [([of_Z 5], [of_Z 1])].
Definition fx_A : oracle (forgery tiny) := signer tiny [] [of_Z 3] [of_Z 2] fx_decoys.
Definition fx_ring : list (list F) := keys_of tiny [of_Z 2] :: map fst fx_decoys.
Definition fx_q : bytes := late_input tiny [] [of_Z 3] [of_Z 2] [].
Definition fx_h (v : F) (q : bytes) : F := if list_eq_dec Byte.byte_eq_dec q fx_q then f1 else v.
Definition fx_hs : list (bytes -> F) := map fx_h (map of_Z [1; 2; 3; 4; 5; 6]%Z).
Example C88_ex : (forall h, In h fx_hs -> accepted tiny fx_ring 1 h (answer h fx_A) /\ list_max (places tiny fx_ring h fx_A) = 1 /\
     forall s, In s (hashed tiny fx_ring h (answer h fx_A)) -> h s <> f0) /\
  (forall h h' q, In h fx_hs -> In h' fx_hs -> In q (firstn 1 (queries tiny fx_ring h fx_A)) -> h q = h' q) /\
  NoDup (map (fun h => h (nth 1 (queries tiny fx_ring h fx_A) [])) fx_hs) /\
  Nat.max 2 (length fx_ring) * 1 * (1 + 1) + 1 < length fx_hs.
Proof.
  set (q1 := input tiny [] (map (key_image tiny) [of_Z 2]) ([of_Z 5], [of_Z 1]) f1).
  assert (NQ : q1 <> fx_q). { intros C. apply (f_equal (fun b => bytes_eqb b fx_q)) in C. vm_compute in C. discriminate. }
  assert (H0 : forall v, fx_h v fx_q = f1) by (intros v; unfold fx_h; destruct (list_eq_dec _ _ _); congruence).
  assert (H1 : forall v, fx_h v q1 = v) by (intros v; unfold fx_h; destruct (list_eq_dec _ _ _); congruence).
  assert (C : forall v, fg_c tiny (answer (fx_h v) fx_A) = v).
  { intros v. change (fx_h v (input tiny [] (map (key_image tiny) [of_Z 2]) ([of_Z 5], [of_Z 1]) (fx_h v fx_q)) = v). rewrite H0. exact (H1 v). }
  assert (NZ : forall z, (0 < z < 7)%Z -> of_Z z <> f0).
  { intros z Hz E. apply (f_equal to_Z) in E. rewrite to_Z_of_Z, Z.mod_small in E by (assert (7 < Prime.ell)%Z by reflexivity; lia). change (to_Z f0) with 0%Z in E. lia. }
  assert (V : forall h, In h fx_hs -> exists v, h = fx_h v /\ v <> f0).
  { intros h I. apply in_map_iff in I. destruct I as (v & <- & I). exists v. split; [reflexivity|].
    apply in_map_iff in I. destruct I as (z & <- & I). apply NZ. cbn in I. lia. }
  assert (HS : forall v, v <> f0 -> asked (fx_h v) fx_A = [fx_q; q1] /\ hashed tiny fx_ring (fx_h v) (answer (fx_h v) fx_A) = [fx_q; q1]).
  { intros v Nv. destruct (signer_hashed (R := tiny) tiny_ok (fx_h v) [] [of_Z 3] [of_Z 2] fx_decoys eq_refl ltac:(discriminate)) as [X Y].
    { change (fg_c tiny (answer (fx_h v) fx_A) <> f0). rewrite C. exact Nv. }
    assert (Z : asked (fx_h v) fx_A = [fx_q; q1]).
    { etransitivity; [exact X|]. cbn [inputs fx_decoys]. change (late_input tiny [] [of_Z 3] [of_Z 2] []) with fx_q. rewrite H0. reflexivity. }
    split; [exact Z|]. etransitivity; [exact Y|exact Z]. }
  assert (QS : forall v, v <> f0 -> queries tiny fx_ring (fx_h v) fx_A = [fx_q; q1; fx_q; q1]).
  { intros v Nv. unfold queries. destruct (HS v Nv) as [-> ->]. reflexivity. }
  split; [|split; [|split]].
  - intros h I. destruct (V h I) as (v & -> & Nv). split; [|split].
    + apply (C88_signer tiny tiny_ok); [reflexivity|discriminate|repeat constructor|].
      change (fg_c tiny (answer (fx_h v) fx_A) <> f0). rewrite C. exact Nv.
    + unfold places. rewrite QS by exact Nv. destruct (HS v Nv) as [_ ->]. cbn [map first_of].
      destruct (list_eq_dec _ fx_q fx_q) as [_|N]; [|congruence]. destruct (list_eq_dec _ fx_q q1) as [E|_]; [congruence|].
      destruct (list_eq_dec _ q1 q1) as [_|N]; [reflexivity|congruence].
    + destruct (HS v Nv) as [_ ->]. intros s [<-|[<-|[]]]; [rewrite H0; apply f1_neq_f0|rewrite H1; exact Nv].
  - intros h h' q I I'. destruct (V h I) as (v & -> & Nv). destruct (V h' I') as (v' & -> & _). rewrite QS by exact Nv.
    intros [<-|[]]. rewrite !H0. reflexivity.
  - assert (EM : map (fun h => h (nth 1 (queries tiny fx_ring h fx_A) [])) fx_hs = map of_Z [1; 2; 3; 4; 5; 6]%Z).
    { unfold fx_hs. etransitivity; [apply map_map|]. etransitivity; [|apply map_id]. apply map_ext_in. intros v Iv.
      destruct (V (fx_h v) (in_map _ _ _ Iv)) as (v' & Ev & Nv).
      assert (v = v') by (rewrite <- (H1 v), <- (H1 v'), Ev; reflexivity). subst v'. rewrite QS by exact Nv. exact (H1 v). }
    rewrite EM. assert (IJ : forall a b, (0 < a < 7)%Z -> (0 < b < 7)%Z -> of_Z a = of_Z b -> a = b).
      { intros a b Ha Hb E. apply (f_equal to_Z) in E. rewrite !to_Z_of_Z, !Z.mod_small in E by (assert (7 < Prime.ell)%Z by reflexivity; lia). exact E. }
      assert (ND : NoDup [1; 2; 3; 4; 5; 6]%Z). { repeat constructor; cbn; intuition discriminate. }
      assert (B : Forall (fun a => 0 < a < 7)%Z [1; 2; 3; 4; 5; 6]%Z) by (repeat constructor).
      revert B ND. generalize [1; 2; 3; 4; 5; 6]%Z. induction l as [|a l IH]; intros B ND; [constructor|].
      inversion B as [|? ? Ba Bl]; subst. inversion ND; subst. cbn [map]. constructor; [|apply IH; assumption].
      intros C2. apply in_map_iff in C2. destruct C2 as (b & E & Ib). apply IJ in E; [congruence| |assumption].
      exact (proj1 (Forall_forall _ _) Bl b Ib).
  - cbn. lia.
Qed.

(** ** C89 (defect).  Key images of a ring that repeats one row are not bound to the keys: with arbitrary points Ts hashed
    in place of the nonces' multiples the images are computed last. *)
Theorem C89_accepted R (OK : rist_ok R) msg ns xs Ts n d : let c := sderive R (copy_input R msg ns Ts) in
  length ns = length xs -> 0 < length Ts <= length xs -> c <> f0 -> 0 < n ->
  sig_Verify R (mkSig R c (repeat (respond c ns xs) n) (repeat (mkPK R d (keys_of R xs)) n) msg) (copy_images R c ns xs Ts) = Ok true.
Proof. exact (copies_verify OK msg ns xs Ts n d). Qed.
Print Assumptions C89_accepted.
(** the image differs from the right one by (T - a Hp(K)) / c *)
Theorem C89_images R (OK : rist_ok R) msg ns xs Ts j a x T : let c := sderive R (copy_input R msg ns Ts) in c <> f0 ->
  nth_error ns j = Some a -> nth_error xs j = Some x -> nth_error Ts j = Some T ->
  exists im, nth_error (copy_images R c ns xs Ts) j = Some im /\
    (im = key_image R x <-> T = smul R a (pderive R (pbytes R (smul R x (pbase R))))) /\
    padd R (key_image R x) (smul R (finv c) (psub R T (smul R a (pderive R (pbytes R (smul R x (pbase R))))))) = im.
Proof. exact (copies_image OK msg ns xs Ts j a x T). Qed.
Print Assumptions C89_images.
(** two accepted signatures for the same ring with different key images, neither of them the right one *)
Example C89_ex : exists s s' I I', sig_Verify tiny s [I] = Ok true /\ sig_Verify tiny s' [I'] = Ok true /\
  sg_pub tiny s = sg_pub tiny s' /\ sg_pub tiny s = repeat (mkPK tiny true (keys_of tiny [of_Z 2])) 3 /\
  I <> I' /\ I <> key_image tiny (of_Z 2) /\ I' <> key_image tiny (of_Z 2).
Proof.
  pose proof (C89_accepted tiny tiny_ok [] [of_Z 3] [of_Z 2] [of_Z 7] 3 true eq_refl ltac:(cbn; lia) f1_neq_f0 ltac:(lia)) as E1.
  pose proof (C89_accepted tiny tiny_ok [] [of_Z 3] [of_Z 2] [of_Z 8] 3 true eq_refl ltac:(cbn; lia) f1_neq_f0 ltac:(lia)) as E2.
  eexists _, _, _, _. split; [exact E1|]. split; [exact E2|]. split; [reflexivity|]. split; [reflexivity|].
  split; [|split]; intros C; apply (f_equal to_Z) in C; vm_compute in C; discriminate.
Qed.

(** ** C90 (defect).  The keys are not hashed.  Keys in columns without key image can be computed after the challenges,
    from arbitrary points Ts, so that nobody needs to know their private keys. *)
Theorem C90_accepted R (OK : rist_ok R) msg ns xs ss Ts decoys d : let J := map (key_image R) xs in
  let c := ring_chain R msg J decoys (sderive R (late_input R msg ns xs Ts)) in
  length ns = length xs -> length ss = length Ts -> xs <> [] -> c <> f0 -> Forall (row_ok R J) decoys ->
  sig_Verify R (mkSig R c ((respond c ns xs ++ ss) :: map snd decoys)
    (mkPK R d (keys_of R xs ++ late_keys R c ss Ts) :: map (fun row => mkPK R d (fst row)) decoys) msg) J = Ok true.
Proof. exact (late_verify OK msg ns xs ss Ts decoys d). Qed.
Print Assumptions C90_accepted.
(** a private key of such a key is the same as one of T *)
Theorem C90_unknown R (OK : rist_ok R) c ss Ts j s T z : c <> f0 -> nth_error ss j = Some s -> nth_error Ts j = Some T ->
  exists k, nth_error (late_keys R c ss Ts) j = Some k /\ (k = smul R z (pbase R) <-> T = smul R (fadd s (fmul c z)) (pbase R)).
Proof. exact (late_unknown OK c ss Ts j s T z). Qed.
Print Assumptions C90_unknown.
(** a dual key ring: one key image, and the second key of the first row is 4 - 3 *)
Example C90_ex : sig_Verify tiny (mkSig tiny f1 [[of_Z 1; of_Z 3]; [of_Z 8; of_Z 9]]
    [mkPK tiny true (keys_of tiny [of_Z 2] ++ late_keys tiny f1 [of_Z 3] [of_Z 4]); mkPK tiny true [of_Z 5; of_Z 6]] [])
    (map (key_image tiny) [of_Z 2]) = Ok true.
Proof. vm_compute. reflexivity. Qed.
