(** Properties C91, C92: forgers of bLSAG signatures (ringsig/blsag/blsag.go) *)
From Coq Require Import String ZArith List Lia Bool Arith.
From Coq Require Import Init.Byte.
From Verif Require Import GoModel GoFacts Fld Rist RistFacts RistInst SpecMlsag MlsagModel BlsagModel SpecRewind SpecFork SpecBlFork BlForkFacts P_Blsag P_Fork.
Import ListNotations.
Local Open Scope nat_scope.

(** ** C91.  Soundness of bLSAG by rewinding, for rings of group elements fixed in advance. *)
(** Runs of one forger as in C88: two of enough accepted runs give the private key of a key of the ring by the formula
    [secret], and the key image of both is that of this private key; or all keys hashed the same string in both, and the
    private keys of all keys are found. *)
Theorem C91_many R (OK : rist_ok R) V (VOK : raw_ok R V) ring k A (hs : list (bytes -> F)) :
  (forall h, In h hs -> bl_accepted R V ring h (answer h A) /\ list_max (bl_places R ring h A) = k /\
     forall s, In s (bl_hashed R ring h (answer h A)) -> h s <> f0) ->
  (forall h h' q, In h hs -> In h' hs -> In q (firstn k (bl_queries R ring h A)) -> h q = h' q) ->
  NoDup (map (fun h => h (nth k (bl_queries R ring h A) [])) hs) ->
  Nat.max 2 (length ring) * k * (k + 1) + 1 < length hs ->
  exists h h', In h hs /\ In h' hs /\
   let f := answer h A in let f' := answer h' A in
   ((exists i P s s' c c', nth_error ring (i mod length ring) = Some P /\
      nth_error (bf_s R f) (i mod length ring) = Some s /\ nth_error (bf_s R f') (i mod length ring) = Some s' /\
      nth_error (bl_entering R ring h f) i = Some c /\ nth_error (bl_entering R ring h' f') i = Some c' /\ c <> c' /\
      P = smul R (secret s s' c c') (pbase R) /\ bf_image R f = key_image R (secret s s' c c') /\ bf_image R f' = bf_image R f) \/
    (exists q, Forall (eq q) (bl_hashed R ring h f) /\ Forall (eq q) (bl_hashed R ring h' f') /\ h q <> h' q /\
      forall i P s s', nth_error ring i = Some P -> nth_error (bf_s R f) i = Some s -> nth_error (bf_s R f') i = Some s' ->
        P = smul R (secret s s' (h q) (h' q)) (pbase R))).
Proof. exact (bl_many OK VOK ring k A hs). Qed.
Print Assumptions C91_many.
(** all keys hashed the same string: then different keys give a relation between their hashes *)
Theorem C91_same_string R (OK : rist_ok R) V (VOK : raw_ok R V) ring h f q i i' P P' s s' :
  bl_accepted R V ring h f -> Forall (eq q) (bl_hashed R ring h f) -> h q <> f0 ->
  nth_error ring i = Some P -> nth_error ring i' = Some P' -> nth_error (bf_s R f) i = Some s -> nth_error (bf_s R f) i' = Some s' -> P <> P' ->
  smul R s (pderive R (pbytes R P)) = smul R s' (pderive R (pbytes R P')) /\ ~ (s = f0 /\ s' = f0).
Proof. exact (bl_degenerate OK VOK ring h f q i i' P P' s s'). Qed.
Print Assumptions C91_same_string.
(** with two or more keys that are group elements, Verify accepts exactly the signatures which are MLSAG signatures with one column *)
Theorem C91_mlsag R V (VOK : raw_ok R V) m J c ss ring d : 2 <= length ring -> length ss = length ring ->
  Verify R V m (mkRS R V (emb R V J) c ss (map (emb R V) ring)) = Ok true <->
  sig_Verify R (mkSig R c (ones ss) (map (fun P => mkPK R d [P]) ring) m) [J] = Ok true.
Proof.
  intros N L. pose proof (verify_column VOK m J c ss ring d N ltac:(lia)) as X. unfold column in X.
  rewrite <- L, firstn_all in X. unfold ones at 2 in X. rewrite map_map in X. symmetry. exact X.
Qed.
Print Assumptions C91_mlsag.
(** with one key only in this direction: MLSAG passes a single row twice *)
Theorem C91_mlsag_one R V (VOK : raw_ok R V) m J c s P d :
  Verify R V m (mkRS R V (emb R V J) c [s] [emb R V P]) = Ok true -> sig_Verify R (mkSig R c [[s]] [mkPK R d [P]] m) [J] = Ok true.
Proof. exact (verify_column_one VOK m J c s [] P d). Qed.
Print Assumptions C91_mlsag_one.

(** ** C92 (defect).  One key repeated: the key image is not bound to the key. *)
Theorem C92_accepted R (OK : rist_ok R) V (VOK : raw_ok R V) m a x T n :
  let c := sderive R (m ++ pbytes R (smul R a (pbase R)) ++ pbytes R T) in let s := fsub a (fmul c x) in let K := smul R x (pbase R) in
  c <> f0 -> 0 < n ->
  Verify R V m (mkRS R V (emb R V (smul R (finv c) (psub R T (smul R s (pderive R (pbytes R K)))))) c (repeat s n) (map (emb R V) (repeat K n))) = Ok true.
Proof. exact (bl_copies OK VOK m a x T n). Qed.
Print Assumptions C92_accepted.
Theorem C92_image R (OK : rist_ok R) c a x T : let s := fsub a (fmul c x) in let K := smul R x (pbase R) in c <> f0 ->
  smul R (finv c) (psub R T (smul R s (pderive R (pbytes R K)))) = key_image R x <-> T = smul R a (pderive R (pbytes R K)).
Proof. exact (copy_image OK c a x T). Qed.
Print Assumptions C92_image.
(** the forger of C88_ex with one column *)
Definition bx (f : forgery tiny) : bl_forgery tiny := mkBlForgery tiny (fg_msg tiny f) (fg_c tiny f) (concat (fg_r tiny f)) (hd (pt0 tiny) (fg_images tiny f)).
Definition bx_A : oracle (bl_forgery tiny) := omap bx fx_A.
Definition bx_ring : list F := concat fx_ring.
Lemma bx_back h : as_rows tiny (length bx_ring) (answer h bx_A) = answer h fx_A.
Proof. unfold bx_A. rewrite answer_omap. reflexivity. Qed.
Lemma bx_queries h : bl_queries tiny bx_ring h bx_A = queries tiny fx_ring h fx_A.
Proof. unfold bl_queries, bl_hashed, queries. rewrite bx_back. unfold bx_A. rewrite asked_omap. reflexivity. Qed.
Example C91_ex : (forall h, In h fx_hs -> bl_accepted tiny (opt_raw tiny) bx_ring h (answer h bx_A) /\ list_max (bl_places tiny bx_ring h bx_A) = 1 /\
     forall s, In s (bl_hashed tiny bx_ring h (answer h bx_A)) -> h s <> f0) /\
  (forall h h' q, In h fx_hs -> In h' fx_hs -> In q (firstn 1 (bl_queries tiny bx_ring h bx_A)) -> h q = h' q) /\
  NoDup (map (fun h => h (nth 1 (bl_queries tiny bx_ring h bx_A) [])) fx_hs) /\
  Nat.max 2 (length bx_ring) * 1 * (1 + 1) + 1 < length fx_hs.
Proof.
  destruct C88_ex as (H1 & H2 & H3 & H4). split; [|split; [|split]].
  - intros h I. destruct (H1 h I) as ((V & _ & _) & P & Z). split; [|split].
    + unfold bl_accepted.
      apply (verify_column (R := with_hash tiny h) (V := raw_hash tiny (opt_raw tiny) h) (raw_hash_ok (opt_raw_ok tiny) h) _ _ _ _ bx_ring true).
      * apply le_n.
      * unfold bx_A. rewrite answer_omap. apply le_n.
      * unfold bx_A. rewrite answer_omap. exact V.
    + unfold bl_places, bl_hashed. rewrite bx_back, bx_queries. exact P.
    + intros s. unfold bl_hashed. rewrite bx_back. exact (Z s).
  - intros h h' q I I'. rewrite bx_queries. apply H2; assumption.
  - erewrite map_ext; [exact H3|]. intros h. cbv beta. rewrite bx_queries. reflexivity.
  - exact H4.
Qed.
(** two accepted signatures for the same key with different key images, neither of them the right one *)
Example C92_ex : exists s s' : rsig tiny (opt_raw tiny), Verify tiny (opt_raw tiny) [] s = Ok true /\ Verify tiny (opt_raw tiny) [] s' = Ok true /\
  rs_pub _ _ s = rs_pub _ _ s' /\ rs_pub _ _ s = map Some (repeat (smul tiny (of_Z 2) (pbase tiny)) 3) /\
  rs_I _ _ s <> rs_I _ _ s' /\ rs_I _ _ s <> Some (key_image tiny (of_Z 2)) /\ rs_I _ _ s' <> Some (key_image tiny (of_Z 2)).
Proof.
  pose proof (C92_accepted tiny tiny_ok (opt_raw tiny) (opt_raw_ok tiny) [] (of_Z 3) (of_Z 2) (of_Z 7) 3 f1_neq_f0 ltac:(lia)) as E1.
  pose proof (C92_accepted tiny tiny_ok (opt_raw tiny) (opt_raw_ok tiny) [] (of_Z 3) (of_Z 2) (of_Z 8) 3 f1_neq_f0 ltac:(lia)) as E2.
  eexists _, _. split; [exact E1|]. split; [exact E2|]. split; [reflexivity|]. split; [reflexivity|].
  split; [|split]; intros C; apply (f_equal (fun o : option (pt tiny) => match o with Some x => to_Z x | None => 0%Z end)) in C; vm_compute in C; discriminate.
Qed.
