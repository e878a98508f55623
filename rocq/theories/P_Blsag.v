(** Properties C51-C53, C69, C70 *)
From Coq Require Import String ZArith List Lia Bool Arith.
From Coq Require Import Init.Byte.
From Verif Require Import GoModel GoFacts Fld Rist RistFacts RistInst BlsagModel SpecBlsag BlsagFacts.
Import ListNotations.
Local Open Scope nat_scope.

(** ** Example values: the zero value is a separate value that swallows everything *)
Definition opt_raw (R : rist) : raw R :=
  mkRaw R (option (pt R)) Some None (fun p q => match p, q with Some a, Some b => Some (padd R a b) | _, _ => None end)
    (fun s p => match p with Some a => Some (smul R s a) | None => if feqb s f0 then Some (pt0 R) else None end)
    (fun p => match p with Some a => pbytes R a | None => repeat x00 32 end).
Lemma opt_raw_ok R : raw_ok R (opt_raw R).
Proof. constructor; try reflexivity. discriminate. Qed.
Definition ex_rs (i : nat) : F := of_Z (Z.of_nat i + 5).
Definition ex_mixin : list (rp tiny (opt_raw tiny)) := [Some (of_Z 8 : pt tiny); Some (of_Z 9 : pt tiny)].
Definition ex_ssig := Sign tiny (opt_raw tiny) [x01] ex_mixin (of_Z 3) 4 ex_rs.

(** ** C51.  Sign always returns, and the signature verifies. *)
Theorem C51_sign_verifies R (OK : rist_ok R) V (VOK : raw_ok R V) m mixin sK j0 rs :
  exists sg, Sign R V m mixin sK j0 rs = Ok sg /\ Verify R V m sg = Ok true.
Proof. exact (Sign_verifies OK VOK m mixin sK j0 rs). Qed.
Print Assumptions C51_sign_verifies.
Example C51_ex : match ex_ssig with Ok sg => (length (rs_S _ _ sg), length (rs_pub _ _ sg), Verify tiny (opt_raw tiny) [x01] sg) = (3, 3, Ok true) | _ => False end.
Proof. vm_compute. reflexivity. Qed.
(** with a hash that does depend on its argument, and not for another message *)
Example C51_ex_toy : match Sign toy (opt_raw toy) [x01] [Some (of_Z 8 : pt toy)] (of_Z 3) 0 ex_rs with
  | Ok sg => (Verify toy (opt_raw toy) [x01] sg, Verify toy (opt_raw toy) [x02] sg) = (Ok true, Ok false) | _ => False end.
Proof. vm_compute. reflexivity. Qed.

(** ** C52.  The mixin keys are dropped and the signer is visible. *)
Theorem C52_content R V m mixin sK j0 rs sg : Sign R V m mixin sK j0 rs = Ok sg ->
  let n := length mixin + 1 in let j := j0 mod n in let pK := smul R sK (pbase R) in
  rs_I R V sg = emb R V (smul R sK (pderive R (pbytes R pK))) /\
  length (rs_pub R V sg) = n /\ length (rs_S R V sg) = n /\
  (forall i, i < n -> nth_error (rs_pub R V sg) i = Some (if Nat.eqb i j then emb R V pK else rzero R V)) /\
  (forall i, i < n -> i <> j -> nth_error (rs_S R V sg) i = Some (if Nat.eqb i 0 then f0 else rs i)).
Proof. exact (Sign_parts m mixin sK j0 rs sg). Qed.
Print Assumptions C52_content.
(** the signer's response hides the key behind the first scalar *)
Theorem C52_signer_response R V m mixin sK j0 rs sg : Sign R V m mixin sK j0 rs = Ok sg ->
  let j := j0 mod (length mixin + 1) in
  let c := bl_chain R V m (rs_I R V sg) (firstn j (combine (rs_pub R V sg) (rs_S R V sg))) (rs_C R V sg) in
  nth_error (rs_S R V sg) j = Some (fsub (rs 0) (fmul c sK)).
Proof. exact (Sign_response m mixin sK j0 rs sg). Qed.
Print Assumptions C52_signer_response.
Theorem C52_mixin_ignored R V m mixin mixin' sK j0 rs : length mixin = length mixin' -> Sign R V m mixin sK j0 rs = Sign R V m mixin' sK j0 rs.
Proof. exact (Sign_mixin m mixin mixin' sK j0 rs). Qed.
Print Assumptions C52_mixin_ignored.
Theorem C52_signer_visible R V (VOK : raw_ok R V) m mixin sK j0 rs sg : Sign R V m mixin sK j0 rs = Ok sg ->
  forall i, i <= length mixin -> (nth_error (rs_pub R V sg) i <> Some (rzero R V) <-> i = j0 mod (length mixin + 1)).
Proof. exact (Sign_signer VOK m mixin sK j0 rs sg). Qed.
Print Assumptions C52_signer_visible.
(** The ring of a signature contains the mixin keys: false for every mixin with a group element that is not the signer's key. *)
Theorem C52_ring_contains_mixin_refuted :
  ~ (forall R V m mixin sK j0 rs sg, raw_ok R V -> Sign R V m mixin sK j0 rs = Ok sg -> incl mixin (rs_pub R V sg)).
Proof.
  intros H. destruct ex_ssig as [sg|e|] eqn:E; [|unfold ex_ssig in E; rewrite Sign_ok in E; discriminate|unfold ex_ssig in E; rewrite Sign_ok in E; discriminate].
  pose proof (H _ _ _ _ _ _ _ _ (opt_raw_ok tiny) E (Some (of_Z 8 : pt tiny)) ltac:(left; reflexivity)) as X.
  apply In_nth_error in X. destruct X as [i X]. destruct (Sign_parts _ _ _ _ _ _ E) as [_ [L [_ [P _]]]].
  assert (Hi : i < length ex_mixin + 1) by (rewrite <- L; apply nth_error_Some; rewrite X; discriminate).
  rewrite P in X by exact Hi. destruct (Nat.eqb i _); [|discriminate].
  apply (f_equal (fun o : option (option (pt tiny)) => match o with Some (Some x) => to_Z x | _ => 0%Z end)) in X. vm_compute in X. discriminate.
Qed.
Print Assumptions C52_ring_contains_mixin_refuted.
Example C52_ex : match ex_ssig with
  | Ok sg => (map (fun p => match p with None => true | _ => false end) (rs_pub _ _ sg), map to_Z (firstn 1 (rs_S _ _ sg))) = ([true; false; true], [0%Z]) | _ => False end.
Proof. vm_compute. reflexivity. Qed.

(** ** C53.  Verification. *)
Theorem C53_verify_chain R V m (sg : rsig R V) : rs_pub R V sg <> [] -> length (rs_pub R V sg) <= length (rs_S R V sg) ->
  exists b, Verify R V m sg = Ok b /\
    (b = true <-> bl_chain R V m (rs_I R V sg) (combine (rs_pub R V sg) (rs_S R V sg)) (rs_C R V sg) = rs_C R V sg).
Proof.
  intros N L. eexists. split; [apply Verify_ok; [|exact L]|apply feqb_eq]. destruct (rs_pub R V sg); [contradiction|cbn; lia].
Qed.
Print Assumptions C53_verify_chain.
Theorem C53_verify_panics R V m (sg : rsig R V) : Verify R V m sg = Panic <-> rs_pub R V sg = [] \/ length (rs_S R V sg) < length (rs_pub R V sg).
Proof.
  split.
  - intros E. destruct (Nat.lt_ge_cases (length (rs_S R V sg)) (length (rs_pub R V sg))) as [C|C]; [right; exact C|].
    left. destruct (rs_pub R V sg) eqn:EP; [reflexivity|]. rewrite Verify_ok in E; rewrite ?EP in *; cbn in *; try lia. discriminate.
  - intros [E|E]; [|apply Verify_short; exact E]. apply Verify_empty. rewrite E. reflexivity.
Qed.
Print Assumptions C53_verify_panics.
Definition ex_short : rsig tiny (opt_raw tiny) := mkRS tiny (opt_raw tiny) None f1 [] [None].
Example C53_ex : match Verify tiny (opt_raw tiny) [] ex_short with Panic => True | _ => False end.
Proof. vm_compute. exact I. Qed.
(** one response more than keys: the surplus is ignored *)
Example C53_ex_surplus : (length [None : rp tiny (opt_raw tiny)] <= length [f1; f1]) /\
  Verify tiny (opt_raw tiny) [] (mkRS tiny (opt_raw tiny) None f1 [f1; f1] [None]) = Ok true /\
  Verify tiny (opt_raw tiny) [] (mkRS tiny (opt_raw tiny) None f0 [f1; f1] [None]) = Ok false.
Proof. vm_compute. repeat split. repeat constructor. Qed.

(** ** C69.  Forgery from zero values: anybody can sign for a ring with a zero-value key. *)
Theorem C69_forgery R V (AB : forall p, radd R V p (rzero R V) = rzero R V) (AM : forall s, s <> f0 -> rsmul R V s (rzero R V) = rzero R V)
  m rows1 s rows2 :
  let h0 := sderive R (m ++ rbytes R V (rzero R V) ++ rbytes R V (rzero R V)) in
  let rows := rows1 ++ (rzero R V, s) :: rows2 in
  bl_chain R V m (rzero R V) (rows2 ++ rows1) h0 <> f0 ->
  Verify R V m (mkRS R V (rzero R V) (bl_chain R V m (rzero R V) rows2 h0) (map snd rows) (map fst rows)) = Ok true.
Proof. exact (forge AB AM m rows1 s rows2). Qed.
Print Assumptions C69_forgery.
Lemma opt_absorbs R : (forall p, radd R (opt_raw R) p (rzero R (opt_raw R)) = rzero R (opt_raw R)) /\
  (forall s, s <> f0 -> rsmul R (opt_raw R) s (rzero R (opt_raw R)) = rzero R (opt_raw R)).
Proof.
  split.
  - intros [a|]; reflexivity.
  - intros s N. cbn. destruct (feqb s f0) eqn:E; [|reflexivity]. apply feqb_eq in E. contradiction.
Qed.
Example C69_ex : Verify toy (opt_raw toy) [x07] (mkRS toy (opt_raw toy) None (bl_chain toy (opt_raw toy) [x07] None [(Some (of_Z 4 : pt toy), of_Z 2)] (toy_hash ([x07] ++ repeat x00 32 ++ repeat x00 32)))
  [of_Z 1; of_Z 2] [None; Some (of_Z 4 : pt toy)]) = Ok true.
Proof.
  apply (C69_forgery toy (opt_raw toy) (proj1 (opt_absorbs toy)) (proj2 (opt_absorbs toy)) [x07] [] (of_Z 1) [(Some (of_Z 4 : pt toy), of_Z 2)]).
  intros X. apply feqb_eq in X. vm_compute in X. discriminate.
Qed.

(** ** C70.  Two answers to one commitment give the key and fix the key image. *)
Theorem C70_extract R (OK : rist_ok R) V (VOK : raw_ok R V) I P s s' c c' : c <> c' ->
  radd R V (emb R V (smul R s (pbase R))) (rsmul R V c (emb R V P)) = radd R V (emb R V (smul R s' (pbase R))) (rsmul R V c' (emb R V P)) ->
  radd R V (rsmul R V s (emb R V (pderive R (pbytes R P)))) (rsmul R V c (emb R V I)) =
    radd R V (rsmul R V s' (emb R V (pderive R (pbytes R P)))) (rsmul R V c' (emb R V I)) ->
  let x := fmul (fsub s s') (finv (fsub c' c)) in P = smul R x (pbase R) /\ I = smul R x (pderive R (pbytes R P)).
Proof. pose proof (bl_extract OK VOK I P s s' c c') as X. unfold Lof, Rof in X. rewrite (rbytes_emb R V VOK P) in X. exact X. Qed.
Print Assumptions C70_extract.
(** P = 2 B, answers 5 - 2 c *)
Example C70_ex : let V := opt_raw tiny in let P : pt tiny := of_Z 2 in let I := P in f0 <> f1 /\
  radd tiny V (emb tiny V (smul tiny (of_Z 5) (pbase tiny))) (rsmul tiny V f0 (emb tiny V P)) = radd tiny V (emb tiny V (smul tiny (of_Z 3) (pbase tiny))) (rsmul tiny V f1 (emb tiny V P)) /\
  radd tiny V (rsmul tiny V (of_Z 5) (emb tiny V (pderive tiny (pbytes tiny P)))) (rsmul tiny V f0 (emb tiny V I)) =
    radd tiny V (rsmul tiny V (of_Z 3) (emb tiny V (pderive tiny (pbytes tiny P)))) (rsmul tiny V f1 (emb tiny V I)).
Proof.
  cbv zeta. split; [intros X; apply f1_neq_f0; symmetry; exact X|]. unfold opt_raw, tiny, fin_rist.
  cbn [radd rsmul emb padd smul pbase pderive]. split; f_equal; apply feqb_eq; vm_compute; reflexivity.
Qed.
