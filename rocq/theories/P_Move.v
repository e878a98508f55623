(** C115: signatures can be moved to other keys in the columns without key image *)
From Coq Require Import String ZArith List Lia Bool Arith.
From Coq Require Import Init.Byte.
From Verif Require Import GoModel GoFacts Fld Rist RistFacts RistInst SpecVector SpecMlsag SpecFork SpecRing SpecMove MlsagModel MlsagFacts MlsagProps ForkFacts RingMore MoveFacts.
Import ListNotations.
Local Open Scope nat_scope.

(** ** Whoever sees an accepted signature adds any known multiples of the base point to the keys that have no
    key image and adapts the responses; challenge, message and key images stay. *)
Theorem C115_moved R (OK : rist_ok R) msg c r pub J dss rows' pub' :
  sig_Verify R (mkSig R c r pub msg) J = Ok true -> 2 <= length r ->
  Forall2 (fun row ds => length ds <= length (fst row) - length J) (combine (map (pk_keys R) pub) r) dss ->
  rows' = moved_rows R msg J (combine (map (pk_keys R) pub) r) dss c -> map (pk_keys R) pub' = map fst rows' ->
  sig_Verify R (mkSig R c (map snd rows') pub' msg) J = Ok true.
Proof. exact (moved_verify OK msg c r pub J dss rows' pub'). Qed.
Print Assumptions C115_moved.

(** ** In a dual key signature: the subtracted commitment D is replaced by D - d G in all rows, which is a
    commitment to the same value with another blinding factor. *)
Theorem C115_commitment R (OK : rist_ok R) msg c r pub im outs D d :
  sig_Verify R (mkSig R c r pub msg) [im] = Ok true -> 2 <= length r -> length pub = length r -> map (pk_keys R) pub = map (spend_row R D) outs ->
  let rows' := moved_rows R msg [im] (combine (map (pk_keys R) pub) r) (map (fun _ => [d]) outs) c in
  let D' := psub R D (smul R d (pbase R)) in
  sig_Verify R (mkSig R c (map snd rows') (map (fun o => mkPK R false (spend_row R D' o)) outs) msg) [im] = Ok true.
Proof.
  intros E L2 LP EK rows' D'. apply (moved_verify OK msg c r pub [im] (map (fun _ => [d]) outs) rows' _ E L2); [|reflexivity|].
  - rewrite EK. assert (LO : length outs = length r) by (apply (f_equal (@length _)) in EK; rewrite !map_length in EK; lia). clear - LO.
    revert r LO. induction outs as [|o outs IH]; intros [|x r] L; try discriminate; [constructor|]. cbn [map combine]. constructor; [unfold fits; cbn; lia|]. apply IH. cbn in L. lia.
  - unfold rows'. rewrite EK. rewrite map_map. cbn [pk_keys].
    assert (LO : length outs = length r) by (apply (f_equal (@length _)) in EK; rewrite !map_length in EK; lia). clear - OK LO. revert r c LO.
    induction outs as [|o outs IH]; intros [|x r] c L; try discriminate; [reflexivity|]. cbn [map combine moved_rows fst snd]. f_equal.
    + unfold spend_row, moved_keys, D'. cbn. f_equal. f_equal. lin OK.
    + apply IH. cbn in L. lia.
Qed.
Print Assumptions C115_commitment.
Theorem C115_same_value R (OK : rist_ok R) v b d : psub R (com R v b) (smul R d (pbase R)) = com R v (fsub b d).
Proof. unfold com. lin OK. Qed.
Print Assumptions C115_same_value.

(** ** Nothing else can be changed without changing a hashed string: signatures for two rings with the same
    message and challenge that hash the same strings have keys that differ by multiples of the base point,
    known from the responses, and key images that differ accordingly. *)
Theorem C115_only R (OK : rist_ok R) ring ring' m h f f' : accepted R ring m h f -> accepted R ring' m h f' ->
  fg_msg R f = fg_msg R f' -> fg_c R f = fg_c R f' -> hashed R ring h f = hashed R ring' h f' ->
  entering R ring h f = entering R ring' h f' /\
  forall i K r K' r' c, nth_error (passed R ring f) i = Some (K, r) -> nth_error (passed R ring' f') i = Some (K', r') -> nth_error (entering R ring h f) i = Some c ->
    length K = length K' /\
    forall j k k' a a', nth_error K j = Some k -> nth_error K' j = Some k' -> nth_error r j = Some a -> nth_error r' j = Some a' -> c <> f0 ->
      k' = padd R k (smul R (fmul (fsub a a') (finv c)) (pbase R)) /\
      forall im im', nth_error (fg_images R f) j = Some im -> nth_error (fg_images R f') j = Some im' ->
        im' = padd R im (smul R (finv c) (psub R (smul R a (pderive R (pbytes R k))) (smul R a' (pderive R (pbytes R k'))))).
Proof.
  intros A1 A2 EM EC EH.
  assert (CE : entering R ring h f = entering R ring' h f') by (unfold entering; unfold hashed in EH; rewrite EC in *; apply chals_same; exact EH).
  split; [exact CE|]. intros i K r K' r' c P1 P2 C1. pose proof C1 as C2. rewrite CE in C2.
  apply accepted_facts in A1. apply accepted_facts in A2. destruct A1 as (_ & _ & L1 & W1 & _), A2 as (_ & _ & L2 & W2 & _).
  destruct (W1 _ _ P1) as [O1 _]. destruct (W2 _ _ P2) as [O2 _]. unfold row_ok in O1, O2. cbn [fst snd] in O1, O2.
  pose proof (inputs_nth h (fg_msg R f) (fg_images R f) _ _ _ _ _ P1 C1) as I1. pose proof (inputs_nth h (fg_msg R f') (fg_images R f') _ _ _ _ _ P2 C2) as I2.
  unfold hashed in EH. rewrite EH, I2 in I1. injection I1 as I1. unfold input in I1. rewrite EM in I1. apply app_inv_head in I1. apply (points_eq OK) in I1. cbn [fst snd] in I1.
  destruct (same_points_at (fg_images R f) (fg_images R f') K K' r r' c ltac:(lia) O1 O2 (eq_sym I1)) as [LK H]. split; [exact LK|].
  intros j k k' a a' EK EK' ER ER' N. destruct (H j k k' a a' EK EK' ER ER') as [H1 H2]. split.
  - rewrite (moved_back OK c _ _ _ _ N H1). linf OK.
  - intros im im' EI EI'. exact (moved_back OK c _ _ _ _ N (H2 im im' EI EI')).
Qed.
Print Assumptions C115_only.

(** outputs (2, 5) and (5, 10), D = 4: the rows [2; 1] and [5; 6] become [2; 4] and [5; 9] for D = 4 - 3 *)
Definition mx_outs : list (pt tiny * pt tiny) := [(of_Z 2, of_Z 5); (of_Z 5, of_Z 10)].
Definition mx_pub : list (pubkeys tiny) := map (fun o => mkPK tiny false (spend_row tiny (of_Z 4) o)) mx_outs.
Definition mx_r : list (list F) := [[of_Z 1; of_Z 3]; [of_Z 8; of_Z 9]].
Example C115_ex : let J := map (key_image tiny) [of_Z 2] in
  let rows' := moved_rows tiny [] J (combine (map (pk_keys tiny) mx_pub) mx_r) [[of_Z 3]; [of_Z 3]] f1 in
  sig_Verify tiny (mkSig tiny f1 mx_r mx_pub []) J = Ok true /\
  map (fun row => (map to_Z (fst row), map to_Z (snd row))) rows' = [([2; 4], [1; 0]); ([5; 9], [8; 6])]%Z /\
  sig_Verify tiny (mkSig tiny f1 (map snd rows') (map (fun o => mkPK tiny false (spend_row tiny (of_Z 1) o)) mx_outs) []) J = Ok true.
Proof. cbv zeta. split; [vm_compute; reflexivity|]. split; vm_compute; reflexivity. Qed.
Example C115_ex_only : let J := map (key_image tiny) [of_Z 2] in
  let ring := map (pk_keys tiny) mx_pub in let ring' := [[of_Z 2; of_Z 4]; [of_Z 5; of_Z 9]] : list (list (pt tiny)) in
  let f := mkForgery tiny [] f1 mx_r J in let f' := mkForgery tiny [] f1 [[of_Z 1; of_Z 0]; [of_Z 8; of_Z 6]] J in
  accepted tiny ring 1 (fun _ => f1) f /\ accepted tiny ring' 1 (fun _ => f1) f' /\ hashed tiny ring (fun _ => f1) f = hashed tiny ring' (fun _ => f1) f' /\ map to_Z (entering tiny ring (fun _ => f1) f) = [1; 1]%Z.
Proof.
  cbv zeta. split; [|split; [|split]].
  - apply accepted_intro; [discriminate|lia|reflexivity|reflexivity|repeat constructor|reflexivity].
  - apply accepted_intro; [discriminate|lia|reflexivity|reflexivity|repeat constructor|reflexivity].
  - vm_compute. reflexivity.
  - vm_compute. reflexivity.
Qed.
