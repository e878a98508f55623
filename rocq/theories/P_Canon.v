(** Property C105 *)
From Coq Require Import String ZArith List Lia Bool Arith.
From Coq Require Import Init.Byte.
From Verif Require Import GoModel GoFacts ReadModel ReadFacts Prime Fld Rist RistFacts RistInst PedersenModel InnerProductModel RangeProofModel
  SpecMlsag MlsagModel MlsagSessions MlsagFacts MlsagProps SpecDecode DecodeFacts SpecCanon CanonFacts.
Import ListNotations.
Local Open Scope nat_scope.

(** ** C105.  Encodings are not unique. *)
(** Decoding a scalar never fails, and there are more strings of 32 bytes than scalars. *)
Theorem C105_scalars R : exists b b', length b = 32 /\ length b' = 32 /\ b <> b' /\ sset R b = sset R b'.
Proof. exact (same_scalar (sset R)). Qed.
Print Assumptions C105_scalars.
Theorem C105_not_canonical R : exists b, length b = 32 /\ sbytes R (sset R b) <> b.
Proof.
  destruct (same_scalar (sset R)) as (b & b' & L & L' & N & E). destruct (list_eq_dec Byte.byte_eq_dec (sbytes R (sset R b)) b) as [C|C].
  - exists b'. split; [exact L'|]. congruence.
  - exists b. split; [exact L|exact C].
Qed.
Print Assumptions C105_not_canonical.
(** Every signer with decoys can therefore make a valid signature with two encodings of the same length. *)
Theorem C105_mlsag R (OK : rist_ok R) bops ops p skipLast js : session bops ops = Ok p ->
  mp_priv R p <> [] -> mp_matrix R p <> [] -> Forall (fun row => length (pk_keys R row) = length (mp_priv R p)) (mp_matrix R p) ->
  (Z.of_nat (length (mp_matrix R p)) + 1 < 2 ^ 32)%Z -> (Z.of_nat (length (mp_priv R p)) < 2 ^ 32)%Z ->
  exists rs sg J p' e e', prove R p skipLast js rs = (Ok (sg, J), p') /\
    let s := mkSig R (sg_c R sg) (sg_r R sg) (map (fun k => mkPK R false (pk_keys R k)) (sg_pub R sg)) (sg_msg R sg) in
    (J <> [] -> sig_Verify R s J = Ok true) /\
    e <> e' /\ length e = length e' /\
    forall old r, sg_msg R old = mp_msg R p -> fault_free r -> rbytes r = e \/ rbytes r = e' ->
      fst (exec (sig_Decode R old true) r) = Ok s /\ rbytes (snd (exec (sig_Decode R old true) r)) = [].
Proof.
  intros HS HP HM HR B1 B2. pose proof (session_inv bops ops p HS) as I0. destruct (same_scalar (sset R)) as (b & b' & L & L' & N & E).
  destruct (prove_const p skipLast js (sset R b) I0 HR HM HP) as (sg & J & p' & l1 & row & l2 & EP & Er & Fr & Fk & N1 & N2).
  assert (EM : sg_msg R sg = mp_msg R p).
  { destruct (prove_regular OK p skipLast js (fun _ => sset R b) I0 HR HM) as (sg' & E' & _ & M & _); [|rewrite EP in E'; cbn [fst] in E'; congruence].
    destruct (mp_priv R p); [congruence|]. apply andb_false_r. }
  exists (fun _ => sset R b), sg, J, p', (sig_pre sg (length (mp_priv R p)) l1 ++ b ++ sig_post sg row l2), (sig_pre sg (length (mp_priv R p)) l1 ++ b' ++ sig_post sg row l2).
  split; [exact EP|]. change (let s := flagless sg in (J <> [] -> sig_Verify R s J = Ok true) /\ sig_pre sg (length (mp_priv R p)) l1 ++ b ++ sig_post sg row l2 <> sig_pre sg (length (mp_priv R p)) l1 ++ b' ++ sig_post sg row l2 /\ length (sig_pre sg (length (mp_priv R p)) l1 ++ b ++ sig_post sg row l2) = length (sig_pre sg (length (mp_priv R p)) l1 ++ b' ++ sig_post sg row l2) /\
    forall old r, sg_msg R old = mp_msg R p -> fault_free r -> rbytes r = sig_pre sg (length (mp_priv R p)) l1 ++ b ++ sig_post sg row l2 \/ rbytes r = sig_pre sg (length (mp_priv R p)) l1 ++ b' ++ sig_post sg row l2 ->
      fst (exec (sig_Decode R old true) r) = Ok s /\ rbytes (snd (exec (sig_Decode R old true) r)) = []). cbv zeta. split; [intros NJ; rewrite flagless_verify; exact (prove_verifies OK p skipLast js _ sg J p' I0 EP NJ)|].
  split; [intros X; apply N; apply app_inv_head in X; exact (app_inv_tail _ _ _ X)|]. split; [rewrite !app_length; lia|].
  intros old r EO F. assert (G : forall x, length x = 32 -> sset R x = sset R b -> is_signature R old true (sig_pre sg (length (mp_priv R p)) l1 ++ x ++ sig_post sg row l2) (flagless sg)).
  { intros x Lx Ex. apply (sig_written OK sg (length (mp_priv R p)) l1 (sset R b) row l2 x old); auto; try lia; congruence. }
  intros [B|B]; refine (sig_exec old true r _ _ _ F B); apply G; congruence.
Qed.
Print Assumptions C105_mlsag.
(** If SetBytes reduces the little-endian number modulo the group order, whatever decodes has another encoding. *)
Definition reduces (R : rist) : Prop := forall b, length b = 32 -> sset R b = of_Z (le_value b).
Theorem C105_mlsag_every R (RED : reduces R) old keys r s : fault_free r -> fst (exec (sig_Decode R old keys) r) = Ok s ->
  exists e rest e', rbytes r = e ++ rest /\ e' <> e /\ length e' = length e /\
    forall r', fault_free r' -> rbytes r' = e' -> fst (exec (sig_Decode R old keys) r') = Ok s.
Proof.
  intros F E. destruct (parses_sig R old keys r F) as [(v & q & e & X & F' & B & Ev)|((err & X) & _)]; rewrite X in E; [|discriminate]. cbn [fst] in E. injection E as ->.
  destruct (sig_another RED old keys e s Ev) as (e' & N & L & H). exists e, (rbytes q), e'. split; [exact B|]. split; [exact N|]. split; [exact L|].
  intros r' Fr Br. exact (proj1 (sig_exec old keys r' s e' H Fr Br)).
Qed.
Print Assumptions C105_mlsag_every.
Theorem C105_range_every R (RED : reduces R) old commits r p : fault_free r -> (Z.of_nat (length (rbytes r)) < 2 ^ 38)%Z ->
  fst (exec (pf_Decode R old commits) r) = Ok p ->
  exists e', e' <> rbytes r /\ length e' = length (rbytes r) /\ forall r', fault_free r' -> rbytes r' = e' -> fst (exec (pf_Decode R old commits) r') = Ok p.
Proof.
  intros F B E. destruct (consumes_pf R old commits r F B) as [(v & X & Ev & _)|((err & X) & _)]; rewrite X in E; [|discriminate]. cbn [fst] in E. injection E as ->.
  destruct (pf_another RED old commits _ p Ev) as (e' & N & L & H). exists e'. split; [exact N|]. split; [exact L|].
  intros r' Fr Br. destruct (consumes_pf R old commits r' Fr) as [(w & X' & _ & U)|(_ & M)]; [rewrite Br, L; exact B|rewrite X'; cbn [fst]; f_equal; symmetry; apply U; rewrite Br; exact H|].
  exfalso. apply (M p). rewrite Br. exact H.
Qed.
Print Assumptions C105_range_every.
Theorem C105_inner_product_every R (RED : reduces R) old r p : fault_free r -> (Z.of_nat (length (rbytes r)) < 2 ^ 38)%Z ->
  fst (exec (ipp_Decode R old) r) = (p, Ok tt) ->
  exists e', e' <> rbytes r /\ length e' = length (rbytes r) /\ forall r', fault_free r' -> rbytes r' = e' -> fst (exec (ipp_Decode R old) r') = (p, Ok tt).
Proof.
  intros F B E. destruct (ipp_cases R old r F B) as [(v & X & Ev & _)|((q & err & X) & _)]; rewrite X in E; [|discriminate]. cbn [fst] in E. injection E as ->.
  destruct (ipp_another RED _ p Ev) as (e' & N & L & H). exists e'. split; [exact N|]. split; [exact L|].
  intros r' Fr Br. destruct (ipp_cases R old r' Fr) as [(w & X' & _ & U)|(_ & _ & M)]; [rewrite Br, L; exact B|rewrite X'; cbn [fst]; f_equal; symmetry; apply U; rewrite Br; exact H|].
  exfalso. apply (M p). rewrite Br. exact H.
Qed.
Print Assumptions C105_inner_product_every.
Example C105_ex_reduces : reduces toy.
Proof. intros b _. exact (f_equal of_Z (eq_sym (le_value_le b))). Qed.
Example C105_ex : let b := le_bytes 32 (ell + 5) in length b = 32 /\ to_Z (sset toy b) = 5%Z /\ bytes_eqb (sbytes toy (sset toy b)) b = false.
Proof. vm_compute. repeat split. Qed.
Example C105_ex_session : match session (R := tiny) [BOp (mkPK tiny true [of_Z 7]); BSecret (of_Z 3)] [] with
  | Ok p => (length (mp_priv tiny p), map (fun row => length (pk_keys tiny row)) (mp_matrix tiny p)) = (1, [1]) | _ => False end.
Proof. reflexivity. Qed.
