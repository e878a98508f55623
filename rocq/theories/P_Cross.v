(** C111: the two ring signature packages accept each other's signatures *)
From Coq Require Import String ZArith List Lia Bool Arith.
From Coq Require Import Init.Byte.
From Verif Require Import GoModel Fld Rist RistInst SpecMlsag MlsagModel MlsagSessions MlsagFacts MlsagProve MlsagProps BlsagModel MlsagRaw SpecCross CrossFacts P_Blsag.
Import ListNotations.
Local Open Scope nat_scope.

(** ** For two or more ring members bLSAG's Verify and MLSAG's Verify are the same check, whatever the
    keys (zero values of ristretto.Point included), responses, challenge, key image and message. *)
Theorem C111_same_check R V (VOK : raw_ok R V) sub neg eqb m (sg : rsig R V) :
  2 <= length (rs_pub R V sg) -> length (rs_pub R V sg) <= length (rs_S R V sg) ->
  let L := raw_lib R V sub neg eqb in
  sig_Verify L (as_mlsag L (fun P => P) m sg) [rs_I R V sg] = Ok true <-> Verify R V m sg = Ok true.
Proof. exact (cross_iff VOK sub neg eqb m sg). Qed.
Print Assumptions C111_same_check.
(** ** With a single member, what bLSAG accepts MLSAG accepts as well ... *)
Theorem C111_accepted R V (VOK : raw_ok R V) sub neg eqb m (sg : rsig R V) : Verify R V m sg = Ok true ->
  let L := raw_lib R V sub neg eqb in
  sig_Verify L (as_mlsag L (fun P => P) m sg) [rs_I R V sg] = Ok true.
Proof. exact (cross_one VOK sub neg eqb m sg). Qed.
Print Assumptions C111_accepted.
(** ** ... but not the other way around: MLSAG goes around such a ring twice. *)
Definition flip : rist := fin_rist (fun b => if bytes_eqb b (f_bytes f0 ++ f_bytes f0) then f1 else f0).
Definition ex_flip : rsig flip (opt_raw flip) := mkRS flip (opt_raw flip) (Some (f0 : pt flip)) f0 [f0] [Some (f1 : pt flip)].
Theorem C111_single_refuted : ~ forall R (OK : rist_ok R) V (VOK : raw_ok R V) sub neg eqb m (sg : rsig R V), length (rs_pub R V sg) = 1 -> length (rs_S R V sg) = 1 ->
  let L := raw_lib R V sub neg eqb in
  sig_Verify L (as_mlsag L (fun P => P) m sg) [rs_I R V sg] = Ok true -> Verify R V m sg = Ok true.
Proof.
  intros H. assert (E : Verify flip (opt_raw flip) [] ex_flip = Ok false) by (vm_compute; reflexivity).
  specialize (H flip (fin_rist_ok _) (opt_raw flip) (opt_raw_ok flip) (fun p _ => p) (fun p => p) (fun _ _ => false) [] ex_flip eq_refl eq_refl).
  cbv zeta in H. rewrite E in H. assert (X : Ok false = Ok true); [|discriminate X]. apply H. vm_compute. reflexivity.
Qed.
Print Assumptions C111_single_refuted.
(** ** What bLSAG's Sign returns is accepted by MLSAG's Verify, and its key image is MLSAG's key image of
    the private key. *)
Theorem C111_signed R (OK : rist_ok R) V (VOK : raw_ok R V) sub neg eqb m mixin x j0 rs sg : Sign R V m mixin x j0 rs = Ok sg ->
  let L := raw_lib R V sub neg eqb in
  rs_I R V sg = emb R V (key_image R x) /\ sig_Verify L (as_mlsag L (fun P => P) m sg) [rs_I R V sg] = Ok true.
Proof. exact (sign_cross VOK sub neg eqb OK m mixin x j0 rs sg). Qed.
Print Assumptions C111_signed.
(** ** What MLSAG's Prove returns in any session with one private key and one key image is accepted by
    bLSAG's Verify for the same message. *)
Theorem C111_proved R (OK : rist_ok R) V (VOK : raw_ok R V) bops ops p x js rs sg J p' :
  session bops ops = Ok p -> mp_priv R p = [x] -> prove R p false js rs = (Ok (sg, J), p') ->
  J = [key_image R x] /\ Verify R V (mp_msg R p) (as_blsag V sg (key_image R x)) = Ok true.
Proof. exact (one_key_sessions VOK OK bops ops p x js rs sg J p'). Qed.
Print Assumptions C111_proved.
(** ** So is every accepted MLSAG signature with one key in each of two or more rows. *)
Theorem C111_one_key R V (VOK : raw_ok R V) s I : length (sg_pub R s) = length (sg_r R s) -> 2 <= length (sg_pub R s) ->
  Forall (fun k => length (pk_keys R k) = 1) (sg_pub R s) ->
  sig_Verify R s [I] = Ok true -> Verify R V (sg_msg R s) (as_blsag V s I) = Ok true.
Proof. exact (back VOK s I). Qed.
Print Assumptions C111_one_key.
(** ** The uses of one private key in both packages are linked. *)
Theorem C111_linked R V bops ops p skipLast js rs sg J p' i x I m mixin j0 rs' bsg :
  session bops ops = Ok p -> prove R p skipLast js rs = (Ok (sg, J), p') -> nth_error (mp_priv R p) i = Some x -> nth_error J i = Some I ->
  Sign R V m mixin x j0 rs' = Ok bsg -> rs_I R V bsg = emb R V I.
Proof.
  intros A1 A2 A3 A4 B. rewrite (image_at p skipLast js rs sg J p' i x I (session_inv bops ops p A1) A2 A3 A4).
  exact (proj1 (C52_content R V m mixin x j0 rs' bsg B)).
Qed.
Print Assumptions C111_linked.

Definition ex_p1 : mproof toy := match session [BOp (mkPK toy true [of_Z 7]); BMsg [x05]; BSecret (of_Z 3)] [] with Ok p => p | _ => mp_new end.
Example C111_ex : match fst (prove toy ex_p1 false (fun i => i) ex_rs) with
  | Ok (sg, [J]) => (Verify toy (opt_raw toy) [x05] (as_blsag (opt_raw toy) sg J), Verify toy (opt_raw toy) [x06] (as_blsag (opt_raw toy) sg J)) = (Ok true, Ok false)
  | _ => False end.
Proof. vm_compute. reflexivity. Qed.
Example C111_ex_sign : let L := raw_lib toy (opt_raw toy) (fun p _ => p) (fun p => p) (fun _ _ => false) in
  match Sign toy (opt_raw toy) [x05] [None; None] (of_Z 3) 4 ex_rs with
  | Ok sg => (sig_Verify L (as_mlsag L (fun P => P) [x05] sg) [rs_I _ _ sg], match sig_Verify L (as_mlsag L (fun P => P) [x06] sg) [rs_I _ _ sg] with Err _ => true | _ => false end) = (Ok true, true)
  | _ => False end.
Proof. vm_compute. reflexivity. Qed.
