(** Property C104 *)
From Coq Require Import String ZArith List Lia Bool Arith.
From Coq Require Import Init.Byte.
From Verif Require Import GoModel Fld Rist RistFacts RistInst SpecMlsag MlsagModel MlsagSessions MlsagFacts MlsagProps SpecPlace PlaceFacts.
Import ListNotations.
Local Open Scope nat_scope.

(** ** C104.  The draws of the shuffle alone say which row of the ring is the signer's. *)
Theorem C104_row R bops ops p skipLast js rs sg J p' :
  session bops ops = Ok p -> prove R p skipLast js rs = (Ok (sg, J), p') ->
  let n := length (sg_pub R sg) in
  n = length (mp_matrix R p) + 1 /\
  nth_error (sg_pub R sg) (place n (drawn n js)) = Some (mkPK R false (map (fun x => smul R x (pbase R)) (mp_priv R p))).
Proof.
  intros HS E. destruct (prove_place p skipLast js rs sg J p' E) as [L Q]. split; [exact L|]. rewrite Q. f_equal. f_equal. exact (proj1 (session_inv bops ops p HS)).
Qed.
Print Assumptions C104_row.
(** the same for a DualKey on its first Prove *)
Theorem C104_dualkey R ops d k0 k1 js rs sg KI d' :
  run_all run_dop ops (NewDualKey R) = Ok d -> Forall setup ops -> dk_keys R d = [k0; k1] -> dk_Prove R d js rs = (Ok (sg, KI), d') ->
  let n := length (sg_pub R sg) in
  n = LenMembers R (dk_proof R d) + 1 /\
  nth_error (sg_pub R sg) (place n (drawn n js)) = Some (mkPK R false [smul R k0 (pbase R); smul R k1 (pbase R)]).
Proof.
  intros E HS EK EP. destruct (dk_place d k0 k1 [] js rs sg KI d' EK EP) as [L Q]. split; [exact L|]. rewrite Q.
  destruct (dk_fresh_run ops _ d dk_fresh_new dk_shape_new HS E) as (_ & F2 & _). rewrite F2. reflexivity.
Qed.
Print Assumptions C104_dualkey.
(** The draws come from a generator seeded with the second of signing.  Whatever that generator is, whoever
    holds a signature made in one of the given seconds finds the signer's row among one row per second. *)
Theorem C104_suspects R (rng : nat -> nat -> nat -> nat) seconds now ops d k0 k1 rs sg KI d' :
  run_all run_dop ops (NewDualKey R) = Ok d -> Forall setup ops -> dk_keys R d = [k0; k1] ->
  dk_Prove R d (rng now (LenMembers R (dk_proof R d) + 1)) rs = (Ok (sg, KI), d') -> In now seconds ->
  length (suspects rng seconds (sg_pub R sg)) = length seconds /\
  In (Some (mkPK R false [smul R k0 (pbase R); smul R k1 (pbase R)])) (suspects rng seconds (sg_pub R sg)).
Proof.
  intros E HS EK EP HI. destruct (C104_dualkey R ops d k0 k1 _ rs sg KI d' E HS EK EP) as [L Q]. rewrite <- L in Q.
  unfold suspects. split; [apply map_length|]. apply in_map_iff. exists now. split; [exact Q|exact HI].
Qed.
Print Assumptions C104_suspects.
(** In particular two signers who sign in the same second with rings of the same size are at the same row. *)
Theorem C104_same_second R bops ops p skipLast js rs sg J p' bops2 ops2 p2 skipLast2 rs2 sg2 J2 p2' :
  session bops ops = Ok p -> prove R p skipLast js rs = (Ok (sg, J), p') ->
  session bops2 ops2 = Ok p2 -> prove R p2 skipLast2 js rs2 = (Ok (sg2, J2), p2') ->
  length (sg_pub R sg) = length (sg_pub R sg2) ->
  exists i, nth_error (sg_pub R sg) i = Some (mkPK R false (map (fun x => smul R x (pbase R)) (mp_priv R p))) /\
            nth_error (sg_pub R sg2) i = Some (mkPK R false (map (fun x => smul R x (pbase R)) (mp_priv R p2))).
Proof.
  intros S1 E1 S2 E2 L. destruct (C104_row R bops ops p skipLast js rs sg J p' S1 E1) as [_ Q1].
  destruct (C104_row R bops2 ops2 p2 skipLast2 js rs2 sg2 J2 p2' S2 E2) as [_ Q2]. cbv zeta in *. rewrite <- L in Q2. eauto.
Qed.
Print Assumptions C104_same_second.
(** a ring of three: the draws 0,1 and 1,0 put the signer first, 2,0 last and 1,1 in the middle *)
Example C104_ex : (place 3 (drawn 3 (fun t => nth t [0; 1] 0)), place 3 (drawn 3 (fun t => nth t [2; 0] 0)),
                   place 3 (drawn 3 (fun t => nth t [1; 0] 0)), place 3 (drawn 3 (fun t => nth t [1; 1] 0))) = (0, 2, 0, 1).
Proof. reflexivity. Qed.
Example C104_ex_sign :
  match run_all run_dop [DDecoy (mkPK tiny true [of_Z 7; of_Z 9]); DPrimary (of_Z 3); DComm (of_Z 4)] (NewDualKey tiny) with
  | Ok d => match fst (dk_Prove tiny d (fun _ => 0) (fun i => of_Z (Z.of_nat i + 5))) with
            | Ok (sg, _) => match nth_error (sg_pub tiny sg) (place 2 (drawn 2 (fun _ => 0))) with
                            | Some row => (pk_decoy tiny row, length (sg_pub tiny sg)) = (false, 2) | None => False end
            | _ => False end
  | _ => False end.
Proof. vm_compute. reflexivity. Qed.
