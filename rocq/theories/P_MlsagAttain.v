(** Property C76 *)
From Coq Require Import String ZArith List Lia Bool Arith Permutation.
From Coq Require Import Init.Byte.
From Verif Require Import GoModel GoFacts ReadModel ReadFacts Fld Rist RistFacts RistInst SpecVector VectorFacts SpecMlsag
  MlsagModel MlsagSessions MlsagFacts MlsagProve MlsagProps MlsagAttain P_Mlsag.
Import ListNotations.
Local Open Scope nat_scope.

(** ** C76.  Where the random scalars go: the first ones are the nonces of the signer, one per key; the
    following ones are the responses of the other members in the order of the shuffled ring. *)
Theorem C76_scalars R (OK : rist_ok R) bops ops p skipLast js rs sg J q :
  session bops ops = Ok p -> mp_matrix R p <> [] -> prove R p skipLast js rs = (Ok (sg, J), q) ->
  let len := length (mp_priv R p) in let s := mp_index R q in
  let rows := combine (map (pk_keys R) (sg_pub R sg)) (sg_r R sg) in
  let c := ring_chain R (sg_msg R sg) J (firstn s rows) (sg_c R sg) in
  s < length (sg_r R sg) /\
  nth_error (sg_r R sg) s = Some (zipw (fun a x => fsub a (fmul c x)) (map rs (seq 0 len)) (mp_priv R p)) /\
  forall i, i < length (sg_r R sg) -> i <> s ->
    nth_error (sg_r R sg) i = Some (map rs (seq (len * (1 + if i <? s then i else i - 1)) len)).
Proof. intros HS. exact (prove_responses p skipLast js rs sg J q (session_inv bops ops p HS)). Qed.
Print Assumptions C76_scalars.

(** The outcomes of Prove are precisely the valid signatures with its message, its ring in some order and
    the key images of its private keys: apart from the key images, a signature does not depend on which
    member signed. *)
Theorem C76_outcomes R (OK : rist_ok R) bops ops p (skipLast : bool) sg J :
  session (R := R) bops ops = Ok p -> mp_matrix R p <> [] ->
  Forall (fun row => length (pk_keys R row) = length (mp_priv R p)) (mp_matrix R p) ->
  J = (if skipLast then removelast (map (key_image R) (mp_priv R p)) else map (key_image R) (mp_priv R p)) -> J <> [] ->
  (exists js rs, fst (prove R p skipLast js rs) = Ok (sg, J)) <->
  sg_msg R sg = mp_msg R p /\
  Permutation (mp_matrix R p ++ [mkPK R false (map (fun x => smul R x (pbase R)) (mp_priv R p))]) (sg_pub R sg) /\
  length (sg_r R sg) = length (sg_pub R sg) /\ Forall (fun r => length r = length (mp_priv R p)) (sg_r R sg) /\
  sig_Verify R sg J = Ok true.
Proof.
  intros HS HM HR EJ NJ. pose proof (session_inv bops ops p HS) as I0. split.
  - intros (js & rs & E). destruct (prove R p skipLast js rs) as [x q] eqn:Ep. cbn [fst] in E. subst x.
    destruct (prove_content OK p skipLast js rs sg J q I0 Ep NJ) as (A1 & A2 & A3).
    split; [exact A1|]. split; [exact A2|]. split; [exact A3|]. split; [|exact (prove_verifies OK p skipLast js rs sg J q I0 Ep NJ)].
    destruct (prove_responses p skipLast js rs sg J q I0 HM Ep) as (B1 & B2 & B3).
    apply Forall_forall. intros r Hr. apply In_nth_error in Hr. destruct Hr as [i Hi].
    assert (Li : i < length (sg_r R sg)) by (apply nth_error_Some; congruence).
    destruct (Nat.eq_dec i (mp_index R q)) as [->|N].
    + rewrite B2 in Hi. injection Hi as <-. rewrite zipw_length; rewrite map_length, seq_length; reflexivity.
    + rewrite (B3 i Li N) in Hi. injection Hi as <-. rewrite map_length, seq_length. reflexivity.
  - intros (A1 & A2 & A3 & A4 & A5). apply (prove_attains OK p skipLast sg J I0 HR EJ NJ A1 A2); [|exact A3|exact A4|exact A5].
    rewrite A3, <- (Permutation_length A2), app_length. cbn [length]. destruct (mp_matrix R p); [congruence|cbn [length]; lia].
Qed.
Print Assumptions C76_outcomes.
(** the session of C40: two keys, one decoy *)
Example C76_ex : (length (mp_matrix tiny ex_p), map (fun row => length (pk_keys tiny row)) (mp_matrix tiny ex_p), length (mp_priv tiny ex_p)) = (1, [2], 2) /\
  match prove tiny ex_p true ex_js ex_rs with
  | (Ok (sg, J), q) => (length J, mp_index tiny q, option_map (map to_Z) (nth_error (sg_r tiny sg) (1 - mp_index tiny q))) =
    (1, mp_index tiny q, Some [7; 8]%Z)
  | _ => False end.
Proof. vm_compute. split; reflexivity. Qed.
