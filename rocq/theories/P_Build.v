(** Property C120 *)
From Coq Require Import String ZArith List Lia Bool Arith Permutation.
From Coq Require Import Init.Byte.
From Verif Require Import GoModel GoFacts Fld Rist RistFacts RistInst SpecVector SpecMlsag MlsagModel SpecBuild BuildFacts.
Import ListNotations.
Local Open Scope nat_scope.

(** ** C120.  A Proof holds what was added, in the order in which it was added; every member counts as a decoy, whatever its flag was *)
Theorem C120_built R (l : list (add R)) :
  mp_matrix R (built l) = map (mkPK R true) (members l) /\ mp_priv R (built l) = given l /\
  mp_signer R (built l) = mkPK R false (map (fun x => smul R x (pbase R)) (given l)) /\ mp_msg R (built l) = last (messages l) [] /\
  LenMembers R (built l) = length (members l).
Proof. unfold LenMembers. rewrite built_is. cbn [mp_matrix mp_priv mp_signer mp_msg]. rewrite map_length. repeat split. Qed.
Print Assumptions C120_built.
(** so the order matters only among calls of the same kind, and one AddDecoys is as good as several AddDecoy *)
Theorem C120_same R (l l' : list (add R)) : members l = members l' -> given l = given l' -> last (messages l) [] = last (messages l') [] -> built l = built l'.
Proof. intros E1 E2 E3. rewrite !built_is, E1, E2, E3. reflexivity. Qed.
Print Assumptions C120_same.
(** What Prove gives, in terms of the calls alone *)
Theorem C120_prove R (OK : rist_ok R) (l : list (add R)) skipLast js rs : given l <> [] ->
  (members l = [] -> fst (prove R (built l) skipLast js rs) = Panic) /\
  (Exists (fun ks => length ks <> length (given l)) (members l) ->
     fst (prove R (built l) skipLast js rs) = Err "all vectors in the pubkey matrix must be the same size"%string) /\
  (members l <> [] -> Forall (fun ks => length ks = length (given l)) (members l) ->
   let J := if skipLast then removelast (map (key_image R) (given l)) else map (key_image R) (given l) in
   exists sg, fst (prove R (built l) skipLast js rs) = Ok (sg, J) /\ sg_msg R sg = last (messages l) [] /\
     Permutation (members l ++ [map (fun x => smul R x (pbase R)) (given l)]) (map (pk_keys R) (sg_pub R sg)) /\
     length (sg_r R sg) = length (members l) + 1 /\ (J <> [] -> sig_Verify R sg J = Ok true)).
Proof. exact (built_prove OK l skipLast js rs). Qed.
Print Assumptions C120_prove.
(** three members, two of them in one call and one of them marked as no decoy; two secrets; the second message counts *)
Definition ex_row (f : bool) a b : pubkeys tiny := mkPK tiny f [of_Z a : pt tiny; of_Z b].
Definition ex_adds : list (add tiny) := [AMsg [x01]; ADecoys [ex_row true 5 6; ex_row false 7 8]; ASecret (of_Z 3); AMsg [x02]; ADecoy (ex_row true 9 10); ASecret (of_Z 4)].
Example C120_ex : (length (members ex_adds), length (given ex_adds), last (messages ex_adds) []) = (3, 2, [x02]) /\
  Forall (fun ks => length ks = length (given ex_adds)) (members ex_adds) /\
  match fst (prove tiny (built ex_adds) true (fun i => i) (fun i => of_Z (Z.of_nat i + 5))) with
  | Ok (sg, J) => (length J, length (sg_pub tiny sg), sg_msg tiny sg, sig_Verify tiny sg J) = (1, 4, [x02], Ok true) | _ => False end.
Proof. split; [reflexivity|]. split; [repeat constructor|]. vm_compute. reflexivity. Qed.
