(** Specification of well-behaved decoders and encoders over readers and writers that may fail *)
From Coq Require Import String ZArith List.
From Verif Require Import GoModel ReadModel.
Import ListNotations.

(** the bytes delivered by a reader that never fails are all that matters: result, remaining bytes
    and allocations are the same *)
Definition chunking_free {X} (p : rprog X) : Prop :=
  forall r1 r2, (forall e, ~ In (RFault e) r1) -> (forall e, ~ In (RFault e) r2) ->
    concat (map (fun x => match x with RChunk b => b | RFault _ => [] end) r1) =
    concat (map (fun x => match x with RChunk b => b | RFault _ => [] end) r2) ->
  fst (exec p r1) = fst (exec p r2) /\ allocs p r1 = allocs p r2 /\
  concat (map (fun x => match x with RChunk b => b | RFault _ => [] end) (snd (exec p r1))) =
  concat (map (fun x => match x with RChunk b => b | RFault _ => [] end) (snd (exec p r2))).

(** on a reader that delivers the chunks r0 and then fails: an error, or what is decoded from r0 *)
Definition fault_reported {A} (p : rprog (res A)) : Prop :=
  forall r0 e r1, (forall e', ~ In (RFault e') r0) ->
    (exists err, fst (exec p (r0 ++ RFault e :: r1)) = Err err) \/
    (exists a, fst (exec p (r0 ++ RFault e :: r1)) = Ok a /\ fst (exec p r0) = Ok a).

(** [enc] run on any writer w, compared to the complete encoding written to a writer that never fails:
    what is written is a prefix of the complete encoding; an error is returned exactly when one of
    the writes failed; otherwise everything was written *)
Definition writes_prefix (enc : writer -> res unit * writer) : Prop :=
  forall w, let (r, w') := enc w in let (rc, wc) := enc w_fresh in
  exists written rest used, w_out w' = w_out w ++ written /\ w_out wc = written ++ rest /\ w_plan w = used ++ w_plan w' /\
    (rc = Ok tt \/ rc = Panic) /\
    ((exists k, In (Some k) used) /\ (exists e, r = Err e) \/ (forall k, ~ In (Some k) used) /\ r = rc /\ rest = []).
