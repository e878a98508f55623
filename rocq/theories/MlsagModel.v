(** Model of mlsag/mlsag.go, proof.go, dualkey.go, privatekeys.go, pubkeys.go and responses.go.

    Vectors are lists here; the sharing of key vectors between the caller, the proof object and
    the signature is the subject of MlsagHeap.v.  Points are group elements: the zero value of
    ristretto.Point, which is not one, is not considered in this file.
    Randomness: [rs] is the stream of scalars returned by successive Scalar.Rand calls and [js]
    the stream behind math/rand (whose seed is the current time). *)
From Coq Require Import String ZArith List Arith.
From Verif Require Import GoModel ReadModel Fld Rist PedersenModel InnerProductModel.
Import ListNotations.
Local Open Scope string_scope.
Local Open Scope list_scope.

(** r.Intn(i + 1) for the t-th draw: some number in 0..i *)
Definition intn (js : nat -> nat) (t i : nat) : nat := js t mod (i + 1).

(** (i - 1) % numUsers, made non-negative (mlsag.go:217-220, 274-277, 289-292); Go's % truncates *)
Definition prev_index (i numUsers : nat) : nat :=
  let p := Z.rem (Z.of_nat i - 1) (Z.of_nat numUsers) in
  Z.to_nat (if Z.ltb p 0 then p + Z.of_nat numUsers else p)%Z.

(** for k := k0; k != stop; k = (k + 1) % n { body(k) }.  [fuel] bounds the number of iterations;
    RingFacts shows that the loops below leave through the condition. *)
Fixpoint ring_loop {S} (fuel k stop n : nat) (body : nat -> S -> res S) (st : S) : res S :=
  match fuel with
  | O => Panic
  | Datatypes.S f =>
    if Nat.eqb k stop then Ok st
    else let! st := body k st in ring_loop f ((k + 1) mod n) stop n body st
  end.

Section Mlsag.
Context (R : rist).

(** pubkeys.go:11-16 *)
Record pubkeys := mkPK { pk_decoy : bool; pk_keys : list (pt R) }.
(** proof.go:11-29 *)
Record mproof := mkMP { mp_index : nat; mp_priv : list F; mp_signer : pubkeys; mp_matrix : list pubkeys; mp_msg : bytes }.
(** mlsag.go:13-18 *)
Record sig := mkSig { sg_c : F; sg_r : list (list F); sg_pub : list pubkeys; sg_msg : bytes }.

(** pubkeys.go:18-32 *)
Definition pk_Equals (p other : pubkeys) : res bool :=
  if negb (Nat.eqb (length (pk_keys p)) (length (pk_keys other))) then Ok false
  else for_loop 0 (length (pk_keys p)) (fun i ok =>
    if negb ok then Ok ok
    else let! a := idx (pk_keys p) i in let! b := idx (pk_keys other) i in Ok (peqb R a b)) true.
(** pubkeys.go:65-67, 69-71, 73-75 *)
Definition AddPubKey (p : pubkeys) (key : pt R) : pubkeys := mkPK (pk_decoy p) (pk_keys p ++ [key]).
Definition pk_Len (p : pubkeys) : nat := length (pk_keys p).
Definition OutputKey (p : pubkeys) : res (pt R) := idx (pk_keys p) 0.
(** pubkeys.go:34-42 *)
Definition pk_Encode (p : pubkeys) : writer -> res unit * writer := w_each w_write (map (pbytes R) (pk_keys p)).
(** pubkeys.go:44-64; the keys are appended to those of the receiver.  The partly
    filled receivers left behind by failing Decodes are the subject of RecvModel.v. *)
Definition pk_Decode (p : pubkeys) (numKeys : Z) : rprog (res pubkeys) :=
  r_for 0 (Z.to_nat numKeys) (fun _ p =>
    let? x := r_bytes 32 in
    match pset R x with
    | Some x => rret (AddPubKey p x)
    | None => rerr "point not encodable"
    end) p.

(** responses.go:13-26 *)
Definition rsp_Equals (a other : list F) : res bool :=
  if negb (Nat.eqb (length a) (length other)) then Ok false
  else for_loop 0 (length a) (fun i ok =>
    if negb ok then Ok ok
    else let! x := idx a i in let! y := idx other i in Ok (feqb x y)) true.
(** responses.go:35-44 *)
Definition rsp_Encode (a : list F) : writer -> res unit * writer := w_each w_write (map (sbytes R) a).
(** responses.go:46-62 *)
Definition rsp_Decode (a : list F) (numResponses : Z) : rprog (res (list F)) :=
  r_for 0 (Z.to_nat numResponses) (fun _ a => let? x := r_bytes 32 in rret (a ++ [sset R x])) a.

(** ** proof.go *)
(** proof.go:64-68 *)
Definition privKeyToPubKey (x : F) : pt R := smul R x (pbase R).
(** proof.go:31-34 *)
Definition addPubKeys (p : mproof) (keys : pubkeys) : mproof :=
  mkMP (mp_index p) (mp_priv p) (mp_signer p) (mp_matrix p ++ [keys]) (mp_msg p).
(** proof.go:36-39; keys is passed by value, so the caller's flag does not change *)
Definition AddDecoy (p : mproof) (keys : pubkeys) : mproof := addPubKeys p (mkPK true (pk_keys keys)).
(** proof.go:41-45 *)
Definition AddDecoys (p : mproof) (keys : list pubkeys) : mproof := fold_left AddDecoy keys p.
(** proof.go:47-51 *)
Definition addSignerPubKey (p : mproof) : mproof :=
  let s := mkPK false (pk_keys (mp_signer p)) in
  addPubKeys (mkMP (mp_index p) (mp_priv p) s (mp_matrix p) (mp_msg p)) s.
(** proof.go:53-62 *)
Definition AddSecret (p : mproof) (x : F) : mproof :=
  mkMP (mp_index p) (mp_priv p ++ [x]) (AddPubKey (mp_signer p) (privKeyToPubKey x)) (mp_matrix p) (mp_msg p).
(** dualkey.go:33-35 *)
Definition SetMsg (p : mproof) (m : bytes) : mproof := mkMP (mp_index p) (mp_priv p) (mp_signer p) (mp_matrix p) m.
(** proof.go:93-95 *)
Definition LenMembers (p : mproof) : nat := length (mp_matrix p).

(** proof.go:72-76: i runs from len-1 down to 1 *)
Definition shuffle (js : nat -> nat) (m : list pubkeys) : res (list pubkeys) :=
  for_loop 0 (length m - 1) (fun t m =>
    let i := (length m - 1 - t)%nat in
    let j := intn js t i in
    let! a := idx m j in
    let! b := idx m i in
    let! m := set_idx m i a in
    set_idx m j b) m.
(** proof.go:80-90 *)
Fixpoint find_signer (m : list pubkeys) (i : nat) : option nat :=
  match m with
  | [] => None
  | k :: m => if negb (pk_decoy k) then Some i else find_signer m (i + 1)
  end.
(** proof.go:71-91 *)
Definition shuffleSet (js : nat -> nat) (p : mproof) : res unit * mproof :=
  match shuffle js (mp_matrix p) with
  | Ok m =>
    match find_signer m 0 with
    | Some i => (Ok tt, mkMP i (mp_priv p) (mp_signer p) m (mp_msg p))
    | None => (Err "could not find the index of the non-decoy vector of pubkeys",
               mkMP (mp_index p) (mp_priv p) (mp_signer p) m (mp_msg p))
    end
  | Err e => (Err e, p)
  | Panic => (Panic, p)
  end.

(** ** mlsag.go *)
(** mlsag.go:308-316: nonces are the next n scalars *)
Definition generateNonces (rs : nat -> F) (n : nat) : list F := map rs (seq 0 n).
(** mlsag.go:322-338: one row of n fresh scalars per user, except an empty one for the signer;
    [t] is the number of scalars drawn so far *)
Definition generateResponses (rs : nat -> F) (m n skip : nat) : list (list F) :=
  fst (fold_left (fun '(rows, t) i =>
    if Nat.eqb i skip then (rows ++ [[]], t)
    else (rows ++ [map (fun k => rs (t + k)%nat) (seq 0 n)], (t + n)%nat)) (seq 0 m) ([], 0%nat)).

(** mlsag.go:340-389; writing to a bytes.Buffer does not fail *)
Definition generateChallenge (msg : bytes) (responses : list F) (keyImages : list (pt R)) (pubKeys : pubkeys) (prev : F) : res F :=
  let! buf := for_loop 0 (pk_Len pubKeys) (fun i buf =>
    let! r := idx responses i in
    let! K := idx (pk_keys pubKeys) i in
    let P := padd R (smul R r (pbase R)) (smul R prev K) in
    Ok (buf ++ pbytes R P)) msg in
  let! buf := for_loop 0 (length keyImages) (fun i buf =>
    let! r := idx responses i in
    let! K := idx (pk_keys pubKeys) i in
    let hK := pderive R (pbytes R K) in
    let! KI := idx keyImages i in
    let P := padd R (smul R r hK) (smul R prev KI) in
    Ok (buf ++ pbytes R P)) buf in
  Ok (sderive R buf).

(** mlsag.go:411-419 *)
Definition CalculateKeyImage (privKey : F) (pubKey : pt R) : pt R := smul R privKey (pderive R (pbytes R pubKey)).
(** mlsag.go:391-409; with no keys the slice expression [:len-1] panics *)
Definition calculateKeyImages (p : mproof) (skipLast : bool) : res (list (pt R)) :=
  let! keyImages := for_loop 0 (length (mp_priv p)) (fun i acc =>
    let! x := idx (mp_priv p) i in
    let! K := idx (pk_keys (mp_signer p)) i in
    Ok (acc ++ [CalculateKeyImage x K])) [] in
  if negb skipLast then Ok keyImages
  else match keyImages with [] => Panic | _ => Ok (firstn (length keyImages - 1) keyImages) end.

(** mlsag.go:152-258 after the shuffle *)
Definition prove_shuffled (p : mproof) (skipLast : bool) (rs : nat -> F) : res (sig * list (pt R)) :=
  let len := length (mp_priv p) in
  if negb (forallb (fun k => Nat.eqb (pk_Len k) len) (mp_matrix p))
  then Err "all vectors in the pubkey matrix must be the same size"
  else
    let! keyImages := calculateKeyImages p skipLast in
    let nonces := generateNonces rs len in
    let numUsers := length (mp_matrix p) in
    let responses := generateResponses (fun i => rs (len + i)%nat) numUsers len (mp_index p) in
    let s := mp_index p in
    let! signersPubKeys := idx (mp_matrix p) s in
    let! buf := for_loop 0 (length nonces) (fun i buf =>
      let! nonce := idx nonces i in Ok (buf ++ pbytes R (smul R nonce (pbase R)))) (mp_msg p) in
    let! buf := for_loop 0 (length keyImages) (fun i buf =>
      let! nonce := idx nonces i in
      let! K := idx (pk_keys signersPubKeys) i in
      Ok (buf ++ pbytes R (smul R nonce (pderive R (pbytes R K))))) buf in
    let c1 := sderive R buf in
    let! challenges := set_idx (repeat f0 numUsers) ((s + 1) mod numUsers) c1 in
    let! (challenges, _) := ring_loop (numUsers + 2) (s + 2) ((s + 1) mod numUsers) numUsers (fun k '(challenges, prev) =>
      let i := (k mod numUsers)%nat in
      let prevIndex := prev_index i numUsers in
      let! fakeResponses := idx responses prevIndex in
      let! decoyPubKeys := idx (mp_matrix p) prevIndex in
      let! c := generateChallenge (mp_msg p) fakeResponses keyImages decoyPubKeys prev in
      let! challenges := set_idx challenges i c in
      Ok (challenges, c)) (challenges, c1) in
    let! realResponse := for_loop 0 len (fun i acc =>
      let! challenge := idx challenges s in
      let! x := idx (mp_priv p) i in
      let! nonce := idx nonces i in
      Ok (acc ++ [fadd (fneg (fmul challenge x)) nonce])) [] in
    let! responses := set_idx responses s realResponse in
    let! c0 := idx challenges 0 in
    Ok (mkSig c0 responses (mp_matrix p) (mp_msg p), keyImages).

(** mlsag.go:142-259: the result and the proof object afterwards *)
Definition prove (p : mproof) (skipLast : bool) (js : nat -> nat) (rs : nat -> F) : res (sig * list (pt R)) * mproof :=
  match shuffleSet js (addSignerPubKey p) with
  | (Ok _, p) => (prove_shuffled p skipLast rs, p)
  | (Err e, p) => (Err e, p)
  | (Panic, p) => (Panic, p)
  end.

(** mlsag.go:261-306 *)
Definition sig_Verify (s : sig) (keyImages : list (pt R)) : res bool :=
  if orb (orb (Nat.eqb (length (sg_pub s)) 0) (Nat.eqb (length (sg_r s)) 0)) (Nat.eqb (length keyImages) 0)
  then Err "cannot have zero length for responses, pubkeys or key images"
  else
    let numUsers := length (sg_r s) in
    let step := fun i prev =>
      let prevIndex := prev_index i numUsers in
      let! fakeResponses := idx (sg_r s) prevIndex in
      let! decoyPubKeys := idx (sg_pub s) prevIndex in
      generateChallenge (sg_msg s) fakeResponses keyImages decoyPubKeys prev in
    let! prev := ring_loop (numUsers + 2) 1 (0 mod numUsers) numUsers (fun k prev => step (k mod numUsers)%nat prev) (sg_c s) in
    let! challenge := step 0%nat prev in
    if negb (feqb challenge (sg_c s)) then Err "c'0 does not equal c0" else Ok true.

(** mlsag.go:20-65 *)
Definition sig_Encode (s : sig) (encodeKeys : bool) : writer -> res unit * writer :=
  w_seq (w_write (sbytes R (sg_c s)))
  (w_seq (w_write (put_u32 (u32 (Z.of_nat (length (sg_r s))))))
   (if Z.leb (u32 (Z.of_nat (length (sg_r s)))) 0 then w_ret
    else match sg_r s with
         | [] => fun w => (Panic, w)
         | r0 :: _ =>
           w_seq (w_write (put_u32 (u32 (Z.of_nat (length r0)))))
           (w_seq (w_each rsp_Encode (sg_r s))
            (if negb encodeKeys then w_ret else w_each pk_Encode (sg_pub s)))
         end)).

(** mlsag.go:67-110; the message of the receiver is kept *)
Definition sig_Decode (s : sig) (decodeKeys : bool) : rprog (res sig) :=
  let? x := r_bytes 32 in
  let c := sset R x in
  let? lenR := r_u32 in
  let? numResponses := r_u32 in
  RAlloc lenR (
  let? r := r_for 0 (Z.to_nat lenR) (fun _ rows => let? a := rsp_Decode [] numResponses in rret (rows ++ [a])) [] in
  if negb decodeKeys then rret (mkSig c r (sg_pub s) (sg_msg s))
  else
    RAlloc lenR (
    let? ks := r_for 0 (Z.to_nat lenR) (fun _ rows => let? a := pk_Decode (mkPK false []) numResponses in rret (rows ++ [a])) [] in
    rret (mkSig c r ks (sg_msg s)))).

(** mlsag.go:112-140 *)
Definition sig_Equals (s other : sig) (includeKeys : bool) : res bool :=
  if negb (feqb (sg_c s) (sg_c other)) then Ok false
  else
    let! ok := for_loop 0 (length (sg_r s)) (fun i ok =>
      if negb ok then Ok ok
      else let! a := idx (sg_r s) i in let! b := idx (sg_r other) i in rsp_Equals a b) true in
    if negb ok then Ok false
    else if negb includeKeys then Ok true
    else if negb (Nat.eqb (length (sg_pub s)) (length (sg_pub other))) then Ok false
    else for_loop 0 (length (sg_pub s)) (fun i ok =>
      if negb ok then Ok ok
      else let! a := idx (sg_pub s) i in let! b := idx (sg_pub other) i in pk_Equals a b) true.

(** ** dualkey.go *)
(** dualkey.go:11-14; dualkeys is a slice of length two *)
Record dualkey := mkDK { dk_proof : mproof; dk_keys : list F }.
(** dualkey.go:16-21 *)
Definition NewDualKey : dualkey := mkDK (mkMP 0 [] (mkPK false []) [] []) [f0; f0].
(** dualkey.go:23-31 *)
Definition SetPrimaryKey (d : dualkey) (x : F) : res (dualkey * pt R) :=
  let! ks := set_idx (dk_keys d) 0 x in Ok (mkDK (dk_proof d) ks, privKeyToPubKey x).
Definition SetCommToZero (d : dualkey) (x : F) : res (dualkey * pt R) :=
  let! ks := set_idx (dk_keys d) 1 x in Ok (mkDK (dk_proof d) ks, privKeyToPubKey x).
(** dualkey.go:39-44, on the matrix only (see MlsagHeap.v) *)
Definition SubCommToZero (d : dualkey) (p : pt R) : res dualkey :=
  let m0 := mp_matrix (dk_proof d) in
  let! m := for_loop 0 (length m0) (fun i m =>
    let! row := idx m i in
    let! k := idx (pk_keys row) 1 in
    let! ks := set_idx (pk_keys row) 1 (psub R k p) in
    set_idx m i (mkPK (pk_decoy row) ks)) m0 in
  let q := dk_proof d in
  Ok (mkDK (mkMP (mp_index q) (mp_priv q) (mp_signer q) m (mp_msg q)) (dk_keys d)).
(** dualkey.go:46-63 *)
Definition dk_Prove (d : dualkey) (js : nat -> nat) (rs : nat -> F) : res (sig * pt R) * dualkey :=
  match dk_keys d with
  | k0 :: k1 :: _ =>
    if orb (feqb k0 f0) (feqb k1 f0) then (Err "primary key or commitment to zero cannot be zero", d)
    else
      let p := AddSecret (AddSecret (dk_proof d) k0) k1 in
      let (r, p) := prove p true js rs in
      let d := mkDK p (dk_keys d) in
      (match r with
       | Ok (s, [KI]) => Ok (s, KI)
       | Ok _ => Err "dual key mlsag must only contain one key image"
       | Err e => Err e
       | Panic => Panic
       end, d)
  | _ => (Panic, d)
  end.
End Mlsag.
