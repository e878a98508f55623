(** Specification for forgers of multilayered ring signatures: programs that ask for hash values *)
From Coq Require Import String ZArith List Arith.
From Coq Require Import Init.Byte.
From Verif Require Import GoModel Fld Rist SpecVector SpecMlsag SpecRewind MlsagModel.
Import ListNotations.

(** programs that ask for hash values and finally give a result *)
Inductive oracle (A : Type) : Type := Give (a : A) | Ask (q : bytes) (k : F -> oracle A).
Arguments Give {A}. Arguments Ask {A}.
(** the result, and the strings asked for in order, when h answers *)
Fixpoint answer {A} (h : bytes -> F) (o : oracle A) : A :=
  match o with Give a => a | Ask q k => answer h (k (h q)) end.
Fixpoint asked {A} (h : bytes -> F) (o : oracle A) : list bytes :=
  match o with Give _ => [] | Ask q k => q :: asked h (k (h q)) end.

(** position of the first q in l *)
Fixpoint first_of (l : list bytes) (q : bytes) : nat :=
  match l with [] => 0 | x :: l => if list_eq_dec Byte.byte_eq_dec x q then 0 else S (first_of l q) end.

Section Spec.
Context (R : rist).

(** what a forger gives for a ring fixed in advance *)
Record forgery := mkForgery { fg_msg : bytes; fg_c : F; fg_r : list (list F); fg_images : list (pt R) }.

(** the string hashed for one row (keys, responses) that is entered with challenge c *)
Definition input (msg : bytes) (J : list (pt R)) (row : list (pt R) * list F) (c : F) : bytes :=
  msg ++ concat (map (pbytes R) (row_points R J (fst row) (snd row) c)).
(** the strings hashed along the rows, the challenges with which the rows are entered and the last hash value *)
Fixpoint inputs (h : bytes -> F) (msg : bytes) (J : list (pt R)) (rows : list (list (pt R) * list F)) (c : F) : list bytes :=
  match rows with [] => [] | row :: rows => input msg J row c :: inputs h msg J rows (h (input msg J row c)) end.
Fixpoint chals (h : bytes -> F) (msg : bytes) (J : list (pt R)) (rows : list (list (pt R) * list F)) (c : F) : list F :=
  match rows with [] => [] | row :: rows => c :: chals h msg J rows (h (input msg J row c)) end.
Fixpoint closing (h : bytes -> F) (msg : bytes) (J : list (pt R)) (rows : list (list (pt R) * list F)) (c : F) : F :=
  match rows with [] => c | row :: rows => closing h msg J rows (h (input msg J row c)) end.

(** the rows that are passed: a single row is passed twice *)
Definition passed (ring : list (list (pt R))) (f : forgery) : list (list (pt R) * list F) :=
  match combine ring (fg_r f) with [row] => [row; row] | l => l end.
Definition hashed (ring : list (list (pt R))) (h : bytes -> F) (f : forgery) : list bytes :=
  inputs h (fg_msg f) (fg_images f) (passed ring f) (fg_c f).
Definition entering (ring : list (list (pt R))) (h : bytes -> F) (f : forgery) : list F :=
  chals h (fg_msg f) (fg_images f) (passed ring f) (fg_c f).

(** all strings that are hashed when the forger runs and its result is verified *)
Definition queries (ring : list (list (pt R))) (h : bytes -> F) (A : oracle forgery) : list bytes :=
  asked h A ++ hashed ring h (answer h A).
(** for each row, when its string was hashed for the first time *)
Definition places (ring : list (list (pt R))) (h : bytes -> F) (A : oracle forgery) : list nat :=
  map (first_of (queries ring h A)) (hashed ring h (answer h A)).

(** Verify accepts when h derives the challenges; one row of responses for each row of the ring, m key images *)
Definition accepted (ring : list (list (pt R))) (m : nat) (h : bytes -> F) (f : forgery) : Prop :=
  let R' := with_hash R h in
  sig_Verify R' (mkSig R' (fg_c f) (fg_r f) (map (mkPK R' true) ring) (fg_msg f)) (fg_images f) = Ok true /\
  length (fg_r f) = length ring /\ length (fg_images f) = m.

(** the private keys computed from the responses a, b to the challenges c, d *)
Definition secret (a b c d : F) : F := fmul (fsub a b) (finv (fsub d c)).
(** two rows with the same keys, entered with c and c', give the private keys of all keys *)
Definition keys_found (row row' : list (pt R) * list F) (c c' : F) : Prop :=
  fst row = fst row' /\ c <> c' /\ length (fst row) <= length (snd row) /\ length (fst row) <= length (snd row') /\
  forall j k a b, nth_error (fst row) j = Some k -> nth_error (snd row) j = Some a -> nth_error (snd row') j = Some b ->
    k = smul R (secret a b c c') (pbase R).
(** and the key images are those of these private keys *)
Definition images_found (J : list (pt R)) (row row' : list (pt R) * list F) (c c' : F) : Prop :=
  length J <= length (fst row) /\
  forall j im a b, nth_error J j = Some im -> nth_error (snd row) j = Some a -> nth_error (snd row') j = Some b ->
    im = key_image R (secret a b c c').

(** public keys and key images of private keys; responses to c with nonces a *)
Definition keys_of (xs : list F) : list (pt R) := map (fun x => smul R x (pbase R)) xs.
Definition respond (c : F) (ns xs : list F) : list F := zipw (fun a x => fsub a (fmul c x)) ns xs.

(** *** Key images chosen last.  The string hashed for nonces ns and arbitrary points Ts, and the images that fit *)
Definition copy_input (msg : bytes) (ns : list F) (Ts : list (pt R)) : bytes :=
  msg ++ concat (map (pbytes R) (keys_of ns ++ Ts)).
Definition copy_images (c : F) (ns xs : list F) (Ts : list (pt R)) : list (pt R) :=
  zipw (fun T rk => smul R (finv c) (psub R T (smul R (fst rk) (pderive R (pbytes R (snd rk)))))) Ts
    (combine (respond c ns xs) (keys_of xs)).

(** *** Keys chosen last.  Keys xs with nonces ns and key images; arbitrary points Ts in the columns without key image *)
Definition late_input (msg : bytes) (ns xs : list F) (Ts : list (pt R)) : bytes :=
  msg ++ concat (map (pbytes R) (keys_of ns ++ Ts ++ zipw (fun a x => smul R a (pderive R (pbytes R (smul R x (pbase R))))) ns xs)).
Definition late_keys (c : F) (ss : list F) (Ts : list (pt R)) : list (pt R) :=
  zipw (fun s T => smul R (finv c) (psub R T (smul R s (pbase R)))) ss Ts.

(** a signer with private keys xs in front of the rows (keys, responses) of decoys *)
Fixpoint pass_rows {A} (msg : bytes) (J : list (pt R)) (rows : list (list (pt R) * list F)) (c : F) (k : F -> oracle A) : oracle A :=
  match rows with [] => k c | row :: rows => Ask (input msg J row c) (fun c => pass_rows msg J rows c k) end.
Definition signer (msg : bytes) (ns xs : list F) (decoys : list (list (pt R) * list F)) : oracle forgery :=
  let J := map (key_image R) xs in
  Ask (late_input msg ns xs []) (fun c => pass_rows msg J decoys c (fun c =>
    Give (mkForgery msg c (respond c ns xs :: map snd decoys) J))).
End Spec.
