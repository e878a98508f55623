(** Model of bls/bls.go with explicit memory.

    [mem] holds the objects of each type; an object is known by its position, a pointer is an
    option (None: nil).  Every function runs on the memory and returns its result together with the
    memory it leaves, also when it fails.  Simplifications: secret keys (never changed) and bn256.GT
    and big.Int objects (never leave a function) are values; bn256.G1 objects that become garbage when
    their Unmarshal fails are not allocated; the lengths and digests in the error text of verify are left out. *)
From Coq Require Import String ZArith List Bool Arith.
From Verif Require Import GoModel HashModel Base64Model Bn.
Import ListNotations.
Local Open Scope nat_scope.

Section Bls.
Context (B : bn).

Definition ptr := option nat.
Record mem := mkMem {
  m1 : list (g1 B);      (** bn256.G1 objects *)
  m2 : list (v2 B);      (** bn256.G2 objects *)
  mpk : list ptr;        (** PublicKey objects: gx (bls.go:93-95) *)
  mapk : list ptr;       (** Apk objects: the embedded *PublicKey (bls.go:98-100) *)
  msig : list ptr;       (** Signature objects: e (bls.go:103-105) *)
  musig : list ptr       (** UnsafeSignature objects: e (bls.go:108-110) *)
}.

Definition M (A : Type) := mem -> res A * mem.
Definition ret {A} (a : A) : M A := fun m => (Ok a, m).
Definition fail {A} (e : string) : M A := fun m => (Err e, m).
Definition panic {A} : M A := fun m => (Panic, m).
Definition lift {A} (r : res A) : M A := fun m => (r, m).
Definition mbind {A C} (x : M A) (f : A -> M C) : M C := fun m =>
  match x m with (Ok a, m') => f a m' | (Err e, m') => (Err e, m') | (Panic, m') => (Panic, m') end.
Local Notation "'do' x <- r ; k" := (mbind r (fun x => k)) (at level 200, x pattern, r at level 100, k at level 200, right associativity).

(** allocation and access *)
Definition new1 (x : g1 B) : M ptr := fun m => (Ok (Some (length (m1 m))), mkMem (m1 m ++ [x]) (m2 m) (mpk m) (mapk m) (msig m) (musig m)).
Definition new2 (x : v2 B) : M ptr := fun m => (Ok (Some (length (m2 m))), mkMem (m1 m) (m2 m ++ [x]) (mpk m) (mapk m) (msig m) (musig m)).
Definition newpk (x : ptr) : M ptr := fun m => (Ok (Some (length (mpk m))), mkMem (m1 m) (m2 m) (mpk m ++ [x]) (mapk m) (msig m) (musig m)).
Definition newapk (x : ptr) : M ptr := fun m => (Ok (Some (length (mapk m))), mkMem (m1 m) (m2 m) (mpk m) (mapk m ++ [x]) (msig m) (musig m)).
Definition newsig (x : ptr) : M ptr := fun m => (Ok (Some (length (msig m))), mkMem (m1 m) (m2 m) (mpk m) (mapk m) (msig m ++ [x]) (musig m)).
Definition newusig (x : ptr) : M ptr := fun m => (Ok (Some (length (musig m))), mkMem (m1 m) (m2 m) (mpk m) (mapk m) (msig m) (musig m ++ [x])).
(** dereferencing nil panics *)
Definition look {A} (l : mem -> list A) (p : ptr) : M A := fun m =>
  match p with None => (Panic, m) | Some a => (idx (l m) a, m) end.
Definition get1 := look m1.
Definition get2 := look m2.
Definition pk_gx := look mpk.
Definition apk_pk := look mapk.
Definition sig_e := look msig.
Definition usig_e := look musig.
Definition set1 (p : ptr) (x : g1 B) : M unit := fun m =>
  match p with None => (Panic, m) | Some a => (Ok tt, mkMem (upd (m1 m) a x) (m2 m) (mpk m) (mapk m) (msig m) (musig m)) end.
Definition set2 (p : ptr) (x : v2 B) : M unit := fun m =>
  match p with None => (Panic, m) | Some a => (Ok tt, mkMem (m1 m) (upd (m2 m) a x) (mpk m) (mapk m) (msig m) (musig m)) end.
Definition setpk (p : ptr) (x : ptr) : M unit := fun m =>
  match p with None => (Panic, m) | Some a => (Ok tt, mkMem (m1 m) (m2 m) (upd (mpk m) a x) (mapk m) (msig m) (musig m)) end.
Definition setsig (p : ptr) (x : ptr) : M unit := fun m =>
  match p with None => (Panic, m) | Some a => (Ok tt, mkMem (m1 m) (m2 m) (mpk m) (mapk m) (upd (msig m) a x) (musig m)) end.
Definition setusig (p : ptr) (x : ptr) : M unit := fun m =>
  match p with None => (Panic, m) | Some a => (Ok tt, mkMem (m1 m) (m2 m) (mpk m) (mapk m) (msig m) (upd (musig m) a x)) end.

(** bls.go:31-37, 40-43, 72-85: the base points set by init *)
Definition g2Base : res (g2 B) :=
  let! buff := hex_dec (list_byte_of_string g2Str) in
  match unm2 B buff with Some (P, _) => Ok P | None => Panic end.

(** bls.go:113-124 GenKeyPair; RandomG2 returns x and x times the generator *)
Definition GenKeyPair (r : reader) : M (ptr * Z) :=
  do x <- lift (rand_k B r);
  do gx <- new2 (emb2 B (mul2 B x (gen2 B)));
  do pk <- newpk gx;
  ret (pk, x).

(** bls.go:568-570 *)
Definition pk_Marshal (pk : ptr) : M bytes :=
  do gx <- pk_gx pk; do v <- get2 gx; lift (vmarshal2 B v).

(** the value that G2.Unmarshal leaves in a new G2 *)
Definition unmarshalled2 (data : bytes) : v2 B := match unm2 B data with Some (P, _) => emb2 B P | None => junk2 B data end.
Definition err_unm : string := "bn256: malformed point".
(** bls.go:573-580: gx is replaced before Unmarshal *)
Definition pk_Unmarshal (pk : ptr) (data : bytes) : M unit :=
  do _ <- pk_gx pk;
  do gx <- new2 (unmarshalled2 data);
  do _ <- setpk pk gx;
  match unm2 B data with None => fail err_unm | Some _ => ret tt end.
(** bls.go:127-133 *)
Definition UnmarshalPk (b : bytes) : M ptr :=
  do pk <- newpk None;
  do _ <- pk_Unmarshal pk b;
  ret pk.

(** bls.go:136, 141-148: hashFn is SHA3-256, whose Write never fails *)
Definition hashFn : hasher := mkHasher (fun _ => None) (sha3 B).
Definition h0 (msg : bytes) : res (g1 B) :=
  let! hashed := PerformHash hashFn msg in
  Ok (mul1 B (be_Z hashed) (gen1 B)).
(** bls.go:152-162 *)
Definition h1 (pk : ptr) : M Z :=
  do pkb <- pk_Marshal pk;
  do h <- lift (PerformHash hashFn pkb);
  ret (be_Z h).
(** bls.go:164-172 *)
Definition pkt (pk : ptr) : M ptr :=
  do t <- h1 pk;
  do gx <- pk_gx pk;
  do v <- get2 gx;
  do r <- lift (vmul2 B t v);
  new2 r.

(** bls.go:175-184: the error of pkt is dropped; it cannot fail *)
Definition NewApk (pk : ptr) : M ptr :=
  match pk with
  | None => ret None
  | Some _ => do gx <- pkt pk; do p <- newpk gx; newapk p
  end.
(** apk.gx *)
Definition apk_gx (apk : ptr) : M ptr := do p <- apk_pk apk; pk_gx p.

(** bls.go:188-198 *)
Definition apk_Copy (apk : ptr) : M ptr :=
  do gx <- apk_gx apk;
  do v <- get2 gx;
  do b <- lift (vmarshal2 B v);
  do g <- new2 (unmarshalled2 b);
  do p <- newpk g;
  newapk p.
(** Apk inherits Unmarshal, Marshal, UnmarshalText, MarshalText from PublicKey *)
Definition apk_Unmarshal (apk : ptr) (data : bytes) : M unit := do p <- apk_pk apk; pk_Unmarshal p data.
Definition apk_Marshal (apk : ptr) : M bytes := do p <- apk_pk apk; pk_Marshal p.
(** bls.go:201-210 *)
Definition UnmarshalApk (b : bytes) : M ptr :=
  do p <- newpk None;
  do apk <- newapk p;
  do _ <- apk_Unmarshal apk b;
  ret apk.

(** bls.go:232-240 *)
Definition apk_Aggregate (apk pk : ptr) : M unit :=
  do gxt <- pkt pk;
  do gx <- apk_gx apk;
  do v <- get2 gx;
  do w <- get2 gxt;
  do r <- lift (vadd2 B v w);
  set2 gx r.
(** bls.go:214-228 *)
Fixpoint agg_loop (apk : ptr) (pks : list ptr) : M ptr :=
  match pks with
  | [] => ret apk
  | pk :: pks => do _ <- apk_Aggregate apk pk; agg_loop apk pks
  end.
Definition AggregateApk (pks : list ptr) : M ptr :=
  match pks with
  | [] => ret None
  | pk :: pks => do apk <- NewApk pk; agg_loop apk pks
  end.
(** bls.go:243-249 *)
Definition apk_AggregateBytes (apk : ptr) (b : bytes) : M unit :=
  do pk <- newpk None;
  do _ <- pk_Unmarshal pk b;
  apk_Aggregate apk pk.

(** bls.go:389-397 *)
Definition UnsafeSign (sk : Z) (msg : bytes) : M ptr :=
  do h <- lift (h0 msg);
  do p <- new1 (mul1 B sk h);
  newusig p.
(** bls.go:350-362 *)
Definition apkSigWrap (pk usig : ptr) : M ptr :=
  do t <- h1 pk;
  do e <- usig_e usig;
  do v <- get1 e;
  do s <- new1 (mul1 B t v);
  newsig s.
(** bls.go:252-259 *)
Definition Sign (sk : Z) (pk : ptr) (msg : bytes) : M ptr :=
  do sg <- UnsafeSign sk msg;
  apkSigWrap pk sg.

(** bls.go:324-326, 309-311 *)
Definition sig_Marshal (s : ptr) : M bytes := do e <- sig_e s; do v <- get1 e; ret (marshal1 B v).
Definition sig_Compress (s : ptr) : M bytes := do e <- sig_e s; do v <- get1 e; ret (compress B v).
(** bls.go:314-321 *)
Definition sig_Decompress (s : ptr) (x : bytes) : M unit :=
  match decompress B x with
  | None => fail err_unm
  | Some P => do _ <- sig_e s; do e <- new1 P; setsig s e
  end.
(** bls.go:329-347 *)
Definition sig_Unmarshal (s : ptr) (msg : bytes) : M unit :=
  if Nat.eqb (length msg) 33 then
    match decompress B msg with
    | None => fail err_unm
    | Some P => do _ <- sig_e s; do e <- new1 P; setsig s e
    end
  else
    match unm1 B msg with
    | None => fail err_unm
    | Some (P, _) => do _ <- sig_e s; do e <- new1 P; setsig s e
    end.
(** bls.go:262-268 *)
Definition UnmarshalSignature (sg : bytes) : M ptr :=
  do s <- newsig None;
  do _ <- sig_Unmarshal s sg;
  ret s.
(** bls.go:272-279; Unmarshal of what Marshal wrote does not fail *)
Definition sig_Copy (s : ptr) : M ptr :=
  do b <- sig_Marshal s;
  match unm1 B b with
  | None => panic
  | Some (P, _) => do e <- new1 P; newsig e
  end.
(** bls.go:303-306 *)
Definition sig_Aggregate (s other : ptr) : M ptr :=
  do e <- sig_e s;
  do v <- get1 e;
  do e' <- sig_e other;
  do w <- get1 e';
  do _ <- set1 e (add1 B v w);
  ret s.
(** bls.go:282-290 *)
Definition sig_Add (s pk usig : ptr) : M unit :=
  do other <- apkSigWrap pk usig;
  do _ <- sig_Aggregate s other;
  ret tt.
(** bls.go:293-300 *)
Definition sig_AggregateBytes (s : ptr) (other : bytes) : M unit :=
  do o <- newsig None;
  do _ <- sig_Unmarshal o other;
  do _ <- sig_Aggregate s o;
  ret tt.

(** bls.go:400-427 *)
Definition usig_Compress (u : ptr) : M bytes := do e <- usig_e u; do v <- get1 e; ret (compress B v).
Definition usig_Decompress (u : ptr) (x : bytes) : M unit :=
  match decompress B x with
  | None => fail err_unm
  | Some P => do _ <- usig_e u; do e <- new1 P; setusig u e
  end.
Definition usig_Marshal (u : ptr) : M bytes := do e <- usig_e u; do v <- get1 e; ret (marshal1 B v).
Definition usig_Unmarshal (u : ptr) (msg : bytes) : M unit :=
  match unm1 B msg with
  | None => fail err_unm
  | Some (P, _) => do _ <- usig_e u; do e <- new1 P; setusig u e
  end.
(** bls.go:430-434 *)
Definition UnsafeAggregate (one other : ptr) : M ptr :=
  do e <- usig_e one;
  do v <- get1 e;
  do e' <- usig_e other;
  do w <- get1 e';
  do r <- new1 (add1 B v w);
  newusig r.
(** bls.go:438-449 *)
Fixpoint batch_loop (sum : ptr) (sigs : list ptr) : M ptr :=
  match sigs with
  | [] => ret sum
  | s :: sigs => do sum <- UnsafeAggregate sum s; batch_loop sum sigs
  end.
Definition UnsafeBatch (sigs : list ptr) : M ptr :=
  match sigs with [] => ret None | s :: sigs => batch_loop s sigs end.

(** bls.go:468-488; slicing [0:10] panics on shorter encodings *)
Definition verify (pk : ptr) (msg : bytes) (sigma : ptr) : M unit :=
  do h0m <- lift (h0 msg);
  do v <- get2 pk;
  do x <- lift (vpair B h0m v);
  do s <- get1 sigma;
  do b2 <- lift g2Base;
  let pairH0mPK := marshalt B x in
  let pairSigG2 := marshalt B (pair B s b2) in
  if bytes_eqb pairH0mPK pairSigG2 then ret tt
  else if orb (Nat.ltb (length pairSigG2) 10) (Nat.ltb (length pairH0mPK) 10) then panic
  else fail "bls apk: Invalid Signature.".

(** bls.go:529-539: the map from digests to bool is the list of digests seen *)
Fixpoint distinct_loop (seen : list bytes) (msgs : list bytes) : bool :=
  match msgs with
  | [] => true
  | msg :: msgs => let h := sha3 B msg in if existsb (bytes_eqb h) seen then false else distinct_loop (h :: seen) msgs
  end.
Definition distinct (msgs : list bytes) : bool := distinct_loop [] msgs.

(** bls.go:490-517: pairH0mPKs is nil before the first message *)
Definition batch_body (pkeys : list ptr) (msgs : list bytes) (i : nat) (acc : option (gt B)) : M (option (gt B)) :=
  do msg <- lift (idx msgs i);
  do h0m <- lift (h0 msg);
  do pk <- lift (idx pkeys i);
  do v <- get2 pk;
  do x <- lift (vpair B h0m v);
  match acc with
  | None => ret (Some x)
  | Some a => ret (Some (addt B a x))
  end.
Fixpoint mfor {S} (lo cnt : nat) (body : nat -> S -> M S) (st : S) : M S :=
  match cnt with O => ret st | Datatypes.S k => do st <- body lo st; mfor (Datatypes.S lo) k body st end.
Definition verifyBatch (pkeys : list ptr) (msgList : list bytes) (sg : ptr) (allowDistinct : bool) : M unit :=
  if andb (negb allowDistinct) (negb (distinct msgList)) then fail "bls: Messages are not distinct"
  else
    do acc <- mfor 0 (length msgList) (batch_body pkeys msgList) None;
    do s <- get1 sg;
    do b2 <- lift g2Base;
    match acc with
    | None => panic
    | Some x => if bytes_eqb (marshalt B (pair B s b2)) (marshalt B x) then ret tt else fail "bls: Invalid Signature"
    end.

(** bls.go:365-367 *)
Definition Verify (apk : ptr) (msg : bytes) (sigma : ptr) : M unit :=
  do gx <- apk_gx apk;
  do e <- sig_e sigma;
  verify gx msg e.
(** x[i] for all i, for a field read through a pointer *)
Fixpoint mmap {A C} (f : A -> M C) (l : list A) : M (list C) :=
  match l with [] => ret [] | x :: l => do y <- f x; do r <- mmap f l; ret (y :: r) end.
(** bls.go:371-386 *)
Definition VerifyBatch (apks : list ptr) (msgs : list bytes) (sigma : ptr) : M unit :=
  if negb (Nat.eqb (length msgs) (length apks)) then 
    fail ("BLS Verify APK Batch: the nr of Public Keys (" ++ itoa (Z.of_nat (length apks)) ++ ") and the nr. of messages (" ++ itoa (Z.of_nat (length msgs)) ++ ") do not match")
  else
    do pks <- mmap apk_gx apks;
    do e <- sig_e sigma;
    verifyBatch pks msgs e false.
(** bls.go:453-459 *)
Definition VerifyUnsafeBatch (pkeys : list ptr) (msgList : list bytes) (signature : ptr) : M unit :=
  do g2s <- mmap pk_gx pkeys;
  do e <- usig_e signature;
  verifyBatch g2s msgList e false.
(** bls.go:464-466 *)
Definition VerifyUnsafe (pkey : ptr) (msg : bytes) (signature : ptr) : M unit :=
  do gx <- pk_gx pkey;
  do e <- usig_e signature;
  verify gx msg e.
(** bls.go:520-526 *)
Definition VerifyCompressed (pks : list ptr) (msgList : list bytes) (compressedSig : bytes) (allowDistinct : bool) : M unit :=
  match decompress B compressedSig with
  | None => fail err_unm
  | Some P => do sg <- new1 P; verifyBatch pks msgList sg allowDistinct
  end.

(** bls.go:542-546 *)
Definition pk_Aggregate (pk pp : ptr) : M ptr :=
  do gx <- pk_gx pk;
  do v <- get2 gx;
  do gx' <- pk_gx pp;
  do w <- get2 gx';
  do r <- lift (vadd2 B v w);
  do p3 <- new2 r;
  newpk p3.
(** bls.go:549-551 *)
Definition pk_MarshalText (pk : ptr) : M bytes := do b <- pk_Marshal pk; ret (encodeToText b).
(** bls.go:554-565 *)
Definition pk_UnmarshalText (pk : ptr) (data : bytes) : M unit :=
  do bs <- lift (decodeText data);
  pk_Unmarshal pk bs.
(** inherited by Apk *)
Definition apk_MarshalText (apk : ptr) : M bytes := do p <- apk_pk apk; pk_MarshalText p.
Definition apk_UnmarshalText (apk : ptr) (data : bytes) : M unit := do p <- apk_pk apk; pk_UnmarshalText p data.
End Bls.
Arguments ret {B A} a. Arguments fail {B A} e. Arguments panic {B A}. Arguments lift {B A} r. Arguments mbind {B A C} x f.
Arguments look {B A} l p. Arguments mfor {B S} lo cnt body st. Arguments mmap {B A C} f l.
Arguments m1 {B}. Arguments m2 {B}. Arguments mpk {B}. Arguments mapk {B}. Arguments msig {B}. Arguments musig {B}.
Notation "'do' x <- r ; k" := (mbind r (fun x => k)) (at level 200, x pattern, r at level 100, k at level 200, right associativity).
