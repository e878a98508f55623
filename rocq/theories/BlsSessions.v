(** All operations of bls.go as one type, to speak about histories of calls *)
From Coq Require Import String ZArith List Bool Arith.
From Verif Require Import GoModel Bn BlsModel SpecBls.
Import ListNotations.
Local Open Scope nat_scope.

Section Sessions.
Context {B : bn}.
Inductive op :=
| OGenKeyPair (r : reader) | OUnmarshalPk (b : bytes) | ONewApk (pk : ptr) | OApkCopy (apk : ptr) | OUnmarshalApk (b : bytes)
| OAggregateApk (pks : list ptr) | OApkAggregate (apk pk : ptr) | OApkAggregateBytes (apk : ptr) (b : bytes)
| OSign (sk : Z) (pk : ptr) (msg : bytes) | OUnmarshalSignature (b : bytes) | OSigCopy (s : ptr) | OSigAdd (s pk usig : ptr)
| OSigAggregateBytes (s : ptr) (b : bytes) | OSigAggregate (s other : ptr) | OSigCompress (s : ptr) | OSigDecompress (s : ptr) (b : bytes)
| OSigMarshal (s : ptr) | OSigUnmarshal (s : ptr) (b : bytes) | OVerify (apk : ptr) (msg : bytes) (s : ptr)
| OVerifyBatch (apks : list ptr) (msgs : list bytes) (s : ptr) | OUnsafeSign (sk : Z) (msg : bytes) | OUsigCompress (u : ptr)
| OUsigDecompress (u : ptr) (b : bytes) | OUsigMarshal (u : ptr) | OUsigUnmarshal (u : ptr) (b : bytes) | OUnsafeAggregate (one other : ptr)
| OUnsafeBatch (us : list ptr) | OVerifyUnsafeBatch (pks : list ptr) (msgs : list bytes) (u : ptr) | OVerifyUnsafe (pk : ptr) (msg : bytes) (u : ptr)
| OVerifyCompressed (g2s : list ptr) (msgs : list bytes) (b : bytes) (allow : bool) | OPkAggregate (pk pp : ptr)
| OPkMarshalText (pk : ptr) | OPkUnmarshalText (pk : ptr) (b : bytes) | OPkMarshal (pk : ptr) | OPkUnmarshal (pk : ptr) (b : bytes)
| OApkMarshalText (apk : ptr) | OApkUnmarshalText (apk : ptr) (b : bytes) | OApkMarshal (apk : ptr) | OApkUnmarshal (apk : ptr) (b : bytes).

(** run one call and forget its result *)
Definition void {A} (x : M B A) : M B unit := do _ <- x; ret tt.
Definition call (o : op) : M B unit :=
  match o with
  | OGenKeyPair r => void (GenKeyPair B r) | OUnmarshalPk b => void (UnmarshalPk B b) | ONewApk pk => void (NewApk B pk)
  | OApkCopy a => void (apk_Copy B a) | OUnmarshalApk b => void (UnmarshalApk B b) | OAggregateApk l => void (AggregateApk B l)
  | OApkAggregate a p => apk_Aggregate B a p | OApkAggregateBytes a b => apk_AggregateBytes B a b
  | OSign x p msg => void (Sign B x p msg) | OUnmarshalSignature b => void (UnmarshalSignature B b) | OSigCopy s => void (sig_Copy B s)
  | OSigAdd s p u => sig_Add B s p u | OSigAggregateBytes s b => sig_AggregateBytes B s b | OSigAggregate s o => void (sig_Aggregate B s o)
  | OSigCompress s => void (sig_Compress B s) | OSigDecompress s b => sig_Decompress B s b | OSigMarshal s => void (sig_Marshal B s)
  | OSigUnmarshal s b => sig_Unmarshal B s b | OVerify a msg s => Verify B a msg s | OVerifyBatch l ms s => VerifyBatch B l ms s
  | OUnsafeSign x msg => void (UnsafeSign B x msg) | OUsigCompress u => void (usig_Compress B u) | OUsigDecompress u b => usig_Decompress B u b
  | OUsigMarshal u => void (usig_Marshal B u) | OUsigUnmarshal u b => usig_Unmarshal B u b | OUnsafeAggregate u v => void (UnsafeAggregate B u v)
  | OUnsafeBatch l => void (UnsafeBatch B l) | OVerifyUnsafeBatch l ms u => VerifyUnsafeBatch B l ms u | OVerifyUnsafe p msg u => VerifyUnsafe B p msg u
  | OVerifyCompressed l ms b a => VerifyCompressed B l ms b a | OPkAggregate p p' => void (pk_Aggregate B p p')
  | OPkMarshalText p => void (pk_MarshalText B p) | OPkUnmarshalText p b => pk_UnmarshalText B p b | OPkMarshal p => void (pk_Marshal B p)
  | OPkUnmarshal p b => pk_Unmarshal B p b | OApkMarshalText a => void (apk_MarshalText B a) | OApkUnmarshalText a b => apk_UnmarshalText B a b
  | OApkMarshal a => void (apk_Marshal B a) | OApkUnmarshal a b => apk_Unmarshal B a b
  end.
(** the memory after a call, whether it succeeds, fails or panics, and after a history of calls *)
Definition after (o : op) (m : mem B) : mem B := snd (call o m).
Fixpoint history (l : list op) (m : mem B) : mem B := match l with [] => m | o :: l => history l (after o m) end.

(** ** What each operation may change *)
(** the bn256.G2 object of an Apk, the bn256.G1 object of a Signature, the PublicKey object of an Apk *)
Definition gx_of_apk (m : mem B) (apk : ptr) (b : nat) : Prop := exists a c, apk = Some a /\ nth_error (mapk m) a = Some (Some c) /\ nth_error (mpk m) c = Some (Some b).
Definition e_of_sig (m : mem B) (s : ptr) (b : nat) : Prop := exists a, s = Some a /\ nth_error (msig m) a = Some (Some b).
Definition pk_of_apk (m : mem B) (apk : ptr) (c : nat) : Prop := exists a, apk = Some a /\ nth_error (mapk m) a = Some (Some c).
(** the G2 value of an Apk, of a PublicKey object *)
Definition apk_val (m : mem B) (apk : ptr) (v : v2 B) : Prop := exists b, gx_of_apk m apk b /\ nth_error (m2 m) b = Some v.
Definition pk_val (m : mem B) (a : nat) (v : v2 B) : Prop := exists b, nth_error (mpk m) a = Some (Some b) /\ nth_error (m2 m) b = Some v.
Definition obj (p : ptr) (a : nat) : Prop := p = Some a.
Definition changes1 (o : op) (m : mem B) : nat -> Prop :=
  match o with OSigAdd s _ _ | OSigAggregateBytes s _ | OSigAggregate s _ => e_of_sig m s | _ => none end.
Definition changes2 (o : op) (m : mem B) : nat -> Prop :=
  match o with OApkAggregate a _ | OApkAggregateBytes a _ => gx_of_apk m a | _ => none end.
Definition changespk (o : op) (m : mem B) : nat -> Prop :=
  match o with OPkUnmarshal p _ | OPkUnmarshalText p _ => obj p | OApkUnmarshal a _ | OApkUnmarshalText a _ => pk_of_apk m a | _ => none end.
Definition changessig (o : op) : nat -> Prop :=
  match o with OSigUnmarshal s _ | OSigDecompress s _ => obj s | _ => none end.
Definition changesusig (o : op) : nat -> Prop :=
  match o with OUsigUnmarshal u _ | OUsigDecompress u _ => obj u | _ => none end.
(** the receiver of a changing operation *)
Definition apk_receiver (o : op) : ptr := match o with OApkAggregate a _ | OApkAggregateBytes a _ | OApkUnmarshal a _ | OApkUnmarshalText a _ => a | _ => None end.
Definition pk_receiver (o : op) : ptr := match o with OPkUnmarshal p _ | OPkUnmarshalText p _ => p | _ => None end.
Definition sig_receiver (o : op) : ptr := match o with OSigAdd s _ _ | OSigAggregateBytes s _ | OSigAggregate s _ | OSigUnmarshal s _ | OSigDecompress s _ => s | _ => None end.
Definition usig_receiver (o : op) : ptr := match o with OUsigUnmarshal u _ | OUsigDecompress u _ => u | _ => None end.

(** no objects yet *)
Definition mem0 : mem B := mkMem B [] [] [] [] [] [].
(** no two objects share a part, and all pointers lead to objects *)
Definition inj (l : list ptr) : Prop := forall i j b, nth_error l i = Some (Some b) -> nth_error l j = Some (Some b) -> i = j.
Definition within (n : nat) (l : list ptr) : Prop := forall i b, nth_error l i = Some (Some b) -> b < n.
Definition unshared (m : mem B) : Prop :=
  (inj (mpk m) /\ within (length (m2 m)) (mpk m)) /\ (inj (mapk m) /\ within (length (mpk m)) (mapk m)) /\
  (inj (msig m) /\ within (length (m1 m)) (msig m)) /\ (inj (musig m) /\ within (length (m1 m)) (musig m)) /\
  (forall i j b, nth_error (msig m) i = Some (Some b) -> nth_error (musig m) j = Some (Some b) -> False).
End Sessions.
