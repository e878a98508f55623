(** Specification of BLS signatures: values behind pointers, the verification equation, sums *)
From Coq Require Import String ZArith List Bool Arith DecimalString.
From Verif Require Import GoModel Bn BlsModel.
Import ListNotations.
Local Open Scope nat_scope.

(** decimal digits *)
Definition dec (n : nat) : string := NilZero.string_of_int (Z.to_int (Z.of_nat n)).
Section Spec.
Context {B : bn}.
(** a PublicKey, Apk, Signature, UnsafeSignature object that holds a group element *)
Definition pk_is (m : mem B) (p : ptr) (P : g2 B) : Prop :=
  exists a b, p = Some a /\ nth_error (mpk m) a = Some (Some b) /\ nth_error (m2 m) b = Some (emb2 B P).
Definition apk_is (m : mem B) (p : ptr) (P : g2 B) : Prop :=
  exists a c, p = Some a /\ nth_error (mapk m) a = Some c /\ pk_is m c P.
Definition sig_is (m : mem B) (p : ptr) (S : g1 B) : Prop :=
  exists a b, p = Some a /\ nth_error (msig m) a = Some (Some b) /\ nth_error (m1 m) b = Some S.
Definition usig_is (m : mem B) (p : ptr) (S : g1 B) : Prop :=
  exists a b, p = Some a /\ nth_error (musig m) a = Some (Some b) /\ nth_error (m1 m) b = Some S.
(** a *bn256.G2 *)
Definition g2_is (m : mem B) (p : ptr) (P : g2 B) : Prop := exists b, p = Some b /\ nth_error (m2 m) b = Some (emb2 B P).

(** [keep X l l']: the objects of [l] are still there, and unchanged except those in [X] *)
Definition keep {A} (X : nat -> Prop) (l l' : list A) : Prop :=
  length l <= length l' /\ forall i, i < length l -> ~ X i -> nth_error l' i = nth_error l i.
Definition none (i : nat) : Prop := False.
Definition only (a : nat) (i : nat) : Prop := i = a.
(** the G1 objects in X1, the G2 objects in X2, the PublicKey objects in Xp, the Signature objects in
    Xs and the UnsafeSignature objects in Xu may have changed (no operation changes an Apk object) *)
Definition frame (X1 X2 Xp Xs Xu : nat -> Prop) (m m' : mem B) : Prop :=
  keep X1 (m1 m) (m1 m') /\ keep X2 (m2 m) (m2 m') /\ keep Xp (mpk m) (mpk m') /\ keep none (mapk m) (mapk m') /\
  keep Xs (msig m) (msig m') /\ keep Xu (musig m) (musig m').
(** no existing object has changed *)
Definition ext (m m' : mem B) : Prop := frame none none none none none m m'.

(** the number a message, resp. a key, is hashed to *)
Definition hm (msg : bytes) : Z := be_Z (sha3 B msg).
Definition ht (P : g2 B) : Z := be_Z (sha3 B (marshal2 B P)).
(** e(H(m), P) = e(S, g2) *)
Definition valid (P : g2 B) (msg : bytes) (S : g1 B) : Prop :=
  pair B (mul1 B (hm msg) (gen1 B)) P = pair B S (gen2 B).

Definition sum1 (l : list (g1 B)) : g1 B := fold_right (add1 B) (mul1 B 0 (gen1 B)) l.
Definition sum2 (l : list (g2 B)) : g2 B := fold_right (add2 B) (mul2 B 0 (gen2 B)) l.
(** the aggregated key: the sum of the keys, each multiplied with its hash *)
Definition apk_of (l : list (g2 B)) : g2 B := sum2 (map (fun P => mul2 B (ht P) P) l).
(** the signature of secret key x on msg, and its modification with the hash of the public key *)
Definition usig_of (x : Z) (msg : bytes) : g1 B := mul1 B x (mul1 B (hm msg) (gen1 B)).
Definition sig_of (x : Z) (P : g2 B) (msg : bytes) : g1 B := mul1 B (ht P) (usig_of x msg).

(** ** Programs built from the API *)
(** ways of adding one signer to a signature *)
Inductive how := HAggregate | HAdd | HBytes | HCompressed.
Definition add_signer (s : ptr) (x : Z) (pk : ptr) (msg : bytes) (h : how) : M B unit :=
  match h with
  | HAggregate => do t <- Sign B x pk msg; do _ <- sig_Aggregate B s t; ret tt
  | HAdd => do u <- UnsafeSign B x msg; sig_Add B s pk u
  | HBytes => do t <- Sign B x pk msg; do b <- sig_Marshal B t; sig_AggregateBytes B s b
  | HCompressed => do t <- Sign B x pk msg; do b <- sig_Compress B t; sig_AggregateBytes B s b
  end.
Fixpoint add_signers (s : ptr) (l : list (Z * ptr * how)) (msg : bytes) : M B unit :=
  match l with [] => ret tt | (x, pk, h) :: l => do _ <- add_signer s x pk msg h; add_signers s l msg end.
(** the signer's key belongs to its secret key; the compressed form is only used for points other
    than infinity *)
Definition signer (m : mem B) (msg : bytes) (s : Z * ptr * how) : Prop :=
  let '(x, pk, h) := s in let P := mul2 B x (gen2 B) in
  pk_is m pk P /\ (h = HCompressed -> sig_of x P msg <> mul1 B 0 (gen1 B)).
(** the multi-signature of a first signer and others *)
Definition multisign (x : Z) (pk : ptr) (l : list (Z * ptr * how)) (msg : bytes) : M B ptr :=
  do s <- Sign B x pk msg; do _ <- add_signers s l msg; ret s.
(** ways of adding one key to an aggregated key *)
Fixpoint add_keys (apk : ptr) (l : list (ptr * bool)) : M B unit :=
  match l with
  | [] => ret tt
  | (pk, viaBytes) :: l =>
      do _ <- (if viaBytes then do b <- pk_Marshal B pk; apk_AggregateBytes B apk b else apk_Aggregate B apk pk);
      add_keys apk l
  end.
Definition multikey (pk : ptr) (l : list (ptr * bool)) : M B ptr :=
  do apk <- NewApk B pk; do _ <- add_keys apk l; ret apk.
End Spec.

(** S is the sum of signatures valid for the i-th key and the i-th message; keys beyond the messages
    do not matter *)
Fixpoint batch_valid {B : bn} (Ps : list (g2 B)) (msgs : list bytes) (S : g1 B) : Prop :=
  match msgs, Ps with
  | [], _ => S = mul1 B 0 (gen1 B)
  | msg :: msgs, P :: Ps => exists T S', valid P msg T /\ batch_valid Ps msgs S' /\ S = add1 B T S'
  | _ :: _, [] => False
  end.
