(** Go statements with which callers of bls make objects that share memory, without a call of the package:
    copies of the structs, conversions between them and Apk literals.  bls.go:93-110 declares
    PublicKey{gx *bn256.G2}, Apk{*PublicKey}, Signature{e *bn256.G1}, UnsafeSignature{e *bn256.G1};
    struct values can be copied by every package, Signature and UnsafeSignature have the same
    underlying type and Apk's only field is exported.
    Simplification: the pointer conversion ( *Signature )(u), in which even the struct is shared, is not modelled. *)
From Coq Require Import String ZArith List.
From Verif Require Import GoModel HashModel Bn BlsModel.
Local Notation "'do' x <- r ; k" := (mbind r (fun x => k)) (at level 200, x pattern, r at level 100, k at level 200, right associativity).

(** bls.go:93-95: c := *pk; &c *)
Definition pk_star B (pk : ptr) : M B ptr := do gx <- pk_gx B pk; newpk B gx.
(** bls.go:98-100: &bls.Apk{PublicKey: pk}; pk may be nil *)
Definition apk_literal B (pk : ptr) : M B ptr := newapk B pk.
(** bls.go:98-100: c := *apk; &c *)
Definition apk_star B (apk : ptr) : M B ptr := do p <- apk_pk B apk; newapk B p.
(** bls.go:103-105: c := *s; &c *)
Definition sig_star B (s : ptr) : M B ptr := do e <- sig_e B s; newsig B e.
(** bls.go:103-110: c := bls.Signature( *u ); &c *)
Definition sig_convert B (u : ptr) : M B ptr := do e <- usig_e B u; newsig B e.
(** bls.go:103-110: c := bls.UnsafeSignature( *s ); &c *)
Definition usig_convert B (s : ptr) : M B ptr := do e <- sig_e B s; newusig B e.
