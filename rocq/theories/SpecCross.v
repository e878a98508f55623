(** One signature in the formats of both ring signature packages (mlsag, ringsig/blsag) *)
From Coq Require Import String ZArith List.
From Verif Require Import GoModel Fld Rist BlsagModel MlsagModel.
Import ListNotations.

(** the bLSAG signature [sg] on [m] as a multilayered signature: one key and one response per ring
    member; responses after the last key, which bLSAG does not look at, are left out *)
Definition as_mlsag {R V} (L : rist) (f : rp R V -> pt L) (m : bytes) (sg : rsig R V) : sig L :=
  mkSig L (rs_C R V sg) (map (fun s => [s]) (firstn (length (rs_pub R V sg)) (rs_S R V sg)))
    (map (fun P => mkPK L false [f P]) (rs_pub R V sg)) m.
(** the first keys and responses of a multilayered signature as a bLSAG signature with key image [I] *)
Definition as_blsag {R} (V : raw R) (s : sig R) (I : pt R) : rsig R V :=
  mkRS R V (emb R V I) (sg_c R s) (map (hd f0) (sg_r R s)) (map (fun k => emb R V (hd (pt0 R) (pk_keys R k))) (sg_pub R s)).
