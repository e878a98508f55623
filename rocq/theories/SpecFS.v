(** Specification of the non-interactive run of a prover: the challenges it is asked are the hashes of
    what it has sent *)
From Coq Require Import String ZArith List.
From Verif Require Import GoModel Fld Rist SpecVector SpecIPP SpecRange SpecSound PedersenModel InnerProductModel RangeProofModel SpecRewind.
Import ListNotations.

(** the challenges of k rounds, when L and R are sent after the challenges [pre]; [hs] was hashed before *)
Fixpoint fs_us (R : rist) (k : nat) (hs : bytes) (L Rr : list F -> pt R) (pre : list F) : list F :=
  match k with
  | O => []
  | S k =>
    let hs := hs ++ pbytes R (L pre) ++ pbytes R (Rr pre) in
    let u := sderive R hs in
    u :: fs_us R k hs L Rr (pre ++ [u])
  end.

(** the run of the prover s, an for the commitments V: its challenges, and the proof it ends up with *)
Section Run.
Context (R : rist) (k : nat) (V : list (commitment R)) (s : script (pt R)) (an : answers).
Let Vs := map (c_val R) V.
Definition fs_y : F := rp_y R Vs (s_A s) (s_S s).
Definition fs_z : F := rp_z R fs_y.
Definition fs_x : F := rp_x R Vs (s_A s) (s_S s) fs_z (s_T1 s fs_y fs_z) (s_T2 s fs_y fs_z).
Definition fs_w : F := rp_w R Vs (s_A s) (s_S s) fs_z (s_T1 s fs_y fs_z) (s_T2 s fs_y fs_z) fs_x
  (an_taux an fs_y fs_z fs_x) (an_mu an fs_y fs_z fs_x) (an_t an fs_y fs_z fs_x).
Definition fs_rounds : list F := fs_us R k [] (s_L s fs_y fs_z fs_x fs_w) (s_R s fs_y fs_z fs_x fs_w) [].
Definition fs_proof : proof R :=
  mkProof R V (s_A s) (s_S s) (s_T1 s fs_y fs_z) (s_T2 s fs_y fs_z)
    (an_taux an fs_y fs_z fs_x) (an_mu an fs_y fs_z fs_x) (an_t an fs_y fs_z fs_x)
    (Some (mkIPP R (rounds (s_L s fs_y fs_z fs_x fs_w) [] fs_rounds) (rounds (s_R s fs_y fs_z fs_x fs_w) [] fs_rounds)
             (an_a an fs_y fs_z fs_x fs_w fs_rounds) (an_b an fs_y fs_z fs_x fs_w fs_rounds))).
End Run.

(** the sum over n <= j < m of z^(j+2) V_j *)
Definition z_rest (R : rist) (z : F) (n m : nat) (V : list (pt R)) : pt R :=
  msm R (map (fun j => fpow z (j + 2)) (seq n (m - n))) (skipn n V).
