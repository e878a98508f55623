(** Specification of soundness by rewinding: a prover for aggregated range proofs is asked several
    challenges at each point where a challenge is drawn; nothing is assumed about how it makes the points
    it sends.  The challenges are given here, not derived from a hash. *)
From Coq Require Import String ZArith List.
From Verif Require Import GoModel Fld Rist SpecVector SpecIPP SpecRange SpecSound.
Import ListNotations.

(** what a prover sends (points, or coefficients), as a function of the challenges drawn before *)
Record script (X : Type) := mkScript {
  s_V : nat -> X; s_A : X; s_S : X;
  s_T1 : F -> F -> X; s_T2 : F -> F -> X;                     (** after y, z *)
  s_L : F -> F -> F -> F -> list F -> X;                      (** after y, z, x, w and the rounds' challenges so far *)
  s_R : F -> F -> F -> F -> list F -> X }.
Arguments s_V {X}. Arguments s_A {X}. Arguments s_S {X}. Arguments s_T1 {X}. Arguments s_T2 {X}. Arguments s_L {X}. Arguments s_R {X}.
Arguments mkScript {X}.
Record answers := mkAnswers {
  an_t : F -> F -> F -> F; an_taux : F -> F -> F -> F; an_mu : F -> F -> F -> F;   (** after y, z, x *)
  an_a : F -> F -> F -> F -> list F -> F; an_b : F -> F -> F -> F -> list F -> F }.
(** the challenges asked at each point *)
Record questions := mkQuestions {
  q_y : list F; q_z : F -> list F; q_x : F -> F -> list F; q_w : F -> F -> F -> list F;
  q_u : F -> F -> F -> F -> list F -> list F }.

(** the messages of the rounds that end in the challenges us, [pre] being those of earlier rounds *)
Fixpoint rounds {X} (f : list F -> X) (pre us : list F) : list X :=
  match us with [] => [] | u :: us' => f pre :: rounds f (pre ++ [u]) us' end.
(** each challenge is one of those asked *)
Fixpoint path (q : list F -> list F) (pre us : list F) : Prop :=
  match us with [] => True | u :: us' => In u (q pre) /\ path q (pre ++ [u]) us' end.
Definition asked (q : questions) (k : nat) (y z x w : F) (us : list F) : Prop :=
  In y (q_y q) /\ In z (q_z q y) /\ In x (q_x q y z) /\ In w (q_w q y z x) /\ length us = k /\ path (q_u q y z x w) [] us.

(** enough challenges, for m values and k rounds: 64m + 1 of y, m + 2 of z, three of x, two of w and four
    of each round, with different squares; y, z and the rounds' challenges nonzero *)
Definition wide (m k : nat) (q : questions) : Prop :=
  (NoDup (q_y q) /\ 64 * m + 1 <= length (q_y q) /\ ~ In f0 (q_y q)) /\
  forall y, In y (q_y q) ->
  (NoDup (q_z q y) /\ m + 2 <= length (q_z q y) /\ ~ In f0 (q_z q y)) /\
  forall z, In z (q_z q y) ->
  (NoDup (q_x q y z) /\ 3 <= length (q_x q y z)) /\
  forall x, In x (q_x q y z) ->
  (NoDup (q_w q y z x) /\ 2 <= length (q_w q y z x)) /\
  forall w, In w (q_w q y z x) ->
  forall us, length us < k -> path (q_u q y z x w) [] us ->
  NoDup (map (fun u => fmul u u) (q_u q y z x w us)) /\ 4 <= length (q_u q y z x w us) /\ ~ In f0 (q_u q y z x w us).

(** the two equations the verifier checks *)
Definition ip_holds (R : rist) (m : nat) (us : list F) (L Rs : list (pt R)) (a b : F) (A S : pt R) (x y z w mu t : F) : Prop :=
  let n := 64 * m in
  let Q := smul R w (rp_Base R) in
  padd R (padd R (smul R a (msm R (svec us) (rp_G R n)))
                 (smul R b (msm R (zipw fmul (svec (map finv us)) (cpowers (finv y) n)) (rp_H R n))))
         (smul R (fmul a b) Q) =
  padd R (rp_P R m A S x y z mu t Q) (lr_sum R us L Rs).
Definition poly_holds (R : rist) (m : nat) (V : list (pt R)) (T1 T2 : pt R) (x y z t taux : F) : Prop :=
  rp_poly_lhs R t taux = rp_poly_rhs R m V T1 T2 x y z.
Definition accepts (R : rist) (m : nat) (s : script (pt R)) (an : answers) (y z x w : F) (us : list F) : Prop :=
  ip_holds R m us (rounds (s_L s y z x w) [] us) (rounds (s_R s y z x w) [] us) (an_a an y z x w us) (an_b an y z x w us)
    (s_A s) (s_S s) x y z w (an_mu an y z x) (an_t an y z x) /\
  poly_holds R m (map (s_V s) (seq 0 m)) (s_T1 s y z) (s_T2 s y z) x y z (an_t an y z x) (an_taux an y z x).

(** e gives coefficients of all points that s sends when asked q *)
Definition represents (R : rist) (m k : nat) (q : questions) (e : script rep) (s : script (pt R)) : Prop :=
  (forall j, j < m -> s_V s j = reval R (64 * m) (s_V e j)) /\
  s_A s = reval R (64 * m) (s_A e) /\ s_S s = reval R (64 * m) (s_S e) /\
  (forall y z, In y (q_y q) -> In z (q_z q y) ->
     s_T1 s y z = reval R (64 * m) (s_T1 e y z) /\ s_T2 s y z = reval R (64 * m) (s_T2 e y z)) /\
  (forall y z x w us, In y (q_y q) -> In z (q_z q y) -> In x (q_x q y z) -> In w (q_w q y z x) -> length us < k -> path (q_u q y z x w) [] us ->
     s_L s y z x w us = reval R (64 * m) (s_L e y z x w us) /\ s_R s y z x w us = reval R (64 * m) (s_R e y z x w us)).
(** the differences of the two sides of the equations, in coefficients *)
Definition ip_gap (m : nat) (e : script rep) (an : answers) (y z x w : F) (us : list F) : rep :=
  ip_rep m us (rounds (s_L e y z x w) [] us) (rounds (s_R e y z x w) [] us) (an_a an y z x w us) (an_b an y z x w us)
    (s_A e) (s_S e) x y z w (an_mu an y z x) (an_t an y z x).
Definition poly_gap (m : nat) (e : script rep) (an : answers) (y z x : F) : rep :=
  poly_rep m (s_V e) y z (s_T1 e y z) (s_T2 e y z) x (an_t an y z x) (an_taux an y z x).

(** the library with another function deriving scalars from bytes *)
Definition with_hash (R : rist) (h : bytes -> F) : rist :=
  mkRist (pt R) (pt0 R) (padd R) (psub R) (pneg R) (smul R) (pbase R) (peqb R) (pbytes R) (pset R) (pjunk R) (pderive R)
    (sbytes R) (sset R) h.
