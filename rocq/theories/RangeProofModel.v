(** Model of rangeproof/rangeproof.go, poly.go, bitCommitment.go and debug.go.

    Randomness: [rs] is the stream of scalars returned by successive Rand calls, in the order
    in which Prove makes them.  The package variable M is accessed through the programs of
    GlobModel.v; reads of M that only give a capacity hint to make are left out. *)
From Coq Require Import String ZArith List.
From Coq Require Import Init.Byte Strings.Byte.
From Verif Require Import GoModel ReadModel GlobModel Fld Rist VectorModel PedersenModel InnerProductModel.
Import ListNotations.
Local Open Scope string_scope.
Local Open Scope list_scope.

(** rangeproof.go:20 *)
Definition rN : Z := 64.
(** rangeproof.go:26 *)
Definition maxM : Z := 16.
(** uint32(N * M) *)
Definition NM (m : Z) : nat := Z.to_nat (u32 (rN * m)).

(** ** bitCommitment.go *)
(** bitCommitment.go:15-51; Uint64 returns the low 64 bits of the absolute value *)
Definition BitCommit (v : Z) : res (list F * list F) :=
  let num := u64 (Z.abs v) in
  let! (_, AL, AR) := for_loop 0 (Z.to_nat rN) (fun i '(num, AL, AR) =>
    let rem := (num mod 2)%Z in
    let num := Z.shiftr num 1 in
    if Z.eqb rem 0 then
      let! AL := set_idx AL i f0 in let! AR := set_idx AR i (fneg f1) in Ok (num, AL, AR)
    else
      let! AL := set_idx AL i f1 in let! AR := set_idx AR i f0 in Ok (num, AL, AR))
    (num, make_scalars (Z.to_nat rN), make_scalars (Z.to_nat rN)) in
  Ok (AL, AR).

(** bitCommitment.go:53-87 *)
Definition BitDebug (AL AR : list F) (v : Z) : res unit :=
  let! (testAL, testAR) := for_loop 0 (Z.to_nat rN) (fun i '(testAL, testAR) =>
    let basePow := (2 ^ Z.of_nat i)%Z in
    let! al := idx AL i in
    let testAL := if feqb al f1 then (testAL + basePow)%Z else testAL in
    let! ar := idx AR i in
    let testAR := if feqb ar f0 then (testAR + basePow)%Z else testAR in
    Ok (testAL, testAR)) (0%Z, 0%Z) in
  if negb (Z.eqb testAL v) then Err "[BitCommit(Debug)]: Wrong Value for AL"
  else if negb (Z.eqb testAR v) then Err "[BitCommit(Debug)]: Wrong Value for AL"
  else Ok tt.

Section Range.
Context (R : rist).

(** rangeproof.go:29-42.  (Blinders is never used.) *)
Record proof := mkProof {
  pf_V : list (commitment R); pf_A : pt R; pf_S : pt R; pf_T1 : pt R; pf_T2 : pt R;
  pf_taux : F; pf_mu : F; pf_t : F; pf_ip : option (ipproof R) }.

(** []byte("dusk.BulletProof.vec1"), and the same with uint8(1) appended *)
Definition genData : bytes := str_bytes "dusk.BulletProof.vec1".
Definition genData2 : bytes := genData ++ [x01].

(** pedersen.New(data) followed by BaseVector.Compute(n) *)
Definition ped_computed (data : bytes) (n : nat) : res (pedersen R) :=
  let p := ped_New R data in
  let! g := gen_Compute R n (p_gens R p) in
  Ok (mkPed R g (p_data R p) (p_blind R p) (p_base R p)).

(** ** poly.go *)
(** make([]ristretto.Scalar, n) panics for a negative n *)
Definition make_n (n : Z) : res (list F) := if Z.ltb n 0 then Panic else Ok (make_scalars (Z.to_nat n)).

(** poly.go:159-178; M is read for the size, for M+3 and each time a loop condition is tested *)
Definition sumZMTwoN (z : F) : gres (list F) :=
  let* m1 := getM in
  let* res := glift (make_n (rN * m1)) in
  let* m2 := getM in
  let* zM := glift (ScalarPowers z (Z.to_nat (u32 (m2 + 3)))) in
  let* twoN := glift (ScalarPowers (of_Z 2) (Z.to_nat rN)) in
  gfor 0 (fun i m => Z.ltb (Z.of_nat i) (m * rN)) (fun i res =>
    let* res := glift (set_idx res i f0) in
    gfor 1 (fun j m => Z.leb (Z.of_nat j) m) (fun j res => glift (
      if andb (Nat.leb ((j - 1) * Z.to_nat rN) i) (Nat.ltb i (j * Z.to_nat rN)) then
        let! zj := idx zM (j + 1) in
        let! t := idx twoN (i - (j - 1) * Z.to_nat rN) in
        let! r := idx res i in
        set_idx res i (fadd (fmul zj t) r)
      else Ok res)) res) res.

(** poly.go:13-16 *)
Record polynomial := mkPoly { l0 : list F; l1 : list F; r0 : list F; r1 : list F; t0 : F; t1 : F; t2 : F }.

(** poly.go:18-80 *)
Definition computePoly (aL aR sL sR : list F) (y z : F) : gres polynomial :=
  let* l0 := glift (SubScalar aL z) in
  let l1 := sL in
  let* m := getM in
  let* yNM := glift (ScalarPowers y (NM m)) in
  let* zMTwoN := sumZMTwoN z in
  let* r0 := glift (AddScalar aR z) in
  let* r0 := glift (wrap "[ComputePoly] - r0 (1)" (Hadamard r0 yNM)) in
  let* r0 := glift (wrap "[ComputePoly] - r0 (2)" (Add r0 zMTwoN)) in
  let* r1 := glift (wrap "[ComputePoly] - r1" (Hadamard yNM sR)) in
  let* t0 := glift (wrap "[ComputePoly] - t0" (InnerProduct l0 r0)) in
  let* t1Left := glift (wrap "[ComputePoly] - t1Left" (InnerProduct l1 r0)) in
  let* t1Right := glift (wrap "[ComputePoly] - t1Right" (InnerProduct l0 r1)) in
  let t1 := fadd t1Left t1Right in
  let* t2 := glift (wrap "[ComputePoly] - t2" (InnerProduct l1 r1)) in
  glift (Ok (mkPoly l0 l1 r0 r1 t0 t1 t2)).

(** poly.go:84-100 *)
Definition poly_eval (p : polynomial) (x : F) : F :=
  fadd (fadd (fmul x (t1 p)) (fmul (fmul x x) (t2 p))) (t0 p).
(** poly.go:103-114 and 117-127 *)
Definition computeL (p : polynomial) (x : F) : res (list F) :=
  let! lRight := MulScalar (l1 p) x in wrap "[ComputeL]" (Add (l0 p) lRight).
Definition computeR (p : polynomial) (x : F) : res (list F) :=
  let! rRight := MulScalar (r1 p) x in wrap "[computeR]" (Add (r0 p) rRight).

(** poly.go:203-233; n*m is a uint32 product *)
Definition computeDelta (y z : F) (n m : Z) : res F :=
  let! sumY := ScalarPowersSum y (Z.to_nat (u32 (n * m))) in
  let! sumZ := ScalarPowersSum z (Z.to_nat m) in
  let! sum2 := ScalarPowersSum (of_Z 2) (Z.to_nat n) in
  let zsq := fmul z z in
  let zcu := fmul z zsq in
  let resA := fmul (fsub z zsq) sumY in
  let resB := fmul (fmul sum2 sumZ) zcu in
  Ok (fsub resA resB).

(** poly.go:129-153 *)
Definition computeT0 (y z : F) (v : list F) (n m : Z) : res F :=
  let! delta := computeDelta y z n m in
  let zSq := fmul z z in
  let! zM := ScalarPowers z (Z.to_nat (u32 (Z.of_nat (length v)))) in
  let! zM := MulScalar zM zSq in
  let! sumZmV := for_loop 0 (length v) (fun i acc =>
    let! zi := idx zM i in let! vi := idx v i in Ok (fadd (fmul zi vi) acc)) f0 in
  Ok (fadd delta sumZmV).

(** ** debug.go *)
(** debug.go:174-182 *)
Definition debugsizeOfV (v : Z) : bool := Z.ltb v (2 ^ rN - 1).

(** rangeproof.go:295-320: y^-i is computed over the integers and reduced by SetBigInt *)
Definition computeHprime (H : list (pt R)) (y : F) : res (list (pt R)) :=
  let yInv := finv y in
  let invYInt := to_Z yInv in
  for_loop 0 (length H) (fun i Hprimes =>
    let! p := idx H i in
    Ok (Hprimes ++ [smul R (of_Z (invYInt ^ Z.of_nat i)) p])) [].

(** debug.go:68-110; an error of vector.Exp is returned with false *)
Definition debugLxG (l : list F) (x z : F) (aL sL : list F) : gres bool :=
  let* m := getM in
  let* ped := glift (ped_computed genData (NM m)) in
  let G := g_bases R (p_gens R ped) in
  let* m := getM in
  let* lG := glift (wrap "<l(x), G>" (Exp R l G rN m)) in
  let* m := getM in
  let* aLG := glift (wrap "<aL,G>" (Exp R aL G rN m)) in
  let* m := getM in
  let* sLG := glift (wrap "x<sL, G>" (Exp R sL G rN m)) in
  let xsLG := smul R x sLG in
  let* m := getM in
  let* zs := glift (FromScalar (fneg z) (NM m)) in
  let* m := getM in
  let* zNegG := glift (wrap "<-z1, G>" (Exp R zs G rN m)) in
  let rhs := padd R (padd R aLG xsLG) zNegG in
  glift (Ok (peqb R lG rhs)).

(** debug.go:112-172 *)
Definition debugRxHPrime (r : list F) (x y z : F) (aR sR : list F) : gres bool :=
  let* m := getM in
  let* ped2 := glift (ped_computed genData2 (NM m)) in
  let H := g_bases R (p_gens R ped2) in
  let* Hprime := glift (computeHprime H y) in
  let* m := getM in
  let* rH := glift (wrap "<r(x), H'>" (Exp R r Hprime rN m)) in
  let* m := getM in
  let* aRH := glift (wrap "<aR,H>" (Exp R aR H rN m)) in
  let* m := getM in
  let* sRH := glift (wrap "x<sR, H>" (Exp R sR H rN m)) in
  let xsRH := smul R x sRH in
  let* m := getM in
  let* yNM := glift (ScalarPowers y (NM m)) in
  let* zMulYn := glift (MulScalar yNM z) in
  let* m := getM in
  let* p := glift (wrap "<z*y^nm , H'>" (Exp R zMulYn Hprime rN m)) in
  let* zz := sumZMTwoN z in
  let* m := getM in
  let* k := glift (wrap "k = sum()..." (Exp R zz Hprime rN m)) in
  let rhs := padd R (padd R (padd R aRH xsRH) p) k in
  glift (Ok (peqb R rH rhs)).

(** debug.go:15-36.  When a comparison fails, errors.Wrap(nil, ..) is nil, so debugProve
    returns no error (debug.go:17-25); an error of Exp is wrapped and returned. *)
Definition debugProve (x y z : F) (v l r aL aR sL sR : list F) : gres unit :=
  let* ok := gwrap "[DEBUG]: <l(x), G> is constructed incorrectly" (debugLxG l x z aL sL) in
  if negb ok then glift (Ok tt)
  else
    let* ok := gwrap "[DEBUG]: <r(x), H'> is constructed incorrectly" (debugRxHPrime r x y z aR sR) in
    if negb ok then glift (Ok tt)
    else glift (for_loop 0 (length v) (fun i u =>
      let! vi := idx v i in
      if negb (debugsizeOfV (to_Z vi)) then Err "[DEBUG]: Value v is more than 2^N - 1" else Ok u) tt).

(** debug.go:40-66 *)
Definition debugT0 (aL aR : list F) (y z : F) : gres F :=
  let* aLMinusZ := glift (SubScalar aL z) in
  let* aRPlusZ := glift (AddScalar aR z) in
  let* m := getM in
  let* yNM := glift (ScalarPowers y (NM m)) in
  let* hada := glift (Hadamard yNM aRPlusZ) in
  let* zMTwoN := sumZMTwoN z in
  let* rightIP := glift (Add zMTwoN hada) in
  glift (InnerProduct aLMinusZ rightIP).

(** ** rangeproof.go *)
(** rangeproof.go:237-246 *)
Definition computeYAndZ (hs : cacher) : F * F :=
  let y := sderive R (hc_Result hs) in
  let z := sderive R (sbytes R y) in
  (y, z).
(** rangeproof.go:248-252 *)
Definition computeX (hs : cacher) : F := sderive R (hc_Result hs).

(** rangeproof.go:254-281 *)
Definition computeTaux (x z t1Blind t2Blind : F) (vBlinds : list (commitment R)) : res F :=
  let tau1X := fmul x t1Blind in
  let xsq := fmul x x in
  let tau2Xsq := fmul xsq t2Blind in
  let! (_, zNBlindSum) := for_loop 0 (length vBlinds) (fun i '(zN, sum) =>
    let! c := idx vBlinds i in
    Ok (fmul zN z, fadd (fmul zN (c_blind R c)) sum)) (fmul z z, f0) in
  Ok (fadd (fadd tau1X tau2Xsq) zNBlindSum).

(** rangeproof.go:283-293 *)
Definition computeMu (x alpha rho : F) : F := fadd (fmul rho x) alpha.

(** rangeproof.go:219-230: sL_i and sR_i are drawn alternately; [rs] starts at the first.  M is read for
    the two sizes and each time the loop condition is tested *)
Definition drawS (rs : nat -> F) : gres (list F * list F) :=
  let* m1 := getM in
  let* sL := glift (make_n (rN * m1)) in
  let* m2 := getM in
  let* sR := glift (make_n (rN * m2)) in
  gfor 0 (fun i m => Z.ltb (Z.of_nat i) (rN * m)) (fun i '(sL, sR) => glift (
    let! sL := set_idx sL i (rs (2 * i)%nat) in
    let! sR := set_idx sR i (rs (2 * i + 1)%nat) in
    Ok (sL, sR))) (sL, sR).

(** the checks made in debug mode (rangeproof.go:140-167) *)
Definition debugChecks (x y z t : F) (v l r aLs aRs sL sR : list F) (poly : polynomial) : gres unit :=
  let* _ := gwrap "[Prove] - debugProve" (debugProve x y z v l r aLs aRs sL sR) in
  let* testT0 := gwrap "[Prove] - testT0" (debugT0 aLs aRs y z) in
  if negb (feqb testT0 (t0 poly)) then
    glift (Err "[Prove]: Test t0 value does not match the value calculated from the polynomial")
  else
    let* m := getM in
    let* polyt0 := glift (computeT0 y z v rN (u32 m)) in
    if negb (feqb polyt0 (t0 poly)) then
      glift (Err "[Prove]: t0 value from delta function, does not match the polynomial t0 value(Correct)")
    else if negb (feqb t (poly_eval poly x)) then
      glift (Err "[Prove]: The t value computed from the t-poly, does not match the t value computed from the inner product of l and r")
    else glift (Ok tt).

(** rangeproof.go:65-207, for the padded values, with computeA (211-216) and computeS
    (219-235).  Draws: one blinding factor per value, the blinding factor of A, then sL and sR,
    then the blinding factors of S, T1 and T2. *)
Definition prove_padded (v : list F) (debug : bool) (rs : nat -> F) : gres proof :=
  let* m := getM in
  let* ped := glift (ped_computed genData (NM m)) in
  (* commitments *)
  let* (Vs, hs) := glift (for_loop 0 (length v) (fun i '(Vs, hs) =>
    let! amount := idx v i in
    let V := CommitToScalar R ped (rs i) amount in
    Ok (Vs ++ [V], hc_Append hs [pbytes R (c_val R V)])) ([], ([] : cacher))) in
  let n1 := length v in
  let* (aLs, aRs) := glift (for_loop 0 (length v) (fun i '(aLs, aRs) =>
    let! vi := idx v i in
    let! (AL, AR) := BitCommit (to_Z vi) in
    Ok (aLs ++ AL, aRs ++ AR)) ([], [])) in
  (* A and S *)
  let* (ped, A) := glift (CommitToVectors R ped (rs n1) [aLs; aRs]) in
  let* (sL, sR) := drawS (fun i => rs (n1 + 1 + i)%nat) in
  let n2 := (n1 + 1 + (length sL + length sR))%nat in
  let* (ped, cS) := glift (CommitToVectors R ped (rs n2) [sL; sR]) in
  let hs := hc_Append hs [pbytes R (c_val R A); pbytes R (c_val R cS)] in
  let (y, z) := computeYAndZ hs in
  let* poly := gwrap "[Prove] - poly" (computePoly aLs aRs sL sR y z) in
  let T1 := CommitToScalar R ped (rs (n2 + 1)%nat) (t1 poly) in
  let T2 := CommitToScalar R ped (rs (n2 + 2)%nat) (t2 poly) in
  let hs := hc_Append hs [sbytes R z; pbytes R (c_val R T1); pbytes R (c_val R T2)] in
  let x := computeX hs in
  let* taux := glift (computeTaux x z (c_blind R T1) (c_blind R T2) Vs) in
  let mu := computeMu x (c_blind R A) (c_blind R cS) in
  let* l := glift (wrap "[Prove] - l" (computeL poly x)) in
  let* r := glift (wrap "[Prove] - r" (computeR poly x)) in
  let* t := glift (wrap "[Prove] - t" (InnerProduct l r)) in
  let* _ := (if debug then debugChecks x y z t v l r aLs aRs sL sR poly else glift (Ok tt)) in
  if orb (orb (feqb x f0) (feqb y f0)) (feqb z f0) then
    glift (Err "[Prove] - One of the challenge scalars, x, y, or z was equal to zero. Generate proof again")
  else
    let hs := hc_Append hs [sbytes R x; sbytes R taux; sbytes R mu; sbytes R t] in
    let w := hc_Derive R hs in
    let Q := smul R w (p_base R ped) in
    let yinv := finv y in
    let* m := getM in
    let* Hpf := glift (ScalarPowers yinv (NM m)) in
    let* m := getM in
    let* ped2 := glift (ped_computed genData2 (NM m)) in
    let H := g_bases R (p_gens R ped2) in
    let G := g_bases R (p_gens R ped) in
    let* ip := glift (wrap "[Prove] -  ipproof" (Generate R G H l r Hpf Q)) in
    glift (Ok (mkProof Vs (c_val R A) (c_val R cS) (c_val R T1) (c_val R T2) taux mu t (Some ip))).

(** rangeproof.go:45-208 *)
Definition Prove (v : list F) (debug : bool) (rs : nat -> F) : gres proof :=
  if Nat.ltb (length v) 1 then glift (Err "length of slice v is zero")
  else
    let* _ := setM (Z.of_nat (length v)) in
    let* m := getM in
    if Z.ltb maxM m then glift (Err "maximum amount of values must be less than 16")
    else
      let* m := getM in
      let padAmount := DiffNextPow2 (u32 m) in
      let* m := getM in
      let* _ := setM (m + padAmount)%Z in
      prove_padded (v ++ repeat f0 (Z.to_nat padAmount)) debug rs.

(** rangeproof.go:353-493; [c] is the verifier's random scalar *)
Definition megacheckWithC (c : F) (ipproof : option (ipproof R)) (mu x y z t taux w : F) (A G H pS T1 T2 : pt R)
    (GVec HVec : list (pt R)) (V : list (commitment R)) : gres bool :=
  match ipproof with
  | None => glift Panic      (* VerifScalars dereferences the nil pointer *)
  | Some ip =>
    let* (uSq, uInvSq, s) := glift (VerifScalars R ip) in
    let* sInv := glift (reverse_in_place s) in
    let* as_ := glift (MulScalar s (ip_A R ip)) in
    let* g := glift (AddScalar as_ z) in
    let* g := glift (MulScalar g c) in
    let* c1 := glift (Exp R g GVec (Z.of_nat (length GVec)) 1) in
    let* bs := glift (MulScalar sInv (ip_B R ip)) in
    let* zAnd2 := sumZMTwoN z in
    let* h := glift (wrap "[h1]" (Sub bs zAnd2)) in
    let yinv := finv y in
    let* m := getM in
    let* Hpf := glift (ScalarPowers yinv (NM m)) in
    let* h := glift (wrap "[h2]" (Hadamard h Hpf)) in
    let* h := glift (SubScalar h z) in
    let* h := glift (MulScalar h c) in
    let* c2 := glift (Exp R h HVec (Z.of_nat (length HVec)) 1) in
    let* m := getM in
    let* delta := glift (computeDelta y z rN (u32 m)) in
    let tMinusDelta := fsub t delta in
    let abMinusT := fsub (fmul (ip_A R ip) (ip_B R ip)) t in
    let cw := fmul c w in
    let gBP := fadd (fmul cw abMinusT) tMinusDelta in
    let c3 := smul R gBP G in
    let cmu := fmul mu c in
    let hBP := fadd cmu taux in
    let c4 := smul R hBP H in
    let c5 := smul R c A in
    let cx := fmul c x in
    let c6 := smul R cx pS in
    let* c7 := glift (Exp R uSq (ip_L R ip) (Z.of_nat (length (ip_L R ip))) 1) in
    let c7 := smul R c c7 in
    let* c8 := glift (Exp R uInvSq (ip_R R ip) (Z.of_nat (length (ip_R R ip))) 1) in
    let c8 := smul R c c8 in
    let* m := getM in
    let* zM := glift (ScalarPowers z (Z.to_nat (u32 m))) in
    let zSq := fmul z z in
    let* zM := glift (MulScalar zM zSq) in
    let* c9 := glift (for_loop 0 (length zM) (fun i c9 =>
      let! Vi := idx V i in let! zi := idx zM i in
      Ok (padd R c9 (smul R zi (c_val R Vi)))) (pt0 R)) in
    let c10 := smul R x T1 in
    let xSq := fmul x x in
    let c11 := smul R xSq T2 in
    let sum := padd R c1 c2 in
    let sum := padd R sum c3 in
    let sum := padd R sum c4 in
    let sum := psub R sum c5 in
    let sum := psub R sum c6 in
    let sum := psub R sum c7 in
    let sum := psub R sum c8 in
    let sum := psub R sum c9 in
    let sum := psub R sum c10 in
    let sum := psub R sum c11 in
    if negb (peqb R (pt0 R) sum) then glift (Err "megacheck failed")
    else glift (Ok true)
  end.

(** the transcript of Verify (rangeproof.go:336-348): y, z, x, w *)
Definition verify_challenges (p : proof) : F * F * F * F :=
  let hs := fold_left (fun hs V => hc_Append hs [pbytes R (c_val R V)]) (pf_V p) ([] : cacher) in
  let hs := hc_Append hs [pbytes R (pf_A p); pbytes R (pf_S p)] in
  let (y, z) := computeYAndZ hs in
  let hs := hc_Append hs [sbytes R z; pbytes R (pf_T1 p); pbytes R (pf_T2 p)] in
  let x := computeX hs in
  let hs := hc_Append hs [sbytes R x; sbytes R (pf_taux p); sbytes R (pf_mu p); sbytes R (pf_t p)] in
  let w := hc_Derive R hs in
  (y, z, x, w).

(** rangeproof.go:322-351 *)
Definition Verify (c : F) (p : proof) : gres bool :=
  let* m := getM in
  let* ped := glift (ped_computed genData (NM m)) in
  let* m := getM in
  let* ped2 := glift (ped_computed genData2 (NM m)) in
  let G := g_bases R (p_gens R ped) in
  let H := g_bases R (p_gens R ped2) in
  let '(y, z, x, w) := verify_challenges p in
  megacheckWithC c (pf_ip p) (pf_mu p) x y z (pf_t p) (pf_taux p) w (pf_A p) (p_base R ped) (p_blind R ped)
    (pf_S p) (pf_T1 p) (pf_T2 p) G H (pf_V p).

(** rangeproof.go:495-534; a nil IPProof panics in its Encode, after the rest was written *)
Definition pf_chunks (p : proof) (includeCommits : bool) : list bytes :=
  (if includeCommits then coms_chunks R (pf_V p) else []) ++
  [pbytes R (pf_A p); pbytes R (pf_S p); pbytes R (pf_T1 p); pbytes R (pf_T2 p);
   sbytes R (pf_taux p); sbytes R (pf_mu p); sbytes R (pf_t p)].
Definition pf_Encode (p : proof) (includeCommits : bool) : writer -> res unit * writer :=
  w_seq (w_each w_write (pf_chunks p includeCommits))
    (match pf_ip p with None => fun w => (Panic, w) | Some ip => ipp_Encode R ip end).

(** rangeproof.go:628-639 and 640-648 *)
Definition readerToPoint : rprog (res (pt R)) :=
  let? x := r_bytes 32 in
  match pset R x with Some p => rret p | None => rerr "point not encodable" end.
Definition readerToScalar : rprog (res F) :=
  let? x := r_bytes 32 in rret (sset R x).

(** rangeproof.go:536-581 for a non-nil receiver: result is the decoded proof (for
    the receiver after an error see RecvModel.v).  The
    commitments of the receiver are kept when they are not decoded. *)
Definition pf_Decode (p : proof) (includeCommits : bool) : rprog (res proof) :=
  let? V := (if includeCommits then DecodeCommitments R else rret (pf_V p)) in
  let? A := readerToPoint in
  let? pS := readerToPoint in
  let? T1 := readerToPoint in
  let? T2 := readerToPoint in
  let? taux := readerToScalar in
  let? mu := readerToScalar in
  let? t := readerToScalar in
  rbind (ipp_Decode R (mkIPP R [] [] f0 f0)) (fun '(ip, r) =>
    match r with
    | Ok _ => rret (mkProof V A pS T1 T2 taux mu t (Some ip))
    | Err e => rerr e
    | Panic => RRet Panic
    end).

(** rangeproof.go:583-626 *)
Definition pf_Equals (p other : proof) (includeCommits : bool) : res bool :=
  if andb (negb (Nat.eqb (length (pf_V p)) (length (pf_V other)))) includeCommits then Ok false
  else
    let! ok := for_loop 0 (length (pf_V p)) (fun i (ok : bool) =>
      if ok then
        let! a := idx (pf_V p) i in let! b := idx (pf_V other) i in Ok (EqualValue R a b)
      else Ok false) true in
    if negb ok then Ok false
    else if negb (peqb R (pf_A p) (pf_A other)) then Ok false
    else if negb (peqb R (pf_S p) (pf_S other)) then Ok false
    else if negb (peqb R (pf_T1 p) (pf_T1 other)) then Ok false
    else if negb (peqb R (pf_T2 p) (pf_T2 other)) then Ok false
    else if negb (feqb (pf_taux p) (pf_taux other)) then Ok false
    else if negb (feqb (pf_mu p) (pf_mu other)) then Ok false
    else if negb (feqb (pf_t p) (pf_t other)) then Ok false
    else Ok true.
End Range.
