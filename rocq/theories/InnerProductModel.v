(** Model of rangeproof/innerproduct/innerproduct.go *)
From Coq Require Import String ZArith List Arith.
From Verif Require Import GoModel ReadModel Fld Rist VectorModel PedersenModel.
Import ListNotations.
Local Open Scope string_scope.
Local Open Scope list_scope.

(** innerproduct.go:491-499; uint is 64 bits wide *)
Definition nextPow2 (n : Z) : Z :=
  let n := u64 (n - 1) in
  let n := Z.lor n (Z.shiftr n 1) in
  let n := Z.lor n (Z.shiftr n 2) in
  let n := Z.lor n (Z.shiftr n 4) in
  let n := Z.lor n (Z.shiftr n 8) in
  let n := Z.lor n (Z.shiftr n 16) in
  n.

(** innerproduct.go:501-503 *)
Definition isPower2 (n : Z) : bool := Z.eqb (Z.land n (u32 (n - 1))) 0.

(** innerproduct.go:507-511 *)
Definition DiffNextPow2 (n : Z) : Z := u32 (u32 (u32 (nextPow2 n) - n) + 1).

Section IPP.
Context (R : rist).

(** innerproduct.go:18-21 *)
Record ipproof := mkIPP { ip_L : list (pt R); ip_R : list (pt R); ip_A : F; ip_B : F }.

(** "x, y, err := Split(...)" where err is overwritten before it is looked at: on failure
    both halves are nil *)
Definition split_ignore {A} (x : list A) (n : Z) : list A * list A :=
  match Split x n with Ok p => p | _ => ([], []) end.

(** "for i := range v { v[i].Mul(&v[i], &factors[i+off]) }" (lines 78-80, 107-109) *)
Definition mul_factors (v factors : list F) (off : nat) : res (list F) :=
  for_loop 0 (length v) (fun i v =>
    let! x := idx v i in let! f := idx factors (i + off) in set_idx v i (fmul x f)) v.

(** the folding loop of lines 134-153 (first round); the first components are updated in place *)
Definition fold_first (n : nat) (u uinv : F) (factors : list F) (aL aR bL bR : list F) (GL GR HL HR : list (pt R))
  : res (list F * list F * list (pt R) * list (pt R)) :=
  for_loop 0 n (fun i '(aL, bL, GL, HL) =>
    let! aLi := idx aL i in let! aRi := idx aR i in
    let! aL := set_idx aL i (fadd (fmul aLi u) (fmul aRi uinv)) in
    let! bLi := idx bL i in let! bRi := idx bR i in
    let! bL := set_idx bL i (fadd (fmul bLi uinv) (fmul bRi u)) in
    let! GLi := idx GL i in let! GRi := idx GR i in
    let! GL := set_idx GL i (padd R (smul R uinv GLi) (smul R u GRi)) in
    let! fi := idx factors i in
    let! HLi := idx HL i in
    let! fin := idx factors (i + n) in
    let! HRi := idx HR i in
    let! HL := set_idx HL i (padd R (smul R (fmul fi u) HLi) (smul R (fmul fin uinv) HRi)) in
    Ok (aL, bL, GL, HL)) (aL, bL, GL, HL).

(** the folding loop of lines 232-249 (further rounds) *)
Definition fold_next (n : nat) (u uinv : F) (aL aR bL bR : list F) (GL GR HL HR : list (pt R))
  : res (list F * list F * list (pt R) * list (pt R)) :=
  for_loop 0 n (fun i '(aL, bL, GL, HL) =>
    let! aLi := idx aL i in let! aRi := idx aR i in
    let! aL := set_idx aL i (fadd (fmul aLi u) (fmul aRi uinv)) in
    let! bLi := idx bL i in let! bRi := idx bR i in
    let! bL := set_idx bL i (fadd (fmul bLi uinv) (fmul bRi u)) in
    let! GLi := idx GL i in let! GRi := idx GR i in
    let! GL := set_idx GL i (padd R (smul R uinv GLi) (smul R u GRi)) in
    let! HLi := idx HL i in let! HRi := idx HR i in
    let! HL := set_idx HL i (padd R (smul R u HLi) (smul R uinv HRi)) in
    Ok (aL, bL, GL, HL)) (aL, bL, GL, HL).

(** state of Generate between rounds *)
Record gstate := mkG { g_a : list F; g_b : list F; g_G : list (pt R); g_H : list (pt R);
                       g_hs : cacher; g_L : list (pt R); g_R : list (pt R) }.

(** innerproduct.go:50-159, [n] already halved (line 51) *)
Definition round_first (n : Z) (factors : list F) (Q : pt R) (st : gstate) : res gstate :=
  let (aL, aR) := split_ignore (g_a st) n in
  let (bL, bR) := split_ignore (g_b st) n in
  let (GL, GR) := split_ignore (g_G st) n in
  let (HL, HR) := split_ignore (g_H st) n in
  let cL := match InnerProduct aL bR with Ok c => c | _ => f0 end in
  let! cR := InnerProduct aR bL in
  let! e1 := Exp R aL GR n 1 in
  let! bRYi := mul_factors bR factors 0 in
  let! e2 := Exp R bRYi HL n 1 in
  let L := padd R (padd R e1 e2) (smul R cL Q) in
  let! e4 := Exp R aR GL n 1 in
  let! bLYi := mul_factors bL factors (Z.to_nat n) in
  let! e5 := Exp R bLYi HR n 1 in
  let Rp := padd R (padd R e4 e5) (smul R cR Q) in
  let hs := hc_Append (g_hs st) [pbytes R L; pbytes R Rp] in
  let u := hc_Derive R hs in
  let uinv := finv u in
  let! (a, b, G, H) := fold_first (Z.to_nat n) u uinv factors aL aR bL bR GL GR HL HR in
  Ok (mkG a b G H hs (g_L st ++ [L]) (g_R st ++ [Rp])).

(** innerproduct.go:163-254, one iteration, [n] already halved (line 163) *)
Definition round_next (n : Z) (Q : pt R) (st : gstate) : res gstate :=
  let (aL, aR) := split_ignore (g_a st) n in
  let (bL, bR) := split_ignore (g_b st) n in
  let (GL, GR) := split_ignore (g_G st) n in
  let (HL, HR) := split_ignore (g_H st) n in
  let! cL := InnerProduct aL bR in
  let! cR := InnerProduct aR bL in
  let! e1 := Exp R aL GR n 1 in
  let! e2 := Exp R bR HL n 1 in
  let L := padd R (padd R e1 e2) (smul R cL Q) in
  let! e4 := Exp R aR GL n 1 in
  let! e5 := Exp R bL HR n 1 in
  let Rp := padd R (padd R e4 e5) (smul R cR Q) in
  let hs := hc_Append (g_hs st) [pbytes R L; pbytes R Rp] in
  let u := hc_Derive R hs in
  let uinv := finv u in
  let! (a, b, G, H) := fold_next (Z.to_nat n) u uinv aL aR bL bR GL GR HL HR in
  Ok (mkG a b G H hs (g_L st ++ [L]) (g_R st ++ [Rp])).

(** innerproduct.go:161-255: "for n > 1"; n is a uint32, so 32 iterations always suffice
    and the out-of-fuel result is never reached *)
Fixpoint rounds (fuel : nat) (n : Z) (Q : pt R) (st : gstate) : res gstate :=
  if Z.ltb 1 n then
    match fuel with
    | O => Panic
    | S f => let n := (n / 2)%Z in let! st := round_next n Q st in rounds f n Q st
    end
  else Ok st.

(** x[len(x)-1] *)
Definition last_elem {A} (x : list A) : res A :=
  match length x with O => Panic | S k => idx x k end.

(** innerproduct.go:25-263.  (lgN on line 45 is only a capacity hint; the inputs are copied
    first, so working on values is exact.) *)
Definition Generate (GVec HVec : list (pt R)) (aVec bVec HprimeFactors : list F) (Q : pt R) : res ipproof :=
  let n := u32 (Z.of_nat (length GVec)) in
  if negb (isPower2 n) then Err "[IPProof]: size of n (NM) is not a power of 2"
  else
    let st := mkG aVec bVec GVec HVec [] [] [] in
    let! st := (if negb (Z.eqb n 1) then round_first (n / 2) HprimeFactors Q st else Ok st) in
    let n := if negb (Z.eqb n 1) then (n / 2)%Z else n in
    let! st := rounds 32 n Q st in
    let! A := last_elem (g_a st) in
    let! B := last_elem (g_b st) in
    Ok (mkIPP (g_L st) (g_R st) A B).

(** innerproduct.go:267-336; None stands for the three nil slices *)
Definition VerifScalars (p : ipproof) : res (list F * list F * list F) :=
  if negb (Nat.eqb (length (ip_L p)) (length (ip_R p))) then Ok ([], [], [])
  else
    let lgN := length (ip_L p) in
    let n := u32 (2 ^ Z.of_nat lgN) in
    (* 1. *)
    let! (_, xChals) := for_loop 0 lgN (fun k '(hs, xChals) =>
      let! l := idx (ip_L p) k in let! r := idx (ip_R p) k in
      let hs := hc_Append hs [pbytes R l; pbytes R r] in
      Ok (hs, xChals ++ [hc_Derive R hs])) (([] : cacher), []) in
    (* 2. *)
    let! (invProd, invXChals) := for_loop 0 (length xChals) (fun k '(invProd, invXChals) =>
      let! x := idx xChals k in
      let xinv := finv x in
      Ok (fmul invProd xinv, invXChals ++ [xinv])) (f1, []) in
    (* 3. *)
    let! (chalSq, invChalSq) := for_loop 0 (length xChals) (fun k '(chalSq, invChalSq) =>
      let! x := idx xChals k in let! y := idx invXChals k in
      Ok (chalSq ++ [fmul x x], invChalSq ++ [fmul y y])) ([], []) in
    (* 4. *)
    let! s := for_loop 1 (Z.to_nat n - 1) (fun i s =>
      let lgI := Nat.log2 i in
      let k := Nat.pow 2 lgI in
      let! uLgISq := (if Nat.leb lgI (lgN - 1) then idx chalSq (lgN - 1 - lgI) else Panic) in
      let! sik := idx s (i - k) in
      Ok (s ++ [fmul sik uLgISq])) [invProd] in
    Ok (chalSq, invChalSq, s).

(** innerproduct.go:346-348: swapping loop *)
Definition reverse_in_place (s : list F) : res (list F) :=
  for_loop 0 (length s / 2) (fun i s =>
    let j := length s - 1 - i in
    let! x := idx s i in let! y := idx s j in
    let! s := set_idx s i y in set_idx s j x) s.

(** innerproduct.go:339-391 (the parameters L and R of the method are unused) *)
Definition ipp_Verify (p : ipproof) (G H : list (pt R)) (HprimeFactor : list F) (Q P : pt R) (n : Z) : res bool :=
  let! (uSq, uInvSq, s) := VerifScalars p in
  let! sInv := reverse_in_place s in
  let! aTimesS := MulScalar s (ip_A p) in
  let! hTimesbDivS := MulScalar sInv (ip_B p) in
  let! hTimesbDivS := mul_factors hTimesbDivS HprimeFactor 0 in
  let! negUSq := loop1 fneg uSq in
  let! negUInvSq := loop1 fneg uInvSq in
  let scalars := fmul (ip_A p) (ip_B p) :: aTimesS ++ hTimesbDivS ++ negUSq ++ negUInvSq in
  let points := Q :: G ++ H ++ ip_L p ++ ip_R p in
  match Exp R scalars points n 1 with
  | Ok have => Ok (peqb R have P)
  | Err _ => Ok false
  | Panic => Panic
  end.

(** innerproduct.go:394-417: the chunks written; [proof.R[i]] panics when R is shorter *)
Fixpoint lr_chunks (L Rs : list (pt R)) : list bytes :=
  match L, Rs with
  | l :: L', r :: R' => pbytes R l :: pbytes R r :: lr_chunks L' R'
  | _, _ => []
  end.
Definition ipp_chunks (p : ipproof) : list bytes :=
  sbytes R (ip_A p) :: sbytes R (ip_B p) :: lr_chunks (ip_L p) (ip_R p).
(** when R is shorter than L: the left point of the first unpaired round is written, then
    proof.R[i] panics *)
Definition ipp_Encode (p : ipproof) (w : writer) : res unit * writer :=
  if Nat.leb (length (ip_L p)) (length (ip_R p)) then w_each w_write (ipp_chunks p) w
  else
    let k := length (ip_R p) in
    w_seq (w_each w_write (ipp_chunks p ++ match nth_error (ip_L p) k with Some l => [pbytes R l] | None => [] end))
      (fun w => (Panic, w)) w.

(** what SetBytes leaves in a point: the decoded point, or junk when it returns false
    (the return value is ignored, lines 461-462) *)
Definition pset_ignore (b : bytes) : pt R := match pset R b with Some p => p | None => pjunk R b end.

(** lines 451-463: the buffer [buf] holds a multiple of 32 bytes *)
Fixpoint lr_decode (lenL : nat) (buf : bytes) : list (pt R) * list (pt R) :=
  match lenL with
  | O => ([], [])
  | S k =>
    let (Ls, Rs) := lr_decode k (skipn 64 buf) in
    (pset_ignore (firstn 32 buf) :: Ls, pset_ignore (firstn 32 (skipn 32 buf)) :: Rs)
  end.

(** innerproduct.go:420-466 for a non-nil receiver; returns the receiver as well, because
    A and B are assigned before later errors *)
Definition ipp_Decode (p : ipproof) : rprog (ipproof * res unit) :=
  rbind (r_bytes 32) (fun a => match a with
  | Err e => RRet (p, Err e) | Panic => RRet (p, Panic)
  | Ok ABytes =>
    rbind (r_bytes 32) (fun b => match b with
    | Err e => RRet (p, Err e) | Panic => RRet (p, Panic)
    | Ok BBytes =>
      let p := mkIPP (ip_L p) (ip_R p) (sset R ABytes) (sset R BBytes) in
      RAll (fun buf => match buf with
      | Err e => RRet (p, Err e) | Panic => RRet (p, Panic)
      | Ok buf =>
        let numBytes := length buf in
        if negb (Nat.eqb (numBytes mod 32) 0) then RRet (p, Err "proof was not formatted correctly")
        else
          let lenL := u32 (Z.of_nat (numBytes / 64)) in
          RAlloc lenL (RAlloc lenL (
            let (Ls, Rs) := lr_decode (Z.to_nat lenL) buf in
            RRet (mkIPP Ls Rs (ip_A p) (ip_B p), Ok tt)))
      end) end) end).

(** innerproduct.go:478-486 *)
Fixpoint lr_equals (L Rs oL oR : list (pt R)) (i : nat) (n : nat) : res bool :=
  match n with
  | O => Ok true
  | S k =>
    let! l := idx L i in let! ol := idx oL i in
    if negb (peqb R l ol) then Ok false
    else
      let! r := idx Rs i in let! or := idx oR i in
      if negb (peqb R r or) then Ok false else lr_equals L Rs oL oR (S i) k
  end.
(** innerproduct.go:469-489 *)
Definition ipp_Equals (p other : ipproof) : res bool :=
  if negb (feqb (ip_A p) (ip_A other)) then Ok false
  else if negb (feqb (ip_B p) (ip_B other)) then Ok false
  else lr_equals (ip_L p) (ip_R p) (ip_L other) (ip_R other) 0 (length (ip_L p)).
End IPP.
