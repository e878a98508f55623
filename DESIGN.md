# Formal model of dusk-network/dusk-crypto in Rocq (Coq 8.16.1)

## 1. Approach

The repository is read as text; each Go function is transcribed as a total Gallina
function in a `*Model.v` file, with a comment citing file and lines.  Proofs live in
`*Facts.v` files, specifications in `Spec*.v`, and the property theorems (statement,
`exact lemma`, `Print Assumptions`) in `P_*.v` files.

Conventions of the model

* Go `(T, error)` results, run-time panics (index out of range, nil dereference) are
  values of `res T := Ok v | Err msg | Panic`.
* A slice is a list; where aliasing matters (Merkle hash slices, BLS points, MLSAG decoy
  vectors) an explicit heap is used instead.
* Every external source of non-determinism is a universally quantified argument:
  `Scalar.Rand` is a stream of scalars, `rand.Intn` a stream of draws, readers are lists
  of chunks/faults, writers carry a plan of failures, goroutine interleavings are step lists.
* External cryptography: scalars are the concrete field Z/l (l = 2^252+27742...; primality
  is proved in `Prime.v`); ristretto points, hash functions and codecs of points are a
  record `rist` of operations with a record `rist_ok` of laws; the bn256 pairing groups
  are a record `bn` with laws `bn_ok`.  Both records are explicit arguments of every
  theorem and are instantiated (so the laws are satisfiable) in `RistInst.v`/`BnInst.v`.

## 2. Plan per property (see properties.jsonl)

| property | model | proof |
|---|---|---|
| C01-C02 hash | `HashModel.v`: writer oracle, digest oracle, entropy oracle | case analysis; big-endian lemmas |
| C03-C10 merkle | `MerkleModel.v`: heap of nodes, fuelled `createIntermediate` | heap-to-tree abstraction, induction on levels, collision extraction |
| C11 merkle aliasing | `SliceModel.v`: byte arrays + (array, off, len, cap) slices | case analysis on capacity |
| C12-C15 vector | `VectorModel.v` | list induction |
| C16-C21 generator, pedersen, fiat-shamir | `PedersenModel.v` | list induction, module algebra |
| C22 pow2 | `InnerProductModel.v` over Z with explicit 32/64-bit wrap | bit-level lemma |
| C23-C28 inner product | `InnerProductModel.v` | induction on the number of rounds, folding invariant |
| C29-C39 range proof | `RangeProofModel.v`, global M as explicit state (`GlobModel.v`) | polynomial identities + C23; state machine for M; step model for concurrency |
| C40-C50, C68 mlsag | `MlsagModel.v`, `MlsagSessions.v`, `MlsagHeap.v` | induction on the ring; heap model for decoy aliasing |
| C51-C53, C69, C70 blsag | `BlsagModel.v` with zero-value points as opaque raw points | induction on the ring |
| C54-C61, C63, C64 bls | `BlsModel.v` (explicit memory of objects), `BlsSessions.v` (histories of calls) | bilinearity; permutations; frames and separation |
| C62 base64, hex | `Base64Model.v` | positional numbers to base 64 and 16 |
| C65-C67 streams | `ReadModel.v`, `GoModel.v` readers/writers | induction on reader programs |
| C71 altered trees | `MerkleModel.v`, heaps changed after NewTree (`MerkleTamper.v`) | levels of the tree as a list of lists |
| C72 hash objects | `HashModel.v`: `hash.Hash` as absorbed bytes | case analysis, induction on calls |
| C73 accepted inputs | `SpecDecode.v`: relation between encodings and values | prefix-determined relations compose along reader programs (`DecodeFacts.v`) |
| C74, C75 content and hiding of range proofs | `RangeHiding.v`: the random scalars that lead to a given proof | the prover's vectors solve for the blinding vectors; the blinding factors solve for the commitments |
| C76 outcomes of MLSAG Prove | `SpecMlsag.v` | the random stream is read off a given valid signature (`MlsagAttain.v`) |
| C77 inner-product proofs do not bind the statement | `SpecIPP.v` | explicit false statement with an accepted proof (`IPPWeak.v`) |
| C78, C79 soundness for algebraic provers | `SpecSound.v` | statements that should hold after each message; a false one becomes true only for few challenges (polynomials with too many roots are zero, `Poly.v`, `IPSound.v`, `RangeSound.v`, `SoundPoints.v`). The hash is an arbitrary function here: that its values avoid the bad sets is not claimed. The bad set of u_j depends on P and w, which the hash giving u_j does not cover (C77); C86 treats the orders this permits |
| C80 MLSAG accessors and setters | `MlsagSessions.v` | by counting over histories; found missing by seeding errors |
| C81-C84 slices that share memory | `AliasModel.v` on `SliceModel.v` | each function on windows of arrays against the list model; append characterised element by element |
| C85 receivers of failing decoders | `RecvModel.v` | decoders that return receiver and error, against the decoders of C73 by simulation; closed form of the receiver in terms of the input bytes (`SpecRecv.v`) |
| C86 rounds computed before z, x, w | `SpecOrder.v` | as C78, with the statements weakened to what can be said before w, x, z are known: `balanced` (inner product c without w), `spans` (S spread along the rounds). The order of the choices is a reading of the theorem: each bad set mentions only earlier values |
| C87 rewinding | `SpecRewind.v` | `script` (messages as functions of the earlier challenges), `asked`/`wide` (tree of challenges), `accepts` (the two equations with given challenges), `represents`. The extractor is an explicit function (`extract`: quadratic interpolation per round and over x, Lagrange over z); the theorem hides it behind `exists e, forall R s`, which is what keeps it from being trivial. Rewinding is modelled by `with_hash`: the same points under another function deriving scalars. Nothing is said about how many rewindings a given prover needs |
| C88 rewinding of MLSAG forgers | `SpecFork.v` | forgers are programs (`oracle`) that ask for hash values; equal answers lead to equal questions. `places` says when the string of a row was hashed first; the row after the last one is answered for two challenges. Pigeonhole over the choices of rows and places. The ring is fixed in advance (C90 shows why) and the forger gets no signatures from others; nothing is said about probabilities |
| C89, C90 MLSAG defects | `SpecFork.v` | explicit signatures, `ForkAttack.v` |
| C91, C92 rewinding of bLSAG forgers | `SpecBlFork.v` | by C88 with rows of length one (`BlForkFacts.v`); keys and key image are group elements, zero-value points are the subject of C69 |
| C93 amounts behind dual keys | `SpecRing.v` | session by C49/C50 (`RingMore.v` spend), soundness by C88; the ring and the commitments are fixed before the forger runs (C90 shows what happens otherwise) |
| C94 simulation | `SpecRing.v` | `reprogram` changes the hash at one string; signer unique by solving r = a - cx |
| C95 content | `SpecFork.v` | induction along two chains with the same end |
| C96 rotation | `SpecRing.v` | the chain closes from every row |
| C97 final scalars | `SpecRangeSim.v` (`diff_ip`, `diff_poly`) | difference of the equations of C33; coefficient 0 of the vectors is a product of nonzero challenges |
| C98 simulation | `SpecRangeSim.v` (`sim_S`, `sim_T1`, strings) | solve the two equations of C33 for S and T1; the four strings differ by length |
| C99 concurrent panics | `sched_run`, `GRet Panic` | `late` (one write by another goroutine), the loop of computeS and the sum over V with a larger M |
| C100 race in Verify | `SpecFS.v` (`z_rest`) | Verify up to its last read of M, then with the smaller M; a proof for n numbers and m - n zeros |
| C101 provers | `SpecFS.v` (`fs_proof`) | the hashed rounds give their own challenges; C33, C87 |
| C102 equal roots | `SpecRoot.v` (`fill`, `levels`) | pair_up of an expansion is the expansion of pair_up; C07's argument for lists of equal length |
| C103 vector commitments bind | `SpecVecCom.v` (`coeff`, `gens_of`) | commitments as one multi-scalar product over a zero-padded table |
| C104 signer's row from the time | `SpecPlace.v` (`place`, `suspects`) | position of the last row followed through the swaps |
| C105 encodings not unique | `SpecCanon.v` (`le_value`) and the relations of `SpecDecode.v` | pigeonhole on the strings of 32 bytes; another string placed into an encoding |
| C106 payments balance | `SpecTx.v` (`total`, `zsum`, `amount`, `balance_found`) with the provers of C87 and the spenders of C93 | openings by rewinding add up to the commitment that was subtracted; no wrap-around of integers; for C87_generic, generators without relations (`GenericFacts.v`) |
| C107 provers that hash on their own | `SpecOracle.v` (`claim`, `strings`, `history`, `rewound`, `prover`) with the oracle programs of `SpecFork.v` | the strings hashed for a challenge fix the messages before it (encodings of fixed length); a script is read off the runs and C87 applies; that the strings of the rounds are asked after that of w is part of `rewound`, as they do not contain it (C77, C86) |
| C108 knowledge of a witness | `SpecKnow.v` (`coefs`, `co_eval`, `ip_wide`, `ip_equation`) | three challenges of each round give the coefficients of P, L and R over the folded generators, a fourth one the relations; without relation the halves fit together (polynomials of degree three in the square of the challenge) |
| C109 zero values in MLSAG | `MlsagRaw.v` (`raw_lib`: the point operations on all Go values), `SpecMlsag.v` at that library | agreement on group elements by the form of the loops; a row of zero values hashes a constant string, and so do zero-value key images |
| C110 rogue keys | `SpecRogue.v` (`made_key`, `factors`, `known`) | exponents of all keys; the aggregate is linear in the others' keys; Verify accepts exactly the signature of the aggregate |
| C111 the two ring signature packages | `SpecCross.v` (`as_mlsag`, `as_blsag`), `raw_lib` | the challenge chains agree row by row; sessions with one key give rows of one key |
| C112 work of Verify before a size is compared | `ip_scalars` (P_RangeProof.v), `SpecDecode.v` | number of scalars of VerifScalars for every proof; the error for every other M is the one of the later Exp; rounds as a function of the input length |
| C113 repeated random scalars | `SpecReuse.v` (`from_two`, `stolen`, `alpha_of`) | two linear equations in one unknown; the other rows are the same scalars; the attack is a function of the two outputs |
| C114 one signature per member signs for every group (defect) | `SpecSeen.v` (`seen_ok`, `group_sig`, `batch_sig`) | hash-to-curve is a known multiple of the generator; difference of overlapping groups holds for any BLS multi-signature |
| C115 signatures moved to other keys without key image (defect) | `SpecMove.v` (`moved_keys`, `moved_responses`, `moved_rows`) | the hashed points stay the same; converse from injective encodings |
| C116 copied BLS structs and Apk literals (defect) | `ShareModel.v` on `SpecBls.v` (`sig_is`, `pk_is`, `apk_is`) | two objects with one cell; frames of the calls |
| C117 concurrent calls of Prove, an invalid proof without an error (defect) | `SpecLost.v` (`lproof`, `lost_H`, `lost_t`) | `dip`: one read of M, in the loop condition of `sumZMTwoN`, sees the n of the other call |
| C118 The steps of Prove on vectors of any lengths | `P_Steps.v` | proved; symbolic execution of each step for each case of the lengths |
| C119 Concurrent calls of Prove can return a valid proof without blinding | `P_Bare.v` | proved (defect); `SpecBare.v`, `BareFacts.v`: the call that is disturbed runs like one with other random scalars |
| C120 A ring built by any sequence of Add calls is exactly what was added | `P_Build.v` | proved; `SpecBuild.v`, `BuildFacts.v` |
| C121 The error for input that ends too early tells whether a field was cut | `P_Trunc.v` | proved; `SpecTrunc.v`, `TruncFacts.v`: reads on a grid of offsets; `TruncTail.v`: cuts within the rounds of a proof |
| C122 An encoded range proof with bytes missing or added at the end is not accepted | `P_Cut.v` | proved; from C39, C73, C112 and C121 (`TruncTail.v`) |

Nothing is planned as "not applicable".

## 3. Trusted base

1. Coq 8.16.1's kernel (incl. `vm_compute`, used for examples, the primality certificate and small
   finite instances).  No axioms: `Print Assumptions` after each property theorem prints "Closed
   under the global context".  (coqchk lists the axioms of the standard library module
   `Coq.ssr.ssrunder`, which `lia`/`ring` load; no theorem depends on them.)
2. The faithfulness of the transcription, definition by definition (see 4).
3. The laws of the external libraries in `rist_ok` (`Rist.v`) and `bn_ok` (`Bn.v`), hypotheses of the
   theorems that mention them.  Instances (`toy`, `tiny` in `RistInst.v`; `opt_raw` in `P_Blsag.v`;
   `five h` in `BnInst.v`; `flat` in `P_Rewind.v`) show that the laws are consistent.
   * `rist_ok`: points form a module over Z/l; encodings of points and scalars are 32 bytes and decode
     to the encoded value; equality test decides equality.
   * `bn_ok`: G1, G2, GT cyclic of one prime order, bilinear non-degenerate pairing (through exponents
     of the generators); decoding of encoded elements, also with bytes appended; nothing about the
     compressed point at infinity, about other byte strings, or about the value left by a failed
     G2.Unmarshal; the base points decode.
   * hash functions are arbitrary functions.  Theorems on soundness or binding give an explicit
     collision or discrete-logarithm relation instead of assuming hardness.
   * C75 supposes that the blinding point generates the group of points (each point is a multiple of it).
   * C69's hypotheses on absorption of encodings with opaque zero values are facts about the library
     that were not checked here; they are hypotheses of that theorem only.

## 4. What is modelled, and what is not

Simplifications, also stated in the comments of the definitions:

* Error texts: the lengths and digests in the texts of bls verify and of MLSAG's failed comparison
  (scalars printed), and the positions in base64 and hex errors, are left out.  The prefixes that errors.Wrap adds are
  modelled (`wrap`; errors are wrapped in rangeproof.go, poly.go and debug.go, and in panics of bls.go).
  The texts that theorems name (such as "megacheck failed", or the ring checks of C49) identify the
  check that failed; the exact bytes of a message are not claimed.
* One-line helpers are inlined where they are used: newG1/newG2 (bls),
  readerToPoint/readerToScalar and the AddXxx/Len methods of the vector types (mlsag).
* Slices are values except where said otherwise: Merkle hash slices (`SliceModel.v`), MLSAG key
  vectors (`MlsagHeap.v`; in `MlsagSessions.v` they are unshared) and BLS objects have explicit memory;
  `AliasModel.v` repeats the functions that return or append to slices of their arguments on shared
  memory (the byte strings given to HashCacher.Append are values there).
  Reads of capacities that do not influence results are left out.
* Go `int` and `uint32`: unbounded integers with explicit truncation where the code converts
  (`u32`, `uint8`); lengths of slices are assumed to fit an `int`, and so is N*M (the theorems for any M say this).
* Global variable M of the range proof: `GlobModel.v` makes each access a step; accesses are
  sequentially consistent; loop conditions read M each time they are tested (`gfor`).
* Decoders return the decoded object.  `RecvModel.v` has the same decoders with the receiver they leave
  on failure (the inner product proof and BLS have this form from the start); the point that a failing
  SetBytes leaves in its receiver is an arbitrary function there.
* Scalars are elements of Z/l: the library is taken to keep `ristretto.Scalar` values reduced, also after
  `SetBytes` of 32 arbitrary bytes (whose value is an arbitrary function `sset` with the one law that
  encodings decode).  This matters for `!=` on scalars in blsag.
* MLSAG points are group elements, except in C109: the zero value of ristretto.Point is not a valid
  point, and `MlsagRaw.v` gives the functions of `MlsagModel.v` on all Go values of that type.  In
  blsag it is modelled from the start.
* BLS: secret keys, GT elements and big integers are values.  Callers that copy structs,
  convert them or write Apk literals make objects that share memory: `ShareModel.v` has these statements (C116);
  the theorems about call histories (C64) are for objects made by the package's functions only.
* hash objects: a `hash.Hash` is the list of bytes absorbed since creation; Sum does not change it.
* base64: the fast paths of encoding/base64 are modelled by the general loop.
* Randomness: `Scalar.Rand` and `rand.Intn` draw from arbitrary streams; nothing is said about
  distributions.  `rand_k` (RandomG2) is arbitrary with results in the open interval (0, order).

Not modelled: timing/side channels, memory usage other than the allocation counts of C67, the internals
of external libraries, the unused isNumInList (mlsag) and constant H (rangeproof), Go's memory model below the stated step granularity, `String` methods, benchmarks
and tests.

## 5. Testing the theorems

`seeded/LOG.jsonl` records wrong variants of the model definitions (realistic bugs), which theorems
stopped compiling, and which theorems were tightened because a variant went unnoticed.
`failed_lemmas` are the proofs at which the rebuild stopped; `failed_theorems` are the theorems that use
one of them, taken from the dependencies between the files. A proof that fails shows that it rests on the
definition changed; it is not by itself a proof that the theorem is false of the variant. Entries before
x14a list only theorems of C01 to C99 in `failed_theorems`.
