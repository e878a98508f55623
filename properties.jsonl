{"id": "C01", "title": "Checksum is the big-endian prefix of the xxhash digest, and CompareChecksum decides it", "statement": "For every byte string d and 32-bit value w, Checksum(d) returns the number whose big-endian encoding is the first four bytes of Xxhash(d), and CompareChecksum(d,w) is true exactly when Checksum(d) succeeds with value w. A hash writer error is reported as an error (false for CompareChecksum), never as a value.", "quantifier": "every byte string, every expected checksum, every behaviour of the underlying hash writer", "why_tests_cant": "the equality must hold for all 2^32 expected values and every data string; tests sample a handful", "anchors": ["hash/hash.go:Checksum", "hash/hash.go:CompareChecksum", "hash/hash.go:PerformHash", "hash/hash.go:Xxhash"]}
{"id": "C02", "title": "RandEntropy returns exactly n bytes or an error", "statement": "For every n and every behaviour of the entropy source (full read, short read, error), RandEntropy(n) returns either a slice of exactly n bytes, all of them coming from the source, or an error; a short read is never returned as success.", "quantifier": "every n and every outcome of the entropy source", "why_tests_cant": "short reads and failures of the system entropy source cannot be provoked in a unit test", "anchors": ["hash/hash.go:RandEntropy"]}
{"id": "C03", "title": "NewTree computes the canonical Merkle root and always terminates", "statement": "For every non-empty list of payloads whose hashes all succeed, NewTree terminates and returns a tree whose MerkleRoot is the root obtained by hashing adjacent pairs level by level (last element paired with itself on odd levels, and a single leaf paired with its duplicate); it fails with an error exactly when the list is empty or some payload hash fails. The first payload whose hash fails decides the error (or the panic).", "quantifier": "every payload list of any length, every payload hash function", "why_tests_cant": "recursion depth and odd/even shape vary with the length; only finitely many lengths can be tried", "anchors": ["merkletree/merkletree.go:NewTree", "merkletree/merkletree.go:create", "merkletree/merkletree.go:createIntermediate"]}
{"id": "C04", "title": "A freshly built tree verifies", "statement": "For every payload list on which NewTree succeeds, VerifyTree on the result returns (true, nil).", "quantifier": "every payload list", "why_tests_cant": "must hold for every length and every hash value", "anchors": ["merkletree/merkletree.go:VerifyTree", "merkletree/merkletree.go:VerifyNode"]}
{"id": "C05", "title": "VerifyContent decides membership", "statement": "On a tree built by NewTree, VerifyContent(d) returns true exactly when some payload the tree was built from has the same hash as d, and false otherwise; it never fails when the hash of d can be computed. Asked for nil, or with nil in place of the Payload of the first leaf, VerifyContent panics.", "quantifier": "every payload list and every queried payload", "why_tests_cant": "both directions range over all trees and all positions of the queried leaf", "anchors": ["merkletree/merkletree.go:VerifyContent", "merkletree/merkletree.go:CalculateNodeHash"]}
{"id": "C06", "title": "VerifyTree detects leaf tampering", "statement": "If after NewTree the payloads held by the leaves are replaced by any others whose hashes succeed, then VerifyTree returns true only if every leaf position holds a payload with the original hash, or an explicit SHA3-256 collision can be computed from the two payload lists.", "quantifier": "every payload list and every replacement of any subset of the leaf payloads", "why_tests_cant": "every position, every replacement and every tree shape would have to be tried", "anchors": ["merkletree/merkletree.go:VerifyTree", "merkletree/merkletree.go:VerifyNode"]}
{"id": "C07", "title": "The Merkle root binds the payload hashes at a fixed length", "statement": "If two payload lists of equal length, with 32-byte payload hashes, give the same MerkleRoot, then their payload hashes agree position by position or an explicit pair of distinct inputs with equal SHA3-256 is exhibited.", "quantifier": "every pair of equal-length payload lists", "why_tests_cant": "a collision argument ranges over all pairs of inputs", "anchors": ["merkletree/merkletree.go:NewTree", "merkletree/merkletree.go:createIntermediate"]}
{"id": "C08", "title": "The Merkle root does not bind the length (defect)", "statement": "The root is not injective over lists of different lengths: for every list of odd length, repeating its last payload gives the same MerkleRoot with no hash collision, and for every list of 4k payloads the list of 2k payloads whose hashes are the pairwise node hashes has the same MerkleRoot. So MerkleRoot equality alone does not identify the payload list.", "quantifier": "every payload list of odd length; every payload list of length 4k", "why_tests_cant": "the ambiguity exists for infinitely many lengths; tests compare fixed roots only", "anchors": ["merkletree/merkletree.go:create", "merkletree/merkletree.go:createIntermediate"]}
{"id": "C09", "title": "Rebuilding preserves the root and failed rebuilds preserve the tree", "statement": "RebuildTree on any tree built by NewTree succeeds, leaves MerkleRoot unchanged and the rebuilt tree verifies; RebuildTreeUsing(pl) behaves as NewTree(pl) on success and leaves the tree untouched on failure. This holds after any sequence of rebuild operations. RebuildTree is RebuildTreeUsing with the payloads of the leaves (the last one repeated if their number is odd), also when their hashes have changed since. On the zero Tree, VerifyTree panics, VerifyContent is false and RebuildTree fails.", "quantifier": "every history of NewTree / RebuildTree / RebuildTreeUsing calls", "why_tests_cant": "histories of operations of unbounded length", "anchors": ["merkletree/merkletree.go:RebuildTree", "merkletree/merkletree.go:RebuildTreeUsing"]}
{"id": "C10", "title": "Tree structure: every leaf reaches the root through its parents", "statement": "In a tree built by NewTree every leaf's parent chain ends, after the same number of steps for every leaf, at Root (whose Parent is nil); each parent has that node as its Left or Right child; the Leaves slice holds the payloads in order, followed by one duplicate exactly when their number is odd; all inner nodes are determined: each level joins consecutive pairs of the level below (an unpaired node is both children of its parent), with the right Parent, Left, Right, Hash and flags, up to the root.", "quantifier": "every payload list, every leaf position", "why_tests_cant": "pointer shape depends on the length at every level", "anchors": ["merkletree/merkletree.go:Tree", "merkletree/merkletree.go:Node", "merkletree/merkletree.go:createIntermediate"]}
{"id": "C11", "title": "Hash slices with spare capacity are overwritten by tree building (defect)", "statement": "Building a node hash appends the right hash to the left hash slice. When the left slice has no spare capacity no existing memory is modified; when it has at least the length of the right hash as spare capacity, the bytes following the left hash in its backing array are overwritten with the right hash.", "quantifier": "every placement of payload hash slices in memory", "why_tests_cant": "depends on slice capacities chosen by the Payload implementation; the tests' payloads never have spare capacity", "anchors": ["merkletree/merkletree.go:createIntermediate", "merkletree/merkletree.go:VerifyNode", "merkletree/merkletree.go:CalculateNodeHash"]}
{"id": "C12", "title": "Vector operations are element-wise and reject length mismatches", "statement": "Add, Sub, Hadamard, AddScalar, SubScalar, MulScalar, Neg and FromScalar return the element-wise result for vectors of any length; Add, Sub and Hadamard return an error exactly when the lengths differ; InnerProduct is the sum of products and errs exactly on length mismatch. The errors are named: \"Length of a does not equal b\" for Add and Sub, \"Length of a does not equal length of b\" for Hadamard and \"[Inner Product]:Length of a does not equal length of b\" for InnerProduct.", "quantifier": "all vectors of all lengths, all scalars", "why_tests_cant": "unbounded lengths and field elements", "anchors": ["rangeproof/vector/vector.go:Add", "rangeproof/vector/vector.go:Sub", "rangeproof/vector/vector.go:Hadamard", "rangeproof/vector/vector.go:SubScalar", "rangeproof/vector/vector.go:MulScalar", "rangeproof/vector/vector.go:InnerProduct", "rangeproof/vector/vector.go:Neg", "rangeproof/vector/vector.go:FromScalar"]}
{"id": "C13", "title": "Exp is the multi-scalar product and is bilinear", "statement": "For slices of equal length at least N*M, Exp(a,b,N,M) equals the sum of a[i]*b[i]; otherwise it returns an error. It is additive and homogeneous in the scalars. The two errors of Exp are named, unequal lengths being reported first.", "quantifier": "all scalar and point slices, all N and M", "why_tests_cant": "unbounded lengths, arbitrary group elements", "anchors": ["rangeproof/vector/vector.go:Exp"]}
{"id": "C14", "title": "ScalarPowers and ScalarPowersSum compute powers, except for base zero (defect)", "statement": "ScalarPowers(a,n) is <a^0,...,a^(n-1)> for every a other than 0 and every n; for a = 0 and n > 0 it is the zero vector, so its first element is not 0^0 = 1. ScalarPowersSum(a,n) is the sum of a^i for i < n for every a including 0; the two disagree exactly when a = 0 and n > 0.", "quantifier": "every scalar and every length", "why_tests_cant": "all lengths and all field elements; the zero base is an untested corner", "anchors": ["rangeproof/vector/vector.go:ScalarPowers", "rangeproof/vector/vector.go:ScalarPowersSum"]}
{"id": "C15", "title": "SplitPoints/SplitScalars partition", "statement": "For every non-empty slice x and n < len(x) the two halves have lengths n and len(x)-n and concatenate to x; every other case is an error. The two errors of Split are named, the empty slice being reported first.", "quantifier": "every slice and split position", "why_tests_cant": "all lengths and boundaries", "anchors": ["rangeproof/vector/vector.go:SplitPoints", "rangeproof/vector/vector.go:SplitScalars"]}
{"id": "C16", "title": "Generators are deterministic, prefix-stable and restartable", "statement": "Compute(n) from a fresh generator gives the chain Derive(data), Derive(bytes of previous), ...; Compute(a) followed by Compute(b) equals Compute(a+b); earlier bases never change; after Clear the same chain is produced again.", "quantifier": "every seed and every sequence of Compute/Clear calls", "why_tests_cant": "arbitrary call histories and lengths", "anchors": ["rangeproof/generators/generator.go:Compute", "rangeproof/generators/generator.go:Iterate", "rangeproof/generators/generator.go:Clear"]}
{"id": "C17", "title": "Pedersen scalar commitments open, add and bind", "statement": "CommitToScalar(v) yields v*BasePoint + r*BlindPoint with r the returned blinding factor; the sum of two commitments is the commitment to the sum of values under the sum of blinders; two different openings of one point yield the discrete logarithm of BasePoint with respect to BlindPoint.", "quantifier": "all values and all randomness", "why_tests_cant": "all field elements; binding quantifies over all pairs of openings", "anchors": ["rangeproof/pedersen/pedersen.go:CommitToScalar", "rangeproof/pedersen/pedersen.go:New"]}
{"id": "C18", "title": "Pedersen vector commitments", "statement": "CommitToVectors(v0..vk) yields r*BlindPoint + sum_j <v_j, G_j> where G_0 are the generators of GenData and G_j (0<j<256) those of GenData||j, whether or not generators were precomputed; the same blinding factor r is returned. With no vectors the value is the identity and r does not enter it.", "quantifier": "any number of vectors of any lengths, any precomputation state", "why_tests_cant": "unbounded vector counts, lengths and generator cache states", "anchors": ["rangeproof/pedersen/pedersen.go:CommitToVectors", "rangeproof/pedersen/pedersen.go:commitToScalars"]}
{"id": "C19", "title": "Vector commitments reuse generators after 256 vectors (defect)", "statement": "The generator label is one byte: the vectors at positions j and j+256 (j >= 1) are committed to with the same generators, so exchanging them (or moving an entry's value from one to the other) leaves the commitment unchanged; CommitToVectors is therefore not binding for more than 257 vectors.", "quantifier": "every list of at least 258 vectors", "why_tests_cant": "needs hundreds of vectors and a relation between two inputs", "anchors": ["rangeproof/pedersen/pedersen.go:CommitToVectors"]}
{"id": "C20", "title": "Commitment codec round-trips", "statement": "DecodeCommitments(EncodeCommitments(cs)) returns commitments with the same values, consumes exactly the encoded bytes and leaves any following bytes unread, for every list shorter than 2^32; blinding factors are not transmitted.", "quantifier": "every list of commitments and every trailing byte string", "why_tests_cant": "unbounded lists", "anchors": ["rangeproof/pedersen/pedersen.go:EncodeCommitments", "rangeproof/pedersen/pedersen.go:DecodeCommitments", "rangeproof/pedersen/pedersen.go:Commitment"]}
{"id": "C21", "title": "Transcript caching is concatenation; framing is lost in general (defect) but not for fixed-width fields", "statement": "After any sequence of Append calls, Result is the concatenation of all appended strings in order and Derive is the hash of it; Clear empties it. Two sequences of 32-byte fields of equal content length give equal transcripts only if they are equal field by field, but there are different sequences of variable-length fields with equal transcripts (and so equal challenges).", "quantifier": "every sequence of Append/Clear calls", "why_tests_cant": "unbounded call sequences; injectivity quantifies over pairs", "anchors": ["rangeproof/fiatshamir/fiatshamir.go:Append", "rangeproof/fiatshamir/fiatshamir.go:Derive"]}
{"id": "C22", "title": "DiffNextPow2 pads to the next power of two", "statement": "For every n with 1 <= n < 2^32, n + DiffNextPow2(n) is the least power of two that is >= n: the wrap-around of the uint32 subtraction when n itself is a power of two cancels.", "quantifier": "all 2^32-1 inputs", "why_tests_cant": "the whole 32-bit domain", "anchors": ["rangeproof/innerproduct/innerproduct.go:DiffNextPow2", "rangeproof/innerproduct/innerproduct.go:nextPow2", "rangeproof/innerproduct/innerproduct.go:isPower2"]}
{"id": "C23", "title": "Inner-product proofs verify", "statement": "For vectors a, b, generators G, H and factors of length n = 2^k, if no folding challenge is zero then Generate succeeds and Verify accepts the proof for P = <a,G> + <b o factors, H> + <a,b>Q; the proof has exactly k pairs L, R.", "quantifier": "every k, all vectors, all generators, every hash function", "why_tests_cant": "all sizes and all field/group elements", "anchors": ["rangeproof/innerproduct/innerproduct.go:Generate", "rangeproof/innerproduct/innerproduct.go:Verify"]}
{"id": "C24", "title": "Inner-product verification accepts exactly the claimed equation", "statement": "For any proof with k rounds and generator slices of length 2^k, Verify returns true exactly when P + sum u_j^2 L_j + u_j^-2 R_j = a<s,G> + b<1/s o factors,H> + ab Q, where s_i is the product of the challenges or inverses selected by the bits of i. For every other size: with different numbers of L and R it returns false; s has 2^k elements for k < 32 and a single one from 32 rounds on; it panics exactly when there are fewer factors than elements of s, and otherwise returns true exactly when the two slices together have twice as many points as s, n is not larger than the number of terms, and the equation holds for the concatenated slices cut after |s| points.", "quantifier": "every (also adversarial) proof object of matching size", "why_tests_cant": "ranges over all proofs, not just honest ones", "anchors": ["rangeproof/innerproduct/innerproduct.go:Verify", "rangeproof/innerproduct/innerproduct.go:VerifScalars"]}
{"id": "C25", "title": "VerifScalars computes the subset products of challenges", "statement": "For k < 32 rounds with nonzero challenges, VerifScalars returns the squares, the inverse squares, and the vector s of length 2^k with s_i = prod_j u_j^(+1 if bit (k-1-j) of i is set else -1); reversing s inverts it element-wise.", "quantifier": "every k < 32 and all challenges", "why_tests_cant": "exponential vector length in k", "anchors": ["rangeproof/innerproduct/innerproduct.go:VerifScalars"]}
{"id": "C26", "title": "Generate rejects malformed input", "statement": "Generate returns an error when the number of generators is not a power of two, and never returns a proof when a, b or H have a different length than G (n >= 2); with an empty generator slice it panics (defect).  With a single generator nothing is checked (defect): the last elements of a and b become the proof. With 2^k >= 2 generators the outcome is: success exactly when all lengths agree and there are enough factors; a panic exactly when len(a) is right, len(b) exceeds one half and the factors run out; an error in all other cases.", "quantifier": "all slice lengths", "why_tests_cant": "all combinations of lengths", "anchors": ["rangeproof/innerproduct/innerproduct.go:Generate"]}
{"id": "C27", "title": "Inner-product proof codec", "statement": "Decode(Encode(p)) restores A, B, L and R for every proof with |L| = |R|. Decode is not strict (defect): it accepts any encoding with an extra 32-byte chunk, dropping it, and it accepts chunks that are not valid point encodings. Encode writes A, B and the pairs of L and R; with more R than L the rest of R is not written, with fewer R it writes the next L and panics.", "quantifier": "every proof and every byte string", "why_tests_cant": "all byte strings", "anchors": ["rangeproof/innerproduct/innerproduct.go:Encode", "rangeproof/innerproduct/innerproduct.go:Decode"]}
{"id": "C28", "title": "Proof equality is one-sided (defect)", "statement": "innerproduct.Proof.Equals(other) is true exactly when A, B agree and L, R of the receiver are a prefix of those of other; it panics exactly when A, B agree and, after entries that agree, other (or the receiver's R) has no entry to compare with; it is therefore not symmetric. rangeproof.Proof.Equals ignores the inner-product proof entirely; with includeCommits = false it still compares the commitments of the receiver with a prefix of those of other and panics exactly when those of other are a proper prefix of the receiver's. mlsag Signature.Equals compares only the first len(r) response vectors; if other has fewer it panics when c and those agree and is false otherwise.", "quantifier": "all pairs of proofs / signatures", "why_tests_cant": "ranges over pairs with different lengths", "anchors": ["rangeproof/innerproduct/innerproduct.go:Equals", "rangeproof/rangeproof.go:Equals", "mlsag/mlsag.go:Equals"]}
{"id": "C29", "title": "Bit commitment encodes the low 64 bits", "statement": "For every v, BitCommit(v) gives vectors of length 64 with aL in {0,1}, aR = aL - 1, aL o aR = 0 and <aL, 2^i> = |v| mod 2^64 (the sign of v is ignored); Debug(v) succeeds on it exactly when 0 <= v < 2^64; on arbitrary vectors of length at least 64 Debug(v) succeeds exactly when 0 <= v < 2^64 and aL is one and aR zero exactly at the set bits of v, and shorter vectors panic.", "quantifier": "every big integer v that is a scalar value", "why_tests_cant": "2^252 values", "anchors": ["rangeproof/bitCommitment.go:BitCommit", "rangeproof/bitCommitment.go:Debug"]}
{"id": "C30", "title": "Range proofs of in-range values verify", "statement": "For every list of 1..16 values in [0,2^64), all randomness and every hash function, if Prove returns a proof and no folding challenge is zero then an immediately following Verify of that proof returns (true, nil).", "quantifier": "all value lists, all prover and verifier randomness, every hash function", "why_tests_cant": "all values, all randomness", "anchors": ["rangeproof/rangeproof.go:Prove", "rangeproof/rangeproof.go:Verify"]}
{"id": "C31", "title": "Prove fails only for the documented reasons", "statement": "Prove(v,false) returns an error exactly when v is empty, has more than 16 elements, or one of the challenges x, y, z is zero; it never panics. In particular it does not check that the values are in range.", "quantifier": "all value lists of any length, all randomness", "why_tests_cant": "all inputs; zero challenges cannot be provoked in tests", "anchors": ["rangeproof/rangeproof.go:Prove"]}
{"id": "C32", "title": "Out-of-range values are rejected by Verify, not by Prove", "statement": "For any values (also >= 2^64) Verify accepts the output of Prove(v,false) exactly when sum_j z^(j+2) (v_j - v_j mod 2^64) = 0; in particular a single out-of-range value is never accepted when z is nonzero.", "quantifier": "all scalar values, all randomness", "why_tests_cant": "all field elements", "anchors": ["rangeproof/rangeproof.go:Prove", "rangeproof/rangeproof.go:Verify", "rangeproof/bitCommitment.go:BitCommit"]}
{"id": "C33", "title": "Verify computes the textbook check", "statement": "On any proof of matching size Verify accepts exactly when c*E1 + E2 = 0, where E1 is the inner-product equation for A + xS - z<1,G> + <z y^n + z^2.., H'> - mu*Blind and E2 the polynomial-commitment equation t*Base + taux*Blind = delta*Base + sum z^(j+2)V_j + xT1 + x^2T2, c being the verifier's random scalar; accepting for two different c implies both equations; for every value of M, no other proof is accepted.", "quantifier": "every (adversarial) proof object and every verifier randomness", "why_tests_cant": "ranges over all proofs", "anchors": ["rangeproof/rangeproof.go:megacheckWithC", "rangeproof/rangeproof.go:Verify"]}
{"id": "C34", "title": "Debug mode only ever rejects the maximum value wrongly (defect)", "statement": "Prove(v,true) succeeds exactly when Prove(v,false) succeeds and every value is below 2^64-1, and then with the same proof; if Prove(v,false) succeeds and some value is not below 2^64-1, Prove(v,true) fails with the error of the size check; so for the value 2^64-1 Prove(v,true) fails although Prove(v,false) produces a proof that verifies.", "quantifier": "all value lists, all randomness", "why_tests_cant": "all values; the boundary value is not tested", "anchors": ["rangeproof/debug.go:debugsizeOfV", "rangeproof/debug.go:debugProve", "rangeproof/rangeproof.go:Prove"]}
{"id": "C35", "title": "Verification depends on hidden global state (defect)", "statement": "Verify uses a package variable set by the last Prove call, also a failing one: after Prove on a list that pads to a different size, or a Prove rejected for having more than 16 values, Verify of a previously valid proof returns an error; in a process that never called Prove, only single-value proofs can be accepted; whatever the variable holds (also negative, zero or huge values), there is at most one value of it for which a given proof can be accepted.", "quantifier": "every history of Prove/Verify calls", "why_tests_cant": "depends on call history across proofs of different sizes", "anchors": ["rangeproof/rangeproof.go:M", "rangeproof/rangeproof.go:Prove", "rangeproof/rangeproof.go:Verify"]}
{"id": "C36", "title": "Concurrent Prove calls interfere (defect)", "statement": "Two concurrent Prove calls that would both succeed alone have an interleaving in which one of them fails, unless both lists have the same length and that is a power of two (so also two calls with three values each interfere); when all concurrent Prove calls have the same power of two as length, every interleaving gives the sequential results, also for Verify calls among them if M already had that value. Verify calls (and Prove calls without values) among themselves always have their sequential results, whatever M is.", "quantifier": "every interleaving of concurrent Prove/Verify calls", "why_tests_cant": "schedules cannot be enumerated by tests", "anchors": ["rangeproof/rangeproof.go:M", "rangeproof/rangeproof.go:Prove"]}
{"id": "C37", "title": "Verify constrains only the first M commitments (defect)", "statement": "When a proof carries more commitments than the package variable M, Verify does not range-check the surplus ones: for arbitrary extra commitments there is a proof containing them that is accepted.", "quantifier": "arbitrary extra commitment points, all randomness", "why_tests_cant": "adversarial proofs; tests use honest ones", "anchors": ["rangeproof/rangeproof.go:megacheckWithC"]}
{"id": "C38", "title": "Verify can panic on malformed proofs (defect)", "statement": "With a positive M, Verify panics on a proof whose inner-product part is missing, and on any proof whose inner-product part has the right size but that carries fewer than M commitments; in all other cases it returns normally. With M <= 0 no proof is accepted: Verify panics when the inner-product part is missing, and for a negative M also when the number of its scalars equals uint32(N*M); otherwise it returns an error.", "quantifier": "every proof object reachable by Decode", "why_tests_cant": "adversarial inputs", "anchors": ["rangeproof/rangeproof.go:Verify", "rangeproof/rangeproof.go:megacheckWithC"]}
{"id": "C39", "title": "Range proof codec round-trips but consumes the whole stream", "statement": "Decode(Encode(p)) restores all transmitted fields of every proof with |L|=|R|, with or without commitments, and the encoded size is 32*(9+2k) bytes (plus 4+32m with commitments); Decode consumes the reader to its end, so a proof followed by a valid 64-byte pair of points decodes to a different proof (defect).", "quantifier": "every proof, every trailing byte string", "why_tests_cant": "all proofs and trailing data", "anchors": ["rangeproof/rangeproof.go:Encode", "rangeproof/rangeproof.go:Decode"]}
{"id": "C40", "title": "MLSAG signatures verify", "statement": "For every ring with at least one decoy, every message, every list of private keys (at least one key image), all randomness and every shuffle, the signature returned by proving verifies with the returned key images.", "quantifier": "all rings, key counts, messages, randomness, shuffles and hash functions", "why_tests_cant": "all ring sizes and signer positions", "anchors": ["mlsag/mlsag.go:prove", "mlsag/mlsag.go:Verify"]}
{"id": "C41", "title": "MLSAG with no decoys panics (defect)", "statement": "Proving with at least one private key and an empty decoy set panics for every input, instead of returning an error or a signature.", "quantifier": "every message, key list and randomness with a ring of size one", "why_tests_cant": "boundary ring size", "anchors": ["mlsag/mlsag.go:prove"]}
{"id": "C42", "title": "MLSAG proving rejects ragged rings", "statement": "prove returns an error exactly when some decoy vector has a different number of keys than the signer; otherwise (ring of at least two, at least one key) it returns a signature. Without any private key it returns an error if some decoy has keys, and otherwise panics (if the last key image is left out) or returns a signature with no key images, which Verify rejects with none and panics on with any.", "quantifier": "all ring shapes, with and without private keys", "why_tests_cant": "all shapes", "anchors": ["mlsag/mlsag.go:prove"]}
{"id": "C43", "title": "Key images are linkable", "statement": "The key image produced for a private key is x*Hp(xG): it depends only on the private key, not on the message, decoys, randomness or position, so two signatures with the same key carry the same key image; different keys with the same key image imply a relation between hash points.", "quantifier": "all keys, all pairs of signing sessions", "why_tests_cant": "quantifies over pairs of sessions", "anchors": ["mlsag/mlsag.go:CalculateKeyImage", "mlsag/mlsag.go:calculateKeyImages"]}
{"id": "C44", "title": "MLSAG verification is the ring-closure equation", "statement": "For every signature whose shape is regular (ring of n >= 2), Verify returns true exactly when the chain of challenges starting from c and running once through all n rows returns to c.", "quantifier": "every (adversarial) signature object", "why_tests_cant": "adversarial inputs", "anchors": ["mlsag/mlsag.go:Verify", "mlsag/mlsag.go:generateChallenge"]}
{"id": "C45", "title": "MLSAG special soundness", "statement": "From two response/challenge pairs with different challenges that lead to the same next challenge for one row, either the two hashed strings are a collision or the private keys of that row can be computed, and every key image is that private key times the hash point of the key.", "quantifier": "all rows, all responses and challenges", "why_tests_cant": "an extraction argument over all transcripts", "anchors": ["mlsag/mlsag.go:generateChallenge"]}
{"id": "C46", "title": "Shuffling keeps the ring and finds the signer", "statement": "After shuffling, the ring is a permutation of the decoys plus the signer's keys, for every outcome of the random source, and the recorded index points to the signer's key vector.", "quantifier": "all rings and all outcomes of the random source", "why_tests_cant": "factorially many permutations", "anchors": ["mlsag/proof.go:shuffleSet", "mlsag/proof.go:AddDecoy"]}
{"id": "C47", "title": "MLSAG signature codec", "statement": "Decode(Encode(sig,k),k) restores c, all responses and (if k) all public keys for every regular non-empty signature with fewer than 2^32 rows, consuming exactly the encoded bytes; the message is not transmitted; a signature with no rows encodes to 36 bytes that Decode rejects (defect).", "quantifier": "every signature and every trailing byte string", "why_tests_cant": "all sizes", "anchors": ["mlsag/mlsag.go:Encode", "mlsag/mlsag.go:Decode", "mlsag/responses.go", "mlsag/pubkeys.go"]}
{"id": "C48", "title": "MLSAG Verify ignores surplus keys and responses, and panics on missing ones (defect)", "statement": "Appending public-key rows beyond the number of response rows, or extra responses inside a row, never changes the result of Verify; a row with fewer responses than keys, or fewer keys than key images, or fewer key rows than response rows, makes Verify panic. Without public keys, responses or key images the error is \"cannot have zero length for responses, pubkeys or key images\".", "quantifier": "every signature object", "why_tests_cant": "adversarial shapes", "anchors": ["mlsag/mlsag.go:Verify", "mlsag/mlsag.go:generateChallenge"]}
{"id": "C49", "title": "DualKey proofs", "statement": "DualKey.Prove fails for a zero primary key or zero commitment key; otherwise, with at least one decoy and all decoys of two keys, it returns a signature that verifies with the single returned key image, which is that of the primary key. A second Prove on the same object fails. With both keys set but no decoy the first Prove panics; with a decoy of another number of keys it returns an error. Secrets added with AddSecret make Prove fail: with a panic without decoys, and otherwise with the error about sizes or about more than one key image.", "quantifier": "all keys, decoys, messages, randomness", "why_tests_cant": "all inputs and histories", "anchors": ["mlsag/dualkey.go:Prove", "mlsag/dualkey.go:SetPrimaryKey", "mlsag/dualkey.go:SetCommToZero"]}
{"id": "C50", "title": "SubCommToZero shifts exactly the second column, in the caller's memory too (defect)", "statement": "SubCommToZero(p) subtracts p from the second key of every vector in the ring and changes nothing else of the ring; since decoy vectors are shared, not copied, the caller's own PubKeys values passed to AddDecoy are changed as well.", "quantifier": "all rings, all points", "why_tests_cant": "aliasing and all sizes", "anchors": ["mlsag/dualkey.go:SubCommToZero", "mlsag/proof.go:AddDecoy"]}
{"id": "C51", "title": "bLSAG signatures verify", "statement": "For every message, key, number of mixins, randomness and signer position, Verify(m, Sign(m, mixin, sk)) is true.", "quantifier": "all messages, keys, ring sizes, randomness, positions", "why_tests_cant": "all inputs", "anchors": ["ringsig/blsag/blsag.go:Sign", "ringsig/blsag/blsag.go:Verify"]}
{"id": "C52", "title": "bLSAG drops the mixins and reveals the signer (defect)", "statement": "The ring of the signature never contains the mixin keys: every entry except the signer's is the zero-value point, for every mixin; the result does not depend on the mixin keys at all, and the first response is the zero scalar whenever the signer is not first. The signer's index can be read off the signature. The signer's response is the first random scalar minus challenge times private key.", "quantifier": "all mixins, keys, randomness", "why_tests_cant": "the existing test cannot see it because the zero-value point compares equal to every point", "anchors": ["ringsig/blsag/blsag.go:Sign"]}
{"id": "C53", "title": "bLSAG verification is the ring-closure equation", "statement": "For every signature with as many responses as keys (at least one), Verify is true exactly when the challenge chain through all rows starting at C returns to C; with no keys, or fewer responses than keys, it panics.", "quantifier": "every (adversarial) signature object", "why_tests_cant": "adversarial inputs", "anchors": ["ringsig/blsag/blsag.go:Verify", "ringsig/blsag/blsag.go:computeCLR"]}
{"id": "C54", "title": "BLS signatures verify", "statement": "For every key pair and message VerifyUnsafe(pk,m,UnsafeSign(sk,m)) and Verify(NewApk(pk),m,Sign(sk,pk,m)) succeed.", "quantifier": "all key pairs, messages, hash functions", "why_tests_cant": "all keys and messages", "anchors": ["bls/bls.go:UnsafeSign", "bls/bls.go:Sign", "bls/bls.go:Verify", "bls/bls.go:VerifyUnsafe"]}
{"id": "C55", "title": "BLS multi-signatures verify in any order", "statement": "For every non-empty list of key pairs, the aggregate of the individual signatures on one message verifies under the aggregate of the public keys; both aggregates are independent of the order of aggregation, and adding signers incrementally (Aggregate, Add, AggregateBytes) gives the same result.", "quantifier": "all key lists, all permutations", "why_tests_cant": "unbounded number of signers and orders", "anchors": ["bls/bls.go:AggregateApk", "bls/bls.go:Aggregate", "bls/bls.go:Add", "bls/bls.go:NewApk"]}
{"id": "C56", "title": "BLS verification accepts exactly one signature", "statement": "For every aggregated key and message there is exactly one signature point that Verify accepts; in particular Verify rejects every modified signature, and a signature verifies under another key only if the keys are equal (when the message hash is not a multiple of the group order).", "quantifier": "all keys, messages, signature points", "why_tests_cant": "all group elements", "anchors": ["bls/bls.go:Verify", "bls/bls.go:verify"]}
{"id": "C57", "title": "Batch verification decides the product equation", "statement": "VerifyBatch fails when the numbers of keys and messages differ or two messages have the same SHA3-256 digest; otherwise, for a non-empty batch, it accepts exactly when the signature is the sum of the individually valid ones; UnsafeBatch of individual signatures on distinct messages verifies. An empty batch panics (defect).", "quantifier": "all batches", "why_tests_cant": "all batch sizes", "anchors": ["bls/bls.go:VerifyBatch", "bls/bls.go:VerifyUnsafeBatch", "bls/bls.go:UnsafeBatch", "bls/bls.go:verifyBatch", "bls/bls.go:distinct"]}
{"id": "C58", "title": "Unsafe batch verification ignores surplus keys (defect)", "statement": "VerifyUnsafeBatch and VerifyCompressed do not compare the number of keys and messages: keys beyond the number of messages never influence the result, and fewer keys than (distinct) messages panics.", "quantifier": "all batches", "why_tests_cant": "shapes not covered by tests", "anchors": ["bls/bls.go:VerifyUnsafeBatch", "bls/bls.go:VerifyCompressed"]}
{"id": "C59", "title": "BLS signatures are forgeable from one signature (defect)", "statement": "Because messages are hashed to a known multiple of the base point, from any valid signature on one message whose digest is invertible modulo the group order, a valid signature on every other message can be computed without the secret key, for plain and for aggregated keys.", "quantifier": "all keys, all pairs of messages", "why_tests_cant": "an attack over all messages; tests only check that a wrong message fails", "anchors": ["bls/bls.go:h0", "bls/bls.go:verify"]}
{"id": "C60", "title": "Rogue keys break unsafe aggregation but not distinct-message batches", "statement": "For every honest public key an attacker-chosen key exists such that the attacker alone can sign any message for the PublicKey.Aggregate of both and pass VerifyCompressed with allowDistinct; VerifyUnsafeBatch rejects every batch with a repeated message.", "quantifier": "all honest keys, all messages", "why_tests_cant": "an attack over all keys", "anchors": ["bls/bls.go:Aggregate", "bls/bls.go:verifyBatch", "bls/bls.go:VerifyUnsafeBatch"]}
{"id": "C61", "title": "BLS codecs round-trip", "statement": "Marshal/Unmarshal of public keys, aggregated keys and signatures, Compress/Decompress of signatures (also through Unmarshal) and MarshalText/UnmarshalText of public keys return the original object.", "quantifier": "all objects", "why_tests_cant": "all group elements", "anchors": ["bls/bls.go:Marshal", "bls/bls.go:Unmarshal", "bls/bls.go:Compress", "bls/bls.go:Decompress", "bls/bls.go:MarshalText", "bls/bls.go:UnmarshalText"]}
{"id": "C62", "title": "Text encoding is unpadded URL-safe base64 and decodes losslessly", "statement": "decodeText(encodeToText(b)) = b for every byte string b, the encoding has length ceil(4*len/3) and uses only A-Z a-z 0-9 - _; decoding is not injective: line breaks and non-canonical trailing bits are accepted. The hexadecimal strings of the base points are read as the bytes of the number they denote (either case), and odd lengths or other characters are errors.", "quantifier": "all byte strings", "why_tests_cant": "all lengths and contents", "anchors": ["bls/bls.go:encodeToText", "bls/bls.go:decodeText", "bls/bls.go:init"]}
{"id": "C63", "title": "Failed unmarshalling leaves signatures intact but destroys public keys (defect)", "statement": "When Unmarshal/Decompress of a Signature or UnsafeSignature fails, the receiver is unchanged, and a failed AggregateBytes leaves the aggregate unchanged; a failed PublicKey/Apk Unmarshal or UnmarshalText (after text decoding) has already replaced the previous key.", "quantifier": "all receivers and all byte strings", "why_tests_cant": "all malformed inputs", "anchors": ["bls/bls.go:Unmarshal", "bls/bls.go:UnmarshalText", "bls/bls.go:AggregateBytes"]}
{"id": "C64", "title": "BLS aggregation mutates only the receiver; copies are independent", "statement": "In a heap of shared key and signature objects: Apk.Aggregate and Signature.Aggregate/Add change only the receiver's point; AggregateApk, NewApk, Sign, PublicKey.Aggregate and UnsafeAggregate change no existing object; Copy yields an equal object that no later operation on the original changes; UnsafeBatch of a single signature returns the very same object.", "quantifier": "all heaps and aliasing patterns, all operation histories", "why_tests_cant": "aliasing over unbounded histories", "anchors": ["bls/bls.go:Aggregate", "bls/bls.go:Copy", "bls/bls.go:AggregateApk", "bls/bls.go:UnsafeBatch"]}
{"id": "C65", "title": "Decoders are insensitive to how the stream is chunked", "statement": "For every way of delivering the same bytes in chunks of any sizes, the MLSAG, commitment, inner-product and range-proof decoders return the same result; if the stream fails before the needed bytes are delivered they return an error.", "quantifier": "all chunkings (schedules of the reader) and all byte strings", "why_tests_cant": "exponentially many chunkings", "anchors": ["mlsag/mlsag.go:Decode", "rangeproof/rangeproof.go:Decode", "rangeproof/innerproduct/innerproduct.go:Decode", "rangeproof/pedersen/pedersen.go:DecodeCommitments"]}
{"id": "C66", "title": "Encoders write a prefix when the writer fails", "statement": "If the writer fails at any point, Encode returns an error and the bytes written so far are a prefix of the complete encoding; if no write fails, the complete encoding has been written.", "quantifier": "every failure point of the writer", "why_tests_cant": "every crash point of the output", "anchors": ["mlsag/mlsag.go:Encode", "rangeproof/rangeproof.go:Encode", "rangeproof/innerproduct/innerproduct.go:Encode", "rangeproof/pedersen/pedersen.go:EncodeCommitments"]}
{"id": "C67", "title": "Decoder allocation is not bounded by the input (defect)", "statement": "For every n < 2^32 there is a 4-byte input (commitments) resp. 40-byte input (MLSAG) on which decoding allocates n elements before failing.", "quantifier": "all length prefixes", "why_tests_cant": "resource exhaustion by adversarial inputs", "anchors": ["rangeproof/pedersen/pedersen.go:DecodeCommitments", "mlsag/mlsag.go:Decode"]}
{"id": "C68", "title": "A later Prove can destroy an earlier MLSAG signature (defect)", "statement": "The PubKeys slice of a returned Signature is the proof's own ring slice. A later (failing) Prove on the same object appends the signer's vector and shuffles: while the slice has spare capacity this happens in the signature's memory, so the signature's ring becomes the first n rows of a permutation of its n rows and the new row; unless the new row ends up last, Verify on the earlier signature then panics. Without spare capacity the signature is unchanged.", "quantifier": "all rings, capacities, random shuffles and signatures", "why_tests_cant": "depends on slice capacity and on the random shuffle; needs all permutations and all memory layouts", "anchors": ["mlsag/proof.go:31-91", "mlsag/mlsag.go:142-259", "mlsag/dualkey.go:46-63"]}
{"id": "C69", "title": "bLSAG accepts forgeries for rings with zero-value keys (defect)", "statement": "If the zero value of ristretto.Point absorbs addition, and multiplication by non-zero scalars (an assumption about the library, stated as hypotheses), then for every message and every ring with at least one zero-value key, with arbitrary responses, the signature whose key image is the zero value and whose C is the chain value from H(m, zero, zero) verifies, unless the challenge reaching the zero-value row is 0. No secret key is needed; the rings Sign itself produces are of this kind whenever there is a mixin.", "quantifier": "all messages, rings with a zero-value key, responses", "why_tests_cant": "a forgery for every ring; the existing tests never build a signature by hand", "anchors": ["ringsig/blsag/blsag.go:Verify", "ringsig/blsag/blsag.go:computeCLR"]}
{"id": "C70", "title": "bLSAG special soundness", "statement": "For a ring row with a group-element key P and key image I, two answers (s, c), (s', c') with different challenges and equal commitments L and R give x = (s - s')/(c' - c) with P = x B and I = x Hp(P): whoever can answer twice knows the key and used the right key image.", "quantifier": "all keys, images and answers", "why_tests_cant": "statement about arbitrary provers", "anchors": ["ringsig/blsag/blsag.go:computeCLR"]}
{"id": "C71", "title": "Alterations of a tree are noticed by VerifyContent and VerifyTree", "statement": "For any tree (also an altered one) VerifyContent(d) returns true exactly when, for the first leaf whose payload hashes like d, every ancestor stores the hash of its children's hashes, where a leaf child's hash is recomputed from its payload and an inner child's from the hashes its own children store. So after payloads were replaced it accepts only what the tree was built from, or two different inputs hashed by parents of leaves collide; a wrong hash in the root node makes it reject everything; a wrong MerkleRoot makes VerifyTree return false. In an unaltered tree CalculateNodeHash and VerifyNode return the stored hash for every node.", "quantifier": "every heap, tree, payload list, replacement and query", "why_tests_cant": "tests tamper with one leaf of one tree", "anchors": ["merkletree/merkletree.go:VerifyContent", "merkletree/merkletree.go:VerifyTree", "merkletree/merkletree.go:CalculateNodeHash", "merkletree/merkletree.go:VerifyNode"]}
{"id": "C72", "title": "PerformHash continues from the state of the Hash object; the one-shot functions do not", "statement": "Blake2b256, Blake2b512, Sha3256, Sha3512 and Xxhash return the digest of exactly their argument, or the error of the constructor or writer. PerformHash on a Hash object that already absorbed bytes returns the digest of those bytes followed by the payload: k calls on one object give the digests of the concatenations, so PerformHash is not a function of its payload. A writer error never gives a digest.", "quantifier": "every hash algorithm, object state and sequence of payloads", "why_tests_cant": "tests use a fresh object for each call", "anchors": ["hash/hash.go:PerformHash", "hash/hash.go:Blake2b256", "hash/hash.go:Blake2b512", "hash/hash.go:Sha3256", "hash/hash.go:Sha3512", "hash/hash.go:Xxhash"]}
{"id": "C73", "title": "Decoders accept exactly the well-formed inputs", "statement": "On a reader that does not fail, Commitment.Decode, DecodeCommitments, PubKeys.Decode, Responses.Decode and Signature.Decode (both modes) succeed exactly when the input starts with an encoding of some value (a relation between bytes and values stated without the decoder: counts are big-endian 32-bit numbers, points are 32 bytes that SetBytes accepts, scalars are any 32 bytes); they return that value, leave precisely the bytes that follow, append to what the receiver already held, and otherwise return an error. innerproduct Proof.Decode consumes all input and succeeds exactly for lengths >= 64 that are multiples of 32 (an odd number of trailing 32-byte blocks is ignored and invalid points are accepted); when it fails the receiver is unchanged for fewer than 64 bytes and otherwise already has A and B overwritten. rangeproof Proof.Decode consumes all input and succeeds exactly for encodings of a proof.", "quantifier": "all byte strings, split into any chunks, all receivers", "why_tests_cant": "the set of accepted inputs is infinite; tests only try encodings of valid values", "anchors": ["rangeproof/pedersen/pedersen.go:DecodeCommitments", "mlsag/pubkeys.go:Decode", "mlsag/responses.go:Decode", "mlsag/mlsag.go:Decode", "rangeproof/innerproduct/innerproduct.go:Decode", "rangeproof/rangeproof.go:Decode"]}
{"id": "C74", "title": "Content of a range proof", "statement": "Prove on 1 to 16 values pads them with zeros to the next power of two (less than twice the number of values), commits to value i as v_i*Base + r_i*Blind with the i-th random scalar, which stays in the proof, sets M to the padded number, and then is exactly the Bulletproofs prover written down from the paper (order of the random scalars included); it fails only for a zero challenge.", "quantifier": "all value lists of length 1..16, all streams of random scalars, all values of M before the call", "why_tests_cant": "tests check only that the output verifies, which many wrong provers also achieve (for instance with constant blinding)", "anchors": ["rangeproof/rangeproof.go:Prove", "rangeproof/rangeproof.go:computeL", "rangeproof/rangeproof.go:computeR", "rangeproof/pedersen/pedersen.go:CommitToScalar"]}
{"id": "C75", "title": "Range proofs hide the values", "statement": "If the blinding point generates the group (true in a group of prime order when it is not zero), then for each proof that Prove returns for values below 2^64 and for any other values below 2^64 that pad to the same number, some stream of random scalars makes Prove return the same proof for the other values: the same commitments, A, S, T1, T2, taux, mu, t, inner-product proof and encoding.", "quantifier": "all pairs of value lists in range with equal padded size, all streams of random scalars", "why_tests_cant": "an exact statement about all pairs of secret inputs and random streams; no test examines secrecy", "anchors": ["rangeproof/rangeproof.go:Prove", "rangeproof/pedersen/pedersen.go:CommitToVectors"]}
{"id": "C76", "title": "MLSAG signatures reveal only the key images", "statement": "In a signature returned by Prove the signer's responses are fresh nonces (the first random scalars) minus challenge times private key, and the responses of every other member are fresh random scalars, each scalar of the random stream being used at most once. The outcomes of Prove over all shuffles and random scalars are exactly the signatures that Verify accepts with the session's message, the session's ring in some order (signer included), the key images of the session's private keys and one response per key: apart from the key images nothing in a signature depends on which ring member signed.", "quantifier": "all sessions with at least one decoy and rows of equal length, all shuffles and random streams, all candidate signatures", "why_tests_cant": "a statement about the set of all outcomes over all randomness", "anchors": ["mlsag/mlsag.go:prove", "mlsag/mlsag.go:generateNonces", "mlsag/mlsag.go:generateResponses", "mlsag/mlsag.go:Verify"]}
{"id": "C77", "title": "Standalone inner-product proofs do not bind the statement (defect)", "statement": "The challenges of an inner-product proof are hashes of the points L and R only; the point P, Q, the generators and the factors do not enter. Hence for any generators, factors and Q, any size 2^k with 1 <= k < 32 and any nonzero a, b the proof whose points are all the neutral element is accepted by Verify for an explicit point <l,G> + <r o f,H> + a b Q although <l,r> differs from a b; and every proof with k points on each side, whatever its contents, is accepted for an explicit point P.", "quantifier": "all generators, factors and Q, all sizes 2^k with k < 32, all nonzero a, b; all proofs of the right size", "why_tests_cant": "a statement about all generators and sizes and about proofs not made by Generate", "anchors": ["rangeproof/innerproduct/innerproduct.go:Verify", "rangeproof/innerproduct/innerproduct.go:VerifScalars"]}
{"id": "C78", "title": "Soundness of range proofs for algebraic provers", "statement": "Let every point of a range proof for m values be given by coefficients over the generators. If Verify accepts, then an explicitly computed coefficient vector gives a linear combination of the generators that is the neutral element. If that vector is zero, then every commitment is k Base + r Blind with 0 <= k < 2^64 and the known r, or one of the challenges y, z, x, w, u_1..u_k, or the verifier's factor c, is bad. Bad means: it turns a false intermediate statement about what was sent before into a true one (or y or u_j is zero). For given earlier data at most 64m values of y, m+1 of z, 2 of x, 1 of w, 7 of each u_j and 1 of c are bad.", "quantifier": "all proofs of the right size with at least m commitments, all representations of their points, all c, all instances of the group", "why_tests_cant": "a statement about all provers, also dishonest ones, and about the number of exceptions among 2^252 challenges", "anchors": ["rangeproof/rangeproof.go:Verify", "rangeproof/rangeproof.go:megacheckWithC", "rangeproof/innerproduct/innerproduct.go:VerifScalars"]}
{"id": "C79", "title": "Commitments to bits can be completed to a proof", "statement": "If A commits to the bits of the values (and minus their complements) and V to the values, then for all later challenges with y and the u_j nonzero there are T1, T2 (chosen before x), t, taux, mu and L, R, a, b for which both checks hold coefficient by coefficient; each round of the inner-product argument can be continued by points chosen before its challenge; every 64-bit number has such commitments. So the intermediate statements of C78 are those that honest proofs satisfy.", "quantifier": "all m with 64m a power of two, all representations, all challenges with y and u_j nonzero", "why_tests_cant": "a statement for all values and challenges", "anchors": ["rangeproof/rangeproof.go:Prove", "rangeproof/innerproduct/innerproduct.go:Generate"]}
{"id": "C80", "title": "MLSAG accessors and setters", "statement": "SetPrimaryKey and SetCommToZero store their argument as first resp. second key of the DualKey, change nothing else and return the public key; every DualKey session has exactly two keys, so they never panic; the two keys returned are the signer's row of the signature produced by the next successful Prove. LenMembers after any history is the number of AddDecoy calls plus the number of Prove calls (also failing ones). AddPubKey keeps order and the decoy flag; Len counts the keys; OutputKey is the first key and panics without keys. The two keys of a DualKey are the last ones given to SetPrimaryKey and SetCommToZero, zero if there was no such call, whatever else was called; while one is zero Prove returns an error and changes nothing.", "quantifier": "all histories of a Proof or DualKey, all keys", "why_tests_cant": "a statement about all histories, including those with failing calls", "anchors": ["mlsag/dualkey.go:SetPrimaryKey", "mlsag/dualkey.go:SetCommToZero", "mlsag/proof.go:LenMembers", "mlsag/pubkeys.go:OutputKey", "mlsag/pubkeys.go:AddPubKey"]}
{"id": "C81", "title": "Range Prove overwrites the values after its argument", "statement": "Prove returns what it returns for a private copy of its argument, but pads by append: if the slice v has spare capacity for the padding, the elements after v (up to the next power of two of the length) are set to zero in the caller's array, step by step until the capacity is used up, and nothing else that exists is changed. Hence Prove(amounts[:n]) alters amounts[n:], and a later proof for amounts is one for other amounts: 'Prove leaves its arguments alone' is false.", "quantifier": "all memories, slices, values, allocators, coins", "why_tests_cant": "tests use slices made for the call; the effect depends on capacity and shows only in another slice", "anchors": ["rangeproof/rangeproof.go:Prove"]}
{"id": "C82", "title": "Results of vector operations and shared memory", "statement": "Add, Sub, Hadamard, AddScalar, MulScalar, SubScalar and Neg change nothing that exists; their results lie in new memory, so writing to a result changes no other slice, except SubScalar by zero and Neg of an empty slice, which return the argument itself (writing to the result then writes to the argument). SplitPoints and SplitScalars return adjacent windows of the argument; appending to the first part overwrites the beginning of the second.", "quantifier": "all memories and slices, all operations", "why_tests_cant": "sharing is invisible until one of the two slices is written", "anchors": ["rangeproof/vector/vector.go:SubScalar", "rangeproof/vector/vector.go:Neg", "rangeproof/vector/vector.go:SplitPoints", "rangeproof/vector/vector.go:SplitScalars"]}
{"id": "C83", "title": "Transcripts and key lists in shared memory", "statement": "HashCacher.Append appends the concatenation of its arguments; slices obtained from Result before stay valid under any later Append or Clear. Copies of a HashCacher (or of PubKeys) share memory: with spare capacity, appending to one copy overwrites what was appended to the other (for PubKeys: both copies end with the key added last); without spare capacity the copies are independent.", "quantifier": "all memories, slices, arguments, allocators", "why_tests_cant": "depends on the capacity chosen by the allocator and on the history of both copies", "anchors": ["rangeproof/fiatshamir/fiatshamir.go:Append", "rangeproof/fiatshamir/fiatshamir.go:Result", "rangeproof/fiatshamir/fiatshamir.go:Clear", "mlsag/pubkeys.go:AddPubKey"]}
{"id": "C84", "title": "Generator data is kept by reference and written to", "statement": "CommitToVectors on shared memory returns the same commitment and errors as on a private copy of GenData, and changes at most one existing byte: the one after GenData, which becomes the last label when there is spare capacity and more than one vector. Another slice made by appending one byte to GenData in place therefore loses that byte, and an object created from it but not yet used derives its generators from the data of the moment of the first Compute.", "quantifier": "all memories, generator data, vectors, allocators", "why_tests_cant": "needs two objects built on the same array with spare capacity", "anchors": ["rangeproof/pedersen/pedersen.go:CommitToVectors", "rangeproof/pedersen/pedersen.go:New", "rangeproof/generators/generator.go:Iterate"]}
{"id": "C85", "title": "What a failing Decode leaves in its receiver", "statement": "Decode of PubKeys, Responses, Signature, Commitment and range Proof writes to the receiver while it reads. After a failure: PubKeys and Responses have got all elements decoded before the failure (decoding again appends to them); a Signature keeps everything if there are fewer than 32 bytes, otherwise has the new c, and, once the header is complete, the new responses as far as they go with all later rows empty, while the keys are replaced only when all responses were read; a range Proof has the fields decoded so far, possibly one field overwritten by what SetBytes left, old values in the rest, and a new inner product proof without L and R once all its fields were read; commitments are replaced only as a whole. A failing reader leaves what an ending input leaves. Verify of a Signature left by such a failure panics (failure in the keys, or in the responses when the receiver had keys). A successful Decode with keys depends on the receiver only through the message. 'A failing Decode leaves the receiver unchanged' is false.", "quantifier": "all receivers, all readers (chunked in any way, failing at any point), all behaviours of SetBytes on bad input", "why_tests_cant": "tests look at the error only; every truncation point of every input leaves another receiver", "anchors": ["mlsag/mlsag.go:Decode", "mlsag/pubkeys.go:Decode", "mlsag/responses.go:Decode", "rangeproof/rangeproof.go:Decode", "rangeproof/pedersen/pedersen.go:Decode"]}
{"id": "C86", "title": "Range proofs stay sound when round challenges are computed early", "statement": "The challenges of the inner-product rounds are hashes of the points L and R only, so a prover can compute the first rounds before choosing the commitments, A, S, T1, T2 or t, taux, mu. For every number jz <= jx <= jw of rounds computed before z, x and w: an accepted proof whose points have known representations gives an explicit linear relation among the generators; if the relation is trivial then (jz = 0 and) every commitment is to a 64-bit number, or one of the challenges, in this order, lies in a set determined by what was chosen before it, of at most 64m (y), m+1 (z before all rounds), 3 (the first round, if before z), 1 (z after rounds), 7 (each round), 2 (x), 1 (w), 1 (the verifier's factor) elements. With rounds before z even in-range statements are accepted only for such challenges.", "quantifier": "all proofs and all representations of their points, all m, all interleavings jz <= jx <= jw of the rounds with z, x, w, all group and hash functions", "why_tests_cant": "tests cannot try provers; whether the missing transcript binding of the rounds can be exploited is a statement about every adversarial order of choices", "anchors": ["rangeproof/rangeproof.go:Verify", "rangeproof/innerproduct/innerproduct.go:Verify", "rangeproof/fiatshamir/fiatshamir.go:Derive"]}
{"id": "C87", "title": "Range proofs are sound by rewinding: representations can be extracted from the answers", "statement": "For a prover of m aggregated values about which nothing is assumed except that it answers enough challenges (64m+1 of y, m+2 of z, 3 of x, 2 of w, 4 of each inner-product round, distinct, with distinct squares in the rounds, y, z and rounds nonzero): coefficients over the generators of every point it sends (V, A, S, T1, T2, all L and R) can be computed from its scalar answers alone, the same for every group; both verification equations then are explicit linear relations among the generators, and if these relations are trivial every commitment opens to a number in [0, 2^64). The equations are those Verify checks: a proof made of these messages is accepted for two different factors c exactly if they hold. A prover who commits to bits answers all challenges. For a prover whose method works in every library with the laws the relations are trivial, so the conclusion holds without assuming it.", "quantifier": "all m and round counts, all sets of challenges of the stated sizes, all scalar answers, all groups and points, all hash functions", "why_tests_cant": "tests cannot rewind an arbitrary prover; the statement quantifies over all strategies, and says what the test vectors cannot: that no other equation is missing from Verify", "anchors": ["rangeproof/rangeproof.go:Verify", "rangeproof/rangeproof.go:megacheckWithC", "rangeproof/innerproduct/innerproduct.go:Verify", "rangeproof/pedersen/pedersen.go:CommitToScalar"]}
{"id": "C88", "title": "MLSAG signatures are sound by rewinding: private keys and key images can be extracted", "statement": "Take a ring of public keys fixed in advance and any program that asks for hash values and then outputs message, challenge, responses and m key images. Run it (and Verify on its output) with several hash functions that agree until the k-th question and answer that one differently, where in each run the k-th question is the last of the strings hashed for the rows to be asked first, Verify accepts and no row is hashed to zero. If there are more than max(2,n)*k*(k+1)+1 such runs for n rows, then two of them give by an explicit formula (difference of responses over difference of challenges) the private keys of all keys of one row, both have the same key images, and these are the key images of the extracted keys; or in both runs all rows hashed one and the same string, and then the private keys of all rows are extracted. In the latter case two different keys in a column with a key image give a non-trivial relation between their hashes to points. A signer who knows the keys of a row is accepted with every hash function.", "quantifier": "all rings, all programs asking for hash values, all hash functions (of scalars), all numbers of key images; the group and the hash to points are arbitrary", "why_tests_cant": "Extraction is a statement about all forging programs and about pairs of runs with different hash functions; a test runs one signer with the one hash function of the library.", "anchors": ["mlsag/mlsag.go"]}
{"id": "C89", "title": "Key images are not bound to the keys in rings that repeat one row (defect)", "statement": "For every list of private keys, all nonces and arbitrary points T_j, the signature with challenge c = H(msg, nonces*G, T), any number n >= 1 of copies of the row and of its responses, and key images I_j = (T_j - r_j*Hp(K_j))/c is accepted by Verify when c is not zero. The image I_j is the key image of the private key only if T_j = nonce_j*Hp(K_j), so one key can be used with many different key images. (A single row is passed twice by Verify, which does not prevent this.)", "quantifier": "all private keys, nonces, points, messages and numbers of copies", "why_tests_cant": "The accepted signatures are never produced by Prove; tests only verify what Prove returns.", "anchors": ["mlsag/mlsag.go"]}
{"id": "C90", "title": "Keys without key image can be chosen after the challenges (defect)", "statement": "The public keys are not hashed. Given private keys for the columns that have key images, arbitrary points T_j for the other columns and arbitrary decoy rows with responses, the challenges can be computed first and the keys of the other columns set to (T_j - s_j*G)/c afterwards; Verify accepts. A private key z of such a key is the same as a discrete logarithm s_j + c*z of T_j, so nobody needs to know it. In a dual key signature this concerns the commitment to zero, unless the signed message fixes it.", "quantifier": "all private keys, nonces, points T, scalars s, decoy rows and messages", "why_tests_cant": "Needs a signature assembled from outside the API for all points T; tests have the private keys of all columns.", "anchors": ["mlsag/mlsag.go", "mlsag/dualkey.go"]}
{"id": "C91", "title": "bLSAG signatures are sound by rewinding: a private key and its key image can be extracted", "statement": "Take a ring of keys (group elements) fixed in advance and any program that asks for hash values and then outputs message, challenge, responses and key image. Run it (and Verify on its output) with several hash functions that agree until the k-th question and answer that one differently, where in each run the k-th question is the last of the strings hashed by Verify to be asked first, Verify accepts and no string is hashed to zero. If there are more than max(2,n)*k*(k+1)+1 such runs for n keys, two of them give the private key of a key of the ring by an explicit formula, and the key image of both is that of the private key; or all keys hashed one string in both runs, and then the private keys of all keys are extracted, and different keys give a relation between their hashes to points. With two or more keys, Verify accepts exactly what MLSAG verification accepts for the same keys in one column; with one key what it accepts is accepted there.", "quantifier": "all rings of group elements, all programs asking for hash values, all hash functions (of scalars); the group and the hash to points are arbitrary", "why_tests_cant": "Extraction is a statement about all forging programs and about pairs of runs with different hash functions.", "anchors": ["ringsig/blsag/blsag.go", "mlsag/mlsag.go"]}
{"id": "C92", "title": "bLSAG key images are not bound to the key when the ring repeats one key (defect)", "statement": "For every private key x, nonce a and point T, with c = H(m, a*G, T) not zero, s = a - c*x and n >= 1 copies of the key x*G, Verify accepts c, the responses s,...,s and the key image (T - s*Hp(x*G))/c. This is the key image of x only if T = a*Hp(x*G). So one key can be used with many key images.", "quantifier": "all private keys, nonces, points, messages and numbers of copies", "why_tests_cant": "Sign never produces these signatures; a test would need the construction.", "anchors": ["ringsig/blsag/blsag.go"]}
{"id": "C93", "title": "A dual-key signature over Pedersen commitments shows equal amounts", "statement": "With value generator B = Derive(\"blindPoint\") and base point G, let com(v,b) = v*B + b*G (this is CommitToScalar). Spending: for any nonempty decoys (P_i, C_i), key x <> 0, value v and blinding factors b <> b', the session AddDecoy [P_i, C_i] for all i, SubCommToZero com(v,b'), SetMsg, SetPrimaryKey x, SetCommToZero b-b', Prove succeeds; the ring of the signature is a permutation of the rows [P_i, C_i - com(v,b')] and [x*G, com(v,b) - com(v,b')], and Verify accepts it with the key image of x. The scalar b-b' is the private key of com(v,b) - com(v',b') exactly if v = v' or B is zero. Soundness: let the outputs (P_i, v_i, b_i) and com(v',b') be fixed in advance and run a forger with hash functions as in C88; two runs give for some output the private key of P_i, its key image is the one in both signatures, and v_i = v'; or an explicit discrete logarithm of B to the base G; or all rows hashed the same string and the same (except for the key image) holds for all outputs.", "quantifier": "all rings, keys, values, blinding factors, messages, random choices; all forging programs and hash functions", "why_tests_cant": "That amounts cannot differ is a statement about all forgers; the test only runs Prove with random keys that are not commitments.", "anchors": ["mlsag/dualkey.go", "mlsag/mlsag.go", "rangeproof/pedersen/pedersen.go"]}
{"id": "C94", "title": "Signatures can be simulated by choosing one hash value, and honest signers make every signature with their key images", "statement": "For any ring, message, challenge c, responses and key images of fitting lengths, with no private key known: if the last string hashed by Verify is none of the strings hashed before it, Verify accepts under the hash function changed at this one string to c. For accepted signatures this change is no change, so every accepted signature arises in this way. If the key images of an accepted signature are those of private keys xs of the first row (with at least one other row), then the signer with xs makes exactly this signature with nonces r + c*x and with no other nonces. The first statement holds for bLSAG also.", "quantifier": "all rings, messages, challenges, responses, key images, hash functions", "why_tests_cant": "This is zero knowledge in the form of an exact correspondence between signatures; tests see single signatures.", "anchors": ["mlsag/mlsag.go", "ringsig/blsag/blsag.go"]}
{"id": "C95", "title": "MLSAG signatures bind message, responses and key images", "statement": "Let two signatures for the same ring with the same number of key images and the same challenge be accepted. If the messages differ, the last strings hashed differ and both have the challenge as hash. If the strings hashed differ at all, there is a row where two different strings with the same hash were hashed, or where the same string was hashed and the responses give the private keys of the row. If the strings hashed are the same, the messages are the same, the responses that belong to keys are the same, and the key images are the same unless the challenge is zero.", "quantifier": "all rings, hash functions and pairs of accepted signatures", "why_tests_cant": "No test can range over all changed signatures; this gives for each of them a collision of the hash or private keys.", "anchors": ["mlsag/mlsag.go"]}
{"id": "C96", "title": "Signatures can be turned: another signature for the same message and key images by whoever sees one (defect)", "statement": "Let Verify accept an MLSAG signature with as many response vectors as rows. Replacing the challenge by the challenge after the first row and moving the first row and its responses to the end gives a signature that Verify accepts with the same key images. The same holds for bLSAG (for all points, including zero values) when there are as many responses as keys. So signatures are malleable although the ring, as a set, message and key images stay the same.", "quantifier": "all accepted signatures", "why_tests_cant": "The tests only verify signatures as produced.", "anchors": ["mlsag/mlsag.go", "ringsig/blsag/blsag.go"]}
{"id": "C97", "title": "The points of a range proof bind its final scalars", "statement": "Let two range proofs have the same commitments, A, S, T1, T2, L and R (with the right sizes) and be accepted by Verify with the same factor c. Then c*D1 + D2 is a linear relation among the generators, where D1 has the coefficients (a-a')*s_i over G, (b-b')*s_i^-1*y^-i over H, w(ab-t) - w'(a'b'-t') of the value base and mu-mu' of the blinding base, and D2 has t-t' and taux-taux' of the two bases. If both proofs are accepted for two factors, D1 and D2 are relations. If y and the round challenges are nonzero and D1 and D2 have only zero coefficients, the proofs have the same a, b, mu, t and taux.", "quantifier": "all pairs of accepted proofs with the same points, all factors c", "why_tests_cant": "No test can range over all changed proofs; this turns each into explicit coefficients of a relation among generators.", "anchors": ["rangeproof/rangeproof.go", "rangeproof/innerproduct/innerproduct.go"]}
{"id": "C98", "title": "Range proofs can be simulated by choosing four hash values", "statement": "A proof of fitting size with challenge x <> 0 is accepted by Verify for every factor c exactly if S and T1 are two explicit functions of its other components and of its challenges. For any commitments V (of any values, known to nobody), A, T2, L, R, a, b, mu, t, taux and any challenges y, z, x <> 0, w, let S and T1 be these functions; if the strings hashed for y, x and w are none of those hashed for the rounds, Verify accepts the proof under the hash function changed at the four strings hashed for y, z, x and w. So an accepted proof does not by itself show anything about V when hash values can be chosen, and no part of it needs the values.", "quantifier": "all commitments, points, scalars, challenges and hash functions", "why_tests_cant": "This is zero knowledge as an exact description of accepted proofs; the tests only see proofs made from values.", "anchors": ["rangeproof/rangeproof.go", "rangeproof/innerproduct/innerproduct.go", "rangeproof/fiatshamir/fiatshamir.go"]}
{"id": "C99", "title": "Concurrent calls can panic", "statement": "Prove never panics when it runs alone. But when Prove(v), 1 to 16 values, runs concurrently with Prove(w) for more values than v is padded to (w may be too long and be rejected), there is a schedule of their accesses to M in which Prove(v) panics (index out of range). Likewise Verify of a proof of the size M says, that does not panic alone, panics in some schedule with Prove(w) when w has more values than the proof has commitments.", "quantifier": "all values, randomness, proofs and initial M; existence of a schedule", "why_tests_cant": "Tests run calls one after the other; the race detector reports the race but not that it can crash.", "anchors": ["rangeproof/rangeproof.go"]}
{"id": "C100", "title": "A concurrent call can make Verify accept an invalid proof or refuse a valid one", "statement": "Let M be m and let Verify run concurrently with Prove(w), w of length n, 1 <= n <= m. In some schedule Verify gives the answer it would give if the commitments from index n on were removed from the sum of z^(j+2) V_j that it checks. So a valid proof can be refused, unless that part of the sum is zero; and for commitments V of which only the first n are to numbers below 2^64 and the others are arbitrary points there is an explicit proof that Verify accepts in that schedule for every factor c (y and the round challenges being nonzero), although alone Verify accepts it only if that part of the sum is zero. For m = 2, n = 1 and a nonzero second commitment (and z nonzero) Verify alone never accepts the proof, whatever M is.", "quantifier": "all proofs, commitments, factors c; existence of a schedule", "why_tests_cant": "The effect needs a write to M between two particular reads in Verify and a proof made for it.", "anchors": ["rangeproof/rangeproof.go"]}
{"id": "C101", "title": "Whoever can answer the challenges makes an accepted range proof", "statement": "Take any prover of the interactive argument: its messages are functions of the challenges so far. Let its challenges be the hashes of the transcript as in Verify and of L, R as in the inner-product argument. If its answers to these challenges satisfy the two equations, the resulting proof is accepted by Verify for every factor c; if the proof is accepted for two factors, the answers satisfy the equations. In particular for any m numbers below 2^64, blinding factors, alpha and vectors S there is an explicit accepted proof, provided y and the round challenges are nonzero.", "quantifier": "all provers, commitments, hash functions, factors c", "why_tests_cant": "Tests only see proofs made by Prove.", "anchors": ["rangeproof/rangeproof.go", "rangeproof/innerproduct/innerproduct.go"]}
{"id": "C102", "title": "Exactly which payload lists share a Merkle root", "statement": "Expand a list of payload hashes to the leaves of the complete tree of its depth, repeating the left half wherever the right half is missing (a b c d e f becomes a b c d e f e f). Two trees made by NewTree have the same root if the expansion of the shallower list is the list of nodes of the deeper tree (also expanded) at the level of the same width; and only then, or else find_collision on these two lists gives two different inputs of SHA3-256 with the same hash. So, collisions aside: lists of the same depth with the same root differ only in that the longer repeats payloads of the shorter at its end, and if the depths differ every payload hash of the shallower tree is the hash of 64 bytes, two nodes of the deeper one.", "quantifier": "all payload lists, hash functions, depths", "why_tests_cant": "Tests compare a few roots for inequality; that no other pair of lists agrees is a statement about all pairs.", "anchors": ["merkletree/merkletree.go"]}
{"id": "C103", "title": "Vector commitments bind the vectors up to zeros at the ends", "statement": "If two vector commitments for the same generator data have the same value, then the difference of the blinding factors and the differences of the elements (missing elements count as zero) are the coefficients of a relation between the blinding point and the generators; if all are zero, blinding factors and elements agree. Conversely zeros appended to a vector, and vectors of zeros appended, do not change the commitment (defect: lengths are not bound). The generators of the first 256 vectors are derived from pairwise different strings.", "quantifier": "all lists of vectors, blinding factors, generator data and caches", "why_tests_cant": "Tests commit to a few vectors; binding is a statement about all pairs of openings.", "anchors": ["rangeproof/pedersen/pedersen.go", "rangeproof/generators/generator.go"]}
{"id": "C104", "title": "The second of signing gives the signer away", "statement": "Where the signer's keys end up in the ring of an MLSAG signature depends only on the ring size and the draws of the shuffle. These come from a generator seeded with the current Unix second, so whoever knows the signature and a list of candidate seconds containing the true one gets at most one candidate row per second, and the signer's row is among them; two signers with equally large rings in the same second are at the same row (defect: no anonymity towards someone who knows when the signature was made).", "quantifier": "all sessions, rings, keys, messages, random scalars, generators and lists of candidate seconds", "why_tests_cant": "Tests do not control the clock; the claim covers every seed and every ring.", "anchors": ["mlsag/proof.go", "mlsag/mlsag.go", "mlsag/dualkey.go"]}
{"id": "C105", "title": "Encodings of signatures and proofs are not unique (defect)", "statement": "Decoding a scalar never fails, so whatever the library does two different strings of 32 bytes decode to the same scalar, and some string is not the encoding of what it decodes to. Every signer with decoys can make a valid MLSAG signature that has two different encodings of the same length. If Scalar.SetBytes reduces the little-endian number modulo the group order, then everything Signature.Decode, Proof.Decode (range and inner product) accept has another encoding of the same length which anybody can compute.", "quantifier": "all libraries with the stated laws, sessions, rings, keys and byte strings", "why_tests_cant": "Tests decode only what Encode wrote.", "anchors": ["mlsag/mlsag.go", "mlsag/responses.go", "rangeproof/rangeproof.go", "rangeproof/innerproduct/innerproduct.go"]}
{"id": "C106", "title": "Range proof and dual key signature together balance payments", "statement": "When an output is spent with a dual key signature after the commitments of new outputs were subtracted, and these come with an accepted range proof, the spent value equals the sum of the new 64-bit amounts as integers: rewinding both protocols yields the amounts and the private key of an output of that value, or a discrete logarithm of the generator of values. Up to 2^64 amounts add up without wrapping around the group order. The owner of an output to the sum of amounts that Prove accepts can always pay them. Without range proofs the owner of any output can pay one more than it is worth and the signature is accepted.", "quantifier": "all libraries with the stated laws, provers answering the challenges, spenders, rings, values and blinding factors", "why_tests_cant": "No test combines the packages; the claim is about every prover and spender.", "anchors": ["mlsag/dualkey.go", "mlsag/mlsag.go", "rangeproof/rangeproof.go", "rangeproof/pedersen/pedersen.go"]}
{"id": "C107", "title": "Provers that hash on their own are bound by rewinding", "statement": "A program that asks for hash values as it likes and gives the fields of an aggregated range proof is run with hash functions that differ from the point on where a challenge is to be changed. If Verify accepts each result, then all results carry the same commitments, the messages depend only on the challenges drawn before them, coefficients of all points are found, and either these give a relation between the generators or each commitment opens to a number below 2^64. Provers that ask for the strings of the protocol in its order are such programs.", "quantifier": "all libraries with the stated laws, programs, families of hash functions, numbers of values and challenges asked", "why_tests_cant": "The claim is about every program that makes proofs, including malicious ones, and about all hash functions.", "anchors": ["rangeproof/rangeproof.go", "rangeproof/fiatshamir/fiatshamir.go", "rangeproof/innerproduct/innerproduct.go"]}
{"id": "C108", "title": "Inner-product proofs for a fixed statement show knowledge of a witness", "statement": "When the statement, generators and factors are fixed in advance and a prover makes the inner-product Verify accept for at least four challenges with different nonzero squares in each round, vectors a and b are computed from its final answers alone such that the statement is <a,G> + <b o fs, H> + <a,b> Q, or else a nontrivial relation between the generators is found. Whoever has such vectors can answer all nonzero challenges.", "quantifier": "all libraries with the stated laws, generators, factors, statements, numbers of rounds below 32, provers and challenges asked", "why_tests_cant": "The claim is about every prover, however it makes the points it sends.", "anchors": ["rangeproof/innerproduct/innerproduct.go"]}
{"id": "C109", "title": "Zero values of ristretto.Point as keys and key images of MLSAG", "statement": "On group elements Verify does the same whether or not the zero value of ristretto.Point is taken into account. The zero value, which absorbs everything it is added to, makes Verify accept for a ring with a row of zero-value keys and zero-value key images without any private key, and lets the owner of one row's keys sign with zero values for key images, the same for every signer and any number of times. The private keys of a row of group elements remain necessary: two answers to one hashed string give them, whatever the key images are.", "quantifier": "all libraries, messages, rings, numbers of keys and key images, responses and nonces; for forgery and signing the entering challenge of the row is not zero and the zero value absorbs", "why_tests_cant": "The claim is about all rings and all values in the other rows, and the extraction is about every signer.", "anchors": ["mlsag/mlsag.go"]}
{"id": "C110", "title": "Rogue keys against aggregated keys solve one linear equation in hash values", "statement": "AggregateApk multiplies each key with a number that depends on that key alone. For keys that somebody makes from the keys of others (t g2 + u1 P1 + u2 P2 + ...), the aggregate is a known multiple of g2 plus the others' keys, each with its factor: its hash plus the sum of the hashes of the made keys times the coefficients. If the order divides all factors, whoever made the keys signs every message for all keys together through the API without any private key. Otherwise every accepted signature y H(m) with known y gives a linear relation between the others' keys, for one other key its private key. Aggregates of groups of keys add up to the aggregate of all.", "quantifier": "all libraries with the stated laws, keys of others, coefficients, messages, memories", "why_tests_cant": "The exact condition is about all made keys and all signatures that could be presented; tests try one attack.", "anchors": ["bls/bls.go"]}
{"id": "C111", "title": "The two ring signature packages accept each other's signatures (no domain separation)", "statement": "A bLSAG signature with two or more ring members is accepted by blsag.Verify exactly when mlsag's Signature.Verify accepts the MLSAG signature with the same message, challenge, key image, one key and one response per member, for arbitrary points including zero values; with one member bLSAG acceptance implies MLSAG acceptance, but not conversely. Hence what Sign returns is accepted by mlsag, what mlsag's Prove returns in any session with a single private key is accepted by blsag, and the key images of one private key are the same in both packages.", "quantifier": "all messages, rings, responses, challenges, key images; all sessions and randomness", "why_tests_cant": "the tests of the packages never exchange signatures, and equivalence is over all signatures", "anchors": ["ringsig/blsag/blsag.go:Sign", "ringsig/blsag/blsag.go:Verify", "ringsig/blsag/blsag.go:computeCLR", "mlsag/mlsag.go:generateChallenge", "mlsag/mlsag.go:Verify", "mlsag/mlsag.go:CalculateKeyImage"]}
{"id": "C112", "title": "Verify computes 2^k scalars for a proof of k rounds before any size is compared", "statement": "For every inner-product proof, VerifScalars returns as third result no scalars when there are different numbers of points L and R, 2^k scalars for k < 32 rounds, and one for 32 or more rounds. Proof.Verify compares that number with the number uint32(64 M) of generators only after all of them have been computed and multiplied, and then returns the error of vector.Exp about different lengths, whatever M, the commitments, the other parts of the proof and the random scalar are. In terms of bytes: an input of 288 + 64 k bytes (k < 32) which Decode accepts without commitments has k rounds, so 2^k scalars are computed; for every k < 32, four encodings of points followed by any 160 + 64 k bytes are such an input. With k = 31 an input of 2272 bytes makes Verify compute 2^31 scalars (64 GiB) and then return an error.", "quantifier": "all inner-product proofs, all values of M, all range proofs, all inputs of the decoder without read errors, all random scalars", "why_tests_cant": "The tests verify honest proofs of at most 16 values; a test with a proof of 31 rounds would need more memory than a test machine has, and no run shows the number for every proof.", "anchors": ["rangeproof/innerproduct/innerproduct.go:VerifScalars", "rangeproof/rangeproof.go:Verify", "rangeproof/rangeproof.go:megacheckWithC", "rangeproof/vector/vector.go:Exp", "rangeproof/innerproduct/innerproduct.go:Decode"]}
{"id": "C113", "title": "Repeated random scalars give away private keys and blinding factors", "statement": "If blsag.Sign is called twice with the same key and draws the same first random scalar, then the private key equals (s - s')/(c' - c) for the responses s, s' and challenges c, c' of the visible signer rows, all of which can be computed from the two signatures, unless c = c' (then s = s'). In mlsag, the same holds for each private key whose nonce is repeated, in any two sessions. If all random scalars and the shuffle are repeated in rings of the same size, the two signatures have equal responses in all rows except that of the signer: comparing them identifies the signer and yields all private keys. For rangeproof.Prove with repeated random scalars, the difference of two commitments at the same place is the difference of the values times the base point, and the blinding factor of the commitment A to the bits is a function of the two proofs, so that guesses of the values can be checked against A.", "quantifier": "all messages, rings, keys, sessions, values and random scalars", "why_tests_cant": "the tests draw fresh randomness and never compare two signatures; the formula must hold for all scalars", "anchors": ["ringsig/blsag/blsag.go:Sign", "mlsag/mlsag.go:prove", "mlsag/mlsag.go:generateNonces", "mlsag/mlsag.go:generateResponses", "mlsag/proof.go:shuffleSet", "rangeproof/rangeproof.go:Prove"]}
{"id": "C114", "title": "One signature of each member signs every message for every group", "statement": "Let unsafe signatures of some keys be accepted by VerifyUnsafe, each on a message of its own whose hash is not divisible by the order. For every non-empty list of these keys, with repetitions, and every message, the sum of the seen signatures, each multiplied with the hash of its key, the hash of the new message and the inverse of the hash of the signed message, is a Signature accepted by Verify for the AggregateApk of the list; without the hashes of the keys the sum is accepted by VerifyUnsafeBatch for any distinct messages. The inverse exists exactly if the order does not divide the hash. From the Signatures of a group and of a part of it on one message, their difference is a Signature of the remaining members.", "quantifier": "all key lists, messages, signed messages and memories; any bn256 group of prime order", "why_tests_cant": "The forged signature exists for every group and every message; a test forges one.", "anchors": ["bls/bls.go:Verify", "bls/bls.go:AggregateApk", "bls/bls.go:VerifyUnsafe", "bls/bls.go:VerifyUnsafeBatch", "bls/bls.go:UnmarshalSignature"]}
{"id": "C115", "title": "Signatures can be moved to other keys in the columns without key image (defect)", "statement": "Let Verify accept an MLSAG signature with at least two rows. Adding any known multiples d_ij of the base point to the keys of the columns without key image and subtracting c_i*d_ij from their responses, where c_i is the challenge with which row i is entered, gives a signature with the same challenge, message and key images that Verify accepts. In a dual key signature over outputs with the commitment D subtracted, D is so replaced by D - d*G, a commitment to the same value with another blinding factor, by whoever sees the signature. Conversely, two accepted signatures with the same message and challenge that hash the same strings enter the rows with the same challenges, and where this challenge is not zero the keys differ by the multiple (a - a')/c of the base point known from the responses, and the key images by (a*Hp(k) - a'*Hp(k'))/c.", "quantifier": "all signatures, rings, messages, shifts, hash functions and groups with the laws of ristretto", "why_tests_cant": "The moved signature exists for every accepted signature and every shift; a test moves one.", "anchors": ["mlsag/mlsag.go:Verify", "mlsag/mlsag.go:generateChallenge", "mlsag/dualkey.go:SubCommToZero"]}
{"id": "C116", "title": "Copied BLS structs and Apk literals share memory (defect)", "statement": "A copy c := *s of a Signature shares its group element: Aggregate on either changes both, and a copy that Verify accepted is refused after the original is aggregated with anything but zero; Unmarshal gives its receiver an element of its own. &Apk{PublicKey: pk} holds the key itself: Aggregate on it changes pk, Unmarshal on pk changes the aggregated key (but not a copy of the struct *pk), Verify with it and Signature(*u) accepts exactly what VerifyUnsafe accepts for pk and u, and whoever makes the key x*G - h(Q)*Q gets, by aggregating the honest key Q into the literal, a key for which they alone sign every message. A literal with nil makes Aggregate and Verify panic.", "quantifier": "all memories, keys, signatures, messages and groups with the laws of bn256", "why_tests_cant": "Sharing shows only in later calls on other objects; the tests use Copy and NewApk only.", "anchors": ["bls/bls.go:NewApk", "bls/bls.go:Aggregate", "bls/bls.go:Verify", "bls/bls.go:VerifyUnsafe", "bls/bls.go:Unmarshal"]}
{"id": "C117", "title": "Concurrent calls of Prove can return an invalid proof without an error", "statement": "When Prove for values v runs at the same time as Prove for n values that are padded to the same number m > n of values, there is a schedule in which both calls return without an error (unless a challenge is zero), the second with its own proof, but the first with a proof in which the terms z^(j+2) 2^i of the values from n on are missing in r(X), because the condition of the loop of sumZMTwoN reads M once while it is n. Verify, with M = m as the calls leave it, accepts that proof for values below 2^64 exactly when c * sum of the missing terms over the bases H_i + their part of t * Base is zero, so for at most one factor c unless the missing terms, all of them nonzero, are a relation between the bases.", "quantifier": "all lists of 1 to 16 values v, all lists w of n values with pad(n) = pad(|v|) > n, all random scalars, all values of M before, all groups and hash functions, all factors c of Verify; one exhibited schedule", "why_tests_cant": "A test would have to hit one read of M among thousands, and sees a valid proof in every other schedule; that the proof returned is invalid for all inputs needs the algebra of the verification equation.", "anchors": ["rangeproof/poly.go:sumZMTwoN", "rangeproof/rangeproof.go:Prove", "rangeproof/rangeproof.go:Verify", "rangeproof/poly.go:computePoly"]}
{"id": "C118", "title": "The steps of Prove on vectors of any lengths", "statement": "With M = m, computePoly returns the polynomials l and r and the coefficients of t = <l, r> of the paper when the four vectors have 64 m elements, and otherwise the error of the first that does not, in the order aR, sR, aL, sL. computeL, computeR and eval are their values at x, so that t(x) is the inner product of l(x) and r(x). computeT0 is delta(y, z) plus the sum of z^(j+2) v_j over the values given, however many. The debugging functions compute what they are compared with for every length, and debugProve returns nil whenever one of the two vector checks says no, and otherwise reports values of at least 2^64 - 1.", "quantifier": "all vectors of all lengths, all challenges, all m with 64 m < 2^32, all groups", "why_tests_cant": "Prove only calls these steps with vectors of equal lengths, so tests through the API reach none of the error branches, and the identity of t(x) and the inner product is one over all vectors and challenges.", "anchors": ["rangeproof/poly.go:computePoly", "rangeproof/poly.go:computeL", "rangeproof/poly.go:computeR", "rangeproof/poly.go:computeT0", "rangeproof/poly.go:eval", "rangeproof/debug.go:debugProve", "rangeproof/debug.go:debugLxG", "rangeproof/debug.go:debugRxHPrime", "rangeproof/debug.go:debugT0"]}
{"id": "C119", "title": "Concurrent calls of Prove can return a valid proof without blinding", "statement": "When Prove for values v runs at the same time as Prove for n values that are padded to the same number m > n of values, there is a schedule in which the second call returns its own proof and the first call returns exactly what it would return alone if all entries of the blinding vectors sL and sR from 64 n on were zero, because the condition of the loop that draws them reads M once while it is n. Verify accepts that proof as any other, so neither call nor the verifier notices, but the entries of l(x) and r(x) for the bits b of the values from n on are b - z and (b - 1 + z) y^i + z^(j+2) 2^k, which depend on no random scalar other than through the challenges.", "quantifier": "all lists of 1 to 16 values v, all lists w of n values with pad(n) = pad(|v|) > n, both settings of debug, all random scalars, all values of M before, all groups and hash functions; one exhibited schedule", "why_tests_cant": "The proof is valid and nothing is returned that shows the missing randomness; a test would need the schedule and would have to look at local variables of Prove.", "anchors": ["rangeproof/rangeproof.go:computeS", "rangeproof/rangeproof.go:Prove", "rangeproof/rangeproof.go:Verify", "rangeproof/poly.go:computePoly"]}
{"id": "C120", "title": "A ring built by any sequence of Add calls is exactly what was added", "statement": "After any sequence of AddDecoy, AddDecoys, AddSecret and SetMsg calls on a fresh Proof (SetMsg by way of the DualKey that embeds it), the ring consists of the key vectors added, in the order added and all marked as decoys whatever flag they carried, the private keys are those added in order with their public keys as the signer's, and the message is the last one set; hence the order of calls of different kinds, and the grouping of decoys into AddDecoys calls, does not matter. Prove on it panics without decoys, fails with one error if some decoy does not have as many keys as there are secrets, and otherwise returns a signature with that message, one response row per member and the added vectors and the signer's in some order as its ring, together with the key images of the secrets (all, or all but the last), with which it verifies.", "quantifier": "all lists of calls with at least one secret (for the first part, all lists), all key vectors with any flags and lengths, both settings of skipLastKeyImage, all shuffles and random scalars, all groups and hash functions", "why_tests_cant": "The existing tests add equal-length random decoys in one fixed order and look only at the count; the statement is about every order, grouping, flag and length.", "anchors": ["mlsag/proof.go:AddDecoys", "mlsag/proof.go:AddDecoy", "mlsag/proof.go:AddSecret", "mlsag/dualkey.go:SetMsg", "mlsag/mlsag.go:prove"]}
{"id": "C121", "title": "The error for input that ends too early tells whether a field was cut", "statement": "If a decoder (Commitment, DecodeCommitments, PubKeys, Responses, Signature in both modes, range Proof in both modes) accepts some bytes, then on any shorter beginning of the bytes it took it returns the error EOF if the input ends exactly where a field begins (the start, after a count, after a scalar or a point) and unexpected EOF otherwise, never success and never any other error; for the range proof this holds up to the end of the second scalar of its inner product proof. The inner product decoder does so on every input of fewer than 64 bytes and leaves its receiver unchanged. A proof that is cut within its rounds (the L and R points) gives the error that it was not formatted correctly if n bytes of the rounds are left and n is not a multiple of 32; if n is one, the cut proof is accepted, as the same proof with its first n/64 rounds only.", "quantifier": "all inputs accepted, all proper prefixes of what was taken, all ways to deliver both in chunks, all receivers, all groups and hash functions", "why_tests_cant": "Every cut of every encoding with every chunking; the existing tests decode complete encodings only.", "anchors": ["rangeproof/pedersen/pedersen.go:DecodeCommitments", "mlsag/mlsag.go:Decode", "mlsag/pubkeys.go:Decode", "mlsag/responses.go:Decode", "rangeproof/rangeproof.go:Decode", "rangeproof/innerproduct/innerproduct.go:Decode"]}
{"id": "C122", "title": "An encoded range proof with bytes missing or added at the end is not accepted", "statement": "Let Verify have a result for a proof p (for some value of the package variable M and some random scalar c), and let its inner product proof have as many points R as L. If any number of bytes is missing at the end of the encoding of p, then Decode returns an error, or Verify returns for the decoded proof the error that the lengths differ, for the same M and for every c. If bytes are added at the end the same holds, with one exception: exactly 32 added bytes are ignored by Decode, which returns the same proof as without them.", "quantifier": "all proofs with a Verify result, both modes of the encoding, every number of missing bytes and every list of added bytes, all ways to deliver the input in chunks, all receivers, all values of M and c, all groups and hash functions", "why_tests_cant": "Some cut and some extended encodings are accepted by Decode, as proofs with fewer or more rounds; that Verify never accepts one of them is a statement about all of them.", "anchors": ["rangeproof/rangeproof.go:Decode", "rangeproof/rangeproof.go:Verify", "rangeproof/innerproduct/innerproduct.go:Decode", "rangeproof/innerproduct/innerproduct.go:VerifScalars"]}
