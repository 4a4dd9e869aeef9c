{"id": "C01", "title": "IsPowerOfTwo decides powers of two from 2 up", "statement": "For every uint16 n other than 0, IsPowerOfTwo(n) returns, and it returns true exactly when n = 2^k for some k >= 1 (so 1 is rejected). For n = 0 it never returns.", "quantifier": "all 65536 uint16 arguments, and any number of loop iterations for n = 0", "why_tests_cant": "Non-termination at 0 cannot be observed by a test, and TestIsPowerOfTwo samples about twenty values.", "anchors": ["common/math.go:IsPowerOfTwo"]}
{"id": "C02", "title": "Bits is the exact binary expansion", "statement": "Bits(n, L) returns a list of 0/1 digits whose weighted sum (digit i times 2^i) is n, whose length is max(L, bit length of n), and BitsBigEndian is its reverse; Vec.Bits concatenates them in order.", "quantifier": "every scalar n in [0,r) and every bit length L >= 0", "why_tests_cant": "A random scalar is one point of a 254-bit domain.", "anchors": ["common/math.go:Bits", "common/math.go:BitsBigEndian", "common/math.go:ReverseBits", "common/math.go:Vec.Bits"]}
{"id": "C03", "title": "FieldElementFromBytes is total and canonical on 32-byte digests", "statement": "For every 32-byte input FieldElementFromBytes returns a canonical scalar equal to the little-endian-limb value (limb 3 reduced mod 3486998266802970665) times 2^-256 mod r; the conditional subtraction in it is never executed; it returns zero exactly when the first 24 bytes are zero and the last 8 bytes are divisible by 3486998266802970665; any other input length panics.", "quantifier": "every byte string", "why_tests_cant": "2^256 inputs; the dead branch and the zero set have negligible probability under random tests.", "anchors": ["common/math.go:FieldElementFromBytes", "common/math.go:feFrom256Bits"]}
{"id": "C04", "title": "Two digests give the same challenge only in one predictable way", "statement": "FieldElementFromBytes(d) = FieldElementFromBytes(d') for 32-byte d, d' if and only if d and d' agree on the first 24 bytes and their last 8 bytes are congruent mod 3486998266802970665; hence every challenge that is hit at all is hit by 5 or 6 digests.", "quantifier": "all pairs of 32-byte digests", "why_tests_cant": "Collision structure of a map on 2^512 pairs cannot be sampled.", "anchors": ["common/math.go:feFrom256Bits"]}
{"id": "C05", "title": "Generator derivation is domain separated", "statement": "The string hashed to derive generator number i of context c differs from the string for (c', i') whenever (c,i) differs from (c',i'); RandGenVec(n, c) has length n and is a prefix of RandGenVec(n+k, c).", "quantifier": "all context strings and all pairs of indices, all n, k", "why_tests_cant": "It is a statement about all strings; a test can only look at the handful of contexts in use.", "anchors": ["common/math.go:RandGenVec"]}
{"id": "C06", "title": "Vector algebra laws and length checks", "statement": "Vec.InnerProd is symmetric and bilinear, Evens/Odds split a vector so that interleaving them gives it back, Reverse is an involution, Add/Sub/Mul/HadamardProd act pointwise with Sub the inverse of Add, PowerSeries(n,x) lists x^0..x^(n-1); and Add, Sub, InnerProd, HadamardProd, Exp, MulV panic exactly when the lengths differ (Exp also on empty input), Evens/Odds exactly on odd length. Vectors of group elements: Sum adds all entries (panic on none), Add/Mul/Mulv/MulV/Neg act entry by entry with the receiver's length (Add and Mulv panic exactly when the argument is shorter), Duplicate gives n copies of the only entry and panics unless there is exactly one, Bytes concatenates the encodings and determines a G1 vector, and the pairing InnerProd is the bilinear sum of the pairings, panicking exactly on different lengths or no entries.", "quantifier": "all vectors of all lengths over the scalar field", "why_tests_cant": "Universally quantified algebraic identities over a 254-bit field.", "anchors": ["common/math.go:Vec.InnerProd", "common/math.go:Vec.Evens", "common/math.go:Vec.Odds", "common/math.go:Vec.Add", "common/math.go:Vec.Sub", "common/math.go:Vec.Exp", "common/math.go:G1v.MulV", "common/math.go:PowerSeries", "common/math.go:G1v.Sum", "common/math.go:G1v.Duplicate", "common/math.go:G1v.Bytes", "common/math.go:G1v.InnerProd", "common/math.go:G2v.Add", "common/math.go:G2v.Sum"]}
{"id": "C07", "title": "PointProofs: every honest opening verifies", "statement": "For every N, trapdoor alpha, vector m of length N and index i < N, Verify(pp, m[i], pi, Commit(pp,m), i) accepts, where (m[i], pi) = Open(pp, i, m).", "quantifier": "all N >= 2, all trapdoors, all message vectors, all indices", "why_tests_cant": "TestPointProofCommitment checks one N with random messages.", "anchors": ["pp/pointproofs.go:NewPublicParams", "pp/pointproofs.go:Commit", "pp/pointproofs.go:Open", "pp/pointproofs.go:Verify"]}
{"id": "C08", "title": "PointProofs: position binding reduces to the withheld power", "statement": "If Verify accepts two different values m, m' with proofs pi, pi' for the same commitment and index, then pi - pi' = (m' - m) * alpha^(N+1) * g1, i.e. the two openings hand out the group element g1^(alpha^(N+1)) that the parameters withhold. In particular an accepted value for given (C, pi, i) is unique.", "quantifier": "all commitments (well formed or not), all proofs, all values, all indices", "why_tests_cant": "Tests never exercise adversarial openings.", "anchors": ["pp/pointproofs.go:Verify", "pp/pointproofs.go:NewPublicParams"]}
{"id": "C09", "title": "PointProofs: Update equals recommitting", "statement": "Update(pp, Commit(pp,m), m, mi, i) leaves the commitment equal to Commit(pp, m with entry i replaced by mi), for every i < N; later openings of the updated vector verify.", "quantifier": "all vectors, indices and new values; any sequence of updates", "why_tests_cant": "TestUpdate runs one pass over one random vector.", "anchors": ["pp/pointproofs.go:Update", "pp/pointproofs.go:Commit"]}
{"id": "C10", "title": "PointProofs: aggregated honest openings verify", "statement": "For any list of vectors and indices, the Aggregate of their openings verifies under VerifyAggregation against the inner product of the opened values with the random-oracle coefficients, for every random-oracle function.", "quantifier": "all non-empty lists of vectors, indices and every RO function", "why_tests_cant": "TestAggregation aggregates two openings at index 0.", "anchors": ["pp/pointproofs.go:Aggregate", "pp/pointproofs.go:VerifyAggregation", "pp/pointproofs.go:RO"]}
{"id": "C11", "title": "PointProofs: an aggregated opening binds only the weighted sum", "statement": "Two accepted aggregated openings (pi, S), (pi', S') of the same commitments and indices satisfy pi - pi' = (S' - S) alpha^(N+1) g1; conversely the verdict of VerifyAggregation depends on the individual messages only through S. VerifyAggregation panics when the numbers of indices and commitments differ.", "quantifier": "all commitments, proofs, sums, indices, RO functions", "why_tests_cant": "Adversarial inputs.", "anchors": ["pp/pointproofs.go:VerifyAggregation"]}
{"id": "C12", "title": "Inner product argument: completeness", "statement": "For every power-of-two length n (including 1) and all vectors a, b of length n, the proof made by NewInnerProdArgument(pp,a,b).Prove() is accepted by Verify(pp), provided the Fiat-Shamir challenges of the run are non-zero.", "quantifier": "all n = 2^k, all vectors, all generators, all hash functions", "why_tests_cant": "TestInnerProdArgument runs n = 8 once.", "anchors": ["bp/innerprod.go:NewInnerProdArgument", "bp/innerprod.go:Prove", "bp/innerprod.go:Verify", "bp/innerprod.go:prove", "bp/innerprod.go:verify", "bp/innerprod.go:computeNextParams"]}
{"id": "C13", "title": "Inner product argument: a proof fixes the claimed product", "statement": "For fixed parameters, P and proof body, Verify accepts at most one claimed product C (as long as the instance challenge and U are non-zero). In particular an honestly generated proof whose C is replaced by another value is rejected.", "quantifier": "all parameters, P, proof bodies and claims", "why_tests_cant": "Negative statement over all wrong claims.", "anchors": ["bp/innerprod.go:computeInstanceSpecificParams", "bp/innerprod.go:Verify"]}
{"id": "C14", "title": "Inner product argument: soundness fails for prover-chosen statements", "statement": "Because no challenge depends on the statement (P, C), for every n = 2^k >= 2 there are vectors a, b, a value C different from the inner product of a and b, and a proof that Verify accepts for P = commitment to (a,b) and product C, computed without any trapdoor, for every hash function for which the two relevant challenges are usable.", "quantifier": "all k >= 1, all generators, all hash functions (with non-zero challenges)", "why_tests_cant": "No test tries to forge.", "anchors": ["bp/innerprod.go:computeInstanceSpecificParams", "bp/innerprod.go:computeNextParams"]}
{"id": "C15", "title": "Inner product argument: verification reads exactly 2*log2(n) group elements", "statement": "For n = 2^k generators Verify panics if the proof has fewer than 2k elements in LRs, never panics otherwise, and ignores all further elements, so an accepted proof stays accepted with any elements appended. Verify does not change the verdict of a later Verify of the same proof.", "quantifier": "all k, all proofs (adversarial too)", "why_tests_cant": "Adversarially malformed proofs of unbounded size.", "anchors": ["bp/innerprod.go:verify", "bp/innerprod.go:Verify"]}
{"id": "C16", "title": "Inner product argument: one folding round is sound", "statement": "If for fixed L, R, P three non-zero challenges with distinct squares each admit an opening of the folded commitment x^2 L + P + x^-2 R under the folded generators and U, then P (and L and R) is a linear combination of the unfolded generators and U whose coefficients are computed from the three openings.", "quantifier": "all group elements L, R, P and all openings", "why_tests_cant": "Extraction is a statement about all provers.", "anchors": ["bp/innerprod.go:computeNextParams"]}
{"id": "C17", "title": "Iterated reduction: final scalar is the claimed inner product", "statement": "For n = 2^k >= 2, IterativeReduce returns k challenges xs and a scalar equal to the sum over i of v[i] times the product of the reversed xs at the set bits of i, exactly the vector VerifyRange builds with bitDecomposition/PowBitVec/Product.", "quantifier": "all k >= 1, all vectors, all parameters", "why_tests_cant": "TestIterativeReduce checks n=128 with one random vector.", "anchors": ["bp/ir.go:IterativeReduce", "bp/range.go:bitDecomposition", "common/math.go:Vec.PowBitVec", "common/math.go:Vec.Product"]}
{"id": "C18", "title": "Iterated reduction: completeness", "statement": "If V is the commitment of v under G then IterativeVerify accepts the output of IterativeReduce and returns the same challenges and scalar, provided the challenges are non-zero. (The only test of this is commented out in the repository.)", "quantifier": "all n = 2^k >= 2, all vectors, all generators", "why_tests_cant": "The verification call in TestIterativeReduce is commented out.", "anchors": ["bp/ir.go:IterativeVerify", "bp/ir.go:IterativeReduce"]}
{"id": "C19", "title": "Iterated reduction: acceptance characterised", "statement": "With n = 2^k >= 2 generators, n < 65536, and at least k triples, IterativeVerify returns, and accepts exactly when every round equation V_{j+1} = V_j + x_j A_j + x_j^-1 B_j holds and the last V equals the final scalar times the folded generator; extra triples are ignored. With fewer than k triples it never accepts: it panics unless one of the given rounds is already wrong. With any other number of generators below 65536 it panics, and with a multiple of 65536 (0 included) it never returns.", "quantifier": "all inputs, adversarial ones included", "why_tests_cant": "Adversarial inputs; non-termination.", "anchors": ["bp/ir.go:IterativeVerify"]}
{"id": "C20", "title": "Iterated reduction: extraction", "statement": "If for fixed A, B, V three distinct non-zero challenges each admit an opening of V + xA + x^-1 B under the folded generators GL + x^-1 GR, then V, A, B are explicit linear combinations of GL, GR. With four challenges per round and independent generators, one vector v opens V and the final scalar of every accepted run equals the inner product of v with the vector f of C17.", "quantifier": "all group elements, all openings, all triples of challenges", "why_tests_cant": "Extraction is a statement about all provers.", "anchors": ["bp/ir.go:IterativeVerify"]}
{"id": "C21", "title": "Range proof: completeness for values below 2^63", "statement": "For every n = 2^k >= 2, every vector of n values in [0,2^63), every blinding factor and every prover randomness, ProveRange returns a proof and VerifyRange accepts it for V = F^r * Gs^v, provided the challenges of the run are non-zero.", "quantifier": "all n = 2^k, all value vectors, all randomness, all parameters", "why_tests_cant": "TestRangeProof proves the value 100 eight times.", "anchors": ["bp/range.go:ProveRange", "bp/range.go:VerifyRange", "bp/range.go:computeD", "bp/range.go:computeP", "bp/range.go:computeZ"]}
{"id": "C22", "title": "Range proof: the prover never signs an out-of-range value", "statement": "If some value of the vector is >= 2^63 (as a canonical scalar) ProveRange panics, for every randomness.", "quantifier": "all vectors with at least one out-of-range entry", "why_tests_cant": "Tests use small values only.", "anchors": ["bp/range.go:ProveRange", "common/math.go:Vec.Bits"]}
{"id": "C23", "title": "Range proof parameters: the digest does not cover the generators in use", "statement": "In parameters made by GeneratePublicParams, the digest fed to the range-proof challenges is that of the original Gs and F, so it is the same for any two PointProofs trapdoors although Gs and F differ.", "quantifier": "all fanouts, all pairs of trapdoors", "why_tests_cant": "Needs two parameter sets with different trapdoors and equality of digests for all of them.", "anchors": ["bp/range.go:RangeProofPublicParams.Digest", "pol/pol.go:GeneratePublicParams"]}
{"id": "C24", "title": "Sum argument: completeness", "statement": "If the last entry of v is the sum of the others then NewArgument's proof for the commitment to v is accepted by Verify, for every randomness, provided challenges are non-zero.", "quantifier": "all n = 2^k >= 1, all vectors satisfying the sum relation, all randomness", "why_tests_cant": "One random vector of length 64 is tested.", "anchors": ["sum/sa.go:NewArgument", "sum/sa.go:Verify", "sum/sa.go:NewPublicParams"]}
{"id": "C25", "title": "Sum argument: aggregated completeness", "statement": "NewAggregatedArgument over any non-empty list of commitments to vectors satisfying the sum relation is accepted by VerifyAggregated on the same commitments.", "quantifier": "all list lengths >= 1, all n = 2^k, all vectors and randomness", "why_tests_cant": "One random instance is tested.", "anchors": ["sum/sa.go:NewAggregatedArgument", "sum/sa.go:VerifyAggregated", "sum/sa.go:createHVZKChallenge"]}
{"id": "C26", "title": "Sum argument: an honest prover run on a wrong sum is rejected", "statement": "If the last entry of v is not the sum of the others, the proof NewArgument produces is rejected by Verify for every randomness (when the relevant challenge and U are non-zero), and NewCommitment panics on exactly such vectors.", "quantifier": "all vectors violating the relation, all randomness", "why_tests_cant": "Negative test over all wrong vectors.", "anchors": ["sum/sa.go:NewArgument", "sum/sa.go:NewCommitment", "sum/sa.go:Verify"]}
{"id": "C27", "title": "Sum argument: soundness fails for prover-chosen commitments", "statement": "For every n = 2^k >= 2 a prover can choose v and V = F^r Gs^v together with an accepted proof although the last entry of v differs from the sum of the others.", "quantifier": "all k >= 1, all generators and hash functions with usable challenges", "why_tests_cant": "No test tries to forge.", "anchors": ["sum/sa.go:Verify", "bp/innerprod.go:computeInstanceSpecificParams"]}
{"id": "C28", "title": "Equality argument: completeness", "statement": "If v[I] = w[J] with I, J < N-1 then Equality.Prove returns a proof that Equality.Verify accepts for the commitments of v and w, for every randomness and random oracle; if v[I] differs from w[J] Prove panics.", "quantifier": "all N, vectors, indices below N-1, randomness, random oracles", "why_tests_cant": "TestProofOfEquality runs 100 random instances.", "anchors": ["poe/poe.go:Equality.Prove", "poe/poe.go:Equality.Verify"]}
{"id": "C29", "title": "Aggregated equality argument: completeness", "statement": "For m = 2^k pairs of committed vectors with v_k[I_k] = w_k[J_k], I_k, J_k < N-1, Equalities.Prove's proof is accepted by Equalities.Verify, provided the inner-product challenges are non-zero.", "quantifier": "all m = 2^k, N, vectors, indices below N-1, randomness, random oracles", "why_tests_cant": "One random instance with m=128 is tested.", "anchors": ["poe/poe.go:Equalities.Prove", "poe/poe.go:Equalities.Verify"]}
{"id": "C30", "title": "Aggregated equality argument: unequal entries are caught", "statement": "Equalities.Prove does not check equality; on vectors whose paired entries differ its proof is accepted if and only if the sum over k of t_{2k+1} (w_k[J_k] - v_k[I_k]) is zero, t being the oracle's coefficients.", "quantifier": "all vectors, equal or not, all oracles", "why_tests_cant": "Negative statement over all unequal vectors.", "anchors": ["poe/poe.go:Equalities.Prove", "poe/poe.go:Equalities.Verify"]}
{"id": "C31", "title": "Dense ids: the path determines the number, and the length is known", "statement": "For fanout f >= 2 the path of a 9-character decimal id with value num >= 0 consists of the base-f digits of num, least significant first, plus one extra 0 if there are not exactly DigitPathLen(f) digits; all entries are < f; ids with different values have different paths; the length is DigitPathLen(f) exactly when num >= f^(DigitPathLen(f)-2).", "quantifier": "every fanout and every 9-character id", "why_tests_cant": "10^9 ids per fanout.", "anchors": ["sparse/tree.go:DigitPath", "sparse/tree.go:DigitPathLen"]}
{"id": "C32", "title": "Dense path length is minimal", "statement": "For every fanout f >= 2 DigitPathLen(f) terminates with the least L such that f^L > 10^9; for f = 0 and f = 1 it never returns.", "quantifier": "all uint16 fanouts", "why_tests_cant": "Non-termination and all 65536 fanouts.", "anchors": ["sparse/tree.go:DigitPathLen"]}
{"id": "C33", "title": "Dense ids: small and signed ids collide or overlap", "statement": "Paths of dense ids are not prefix free: for every fanout the path of a small id can be a proper prefix of another id's path; every id with a negative value, and 000000000, share the one-step path [0]; a leading + sign does not matter. For the benchmark's ids (>= 10^8) all paths have full length for the fanouts 7..511 but not for fanout 3.", "quantifier": "all fanouts of the form 2^k-1 >= 3, all ids", "why_tests_cant": "Existence and universal statements over 10^9 ids.", "anchors": ["sparse/tree.go:DigitPath", "bench/main.go:main"]}
{"id": "C34", "title": "Hex ids: fixed-length, in-range, prefix-free paths", "statement": "For every supported fanout, whenever the hexadecimal path function returns, the path has exactly the tabulated length, every entry is < fanout and the last is non-zero; hence no path is a proper prefix of another; ids whose direct conversion already has the tabulated length get different paths unless they denote the same number.", "quantifier": "every supported fanout, every id string, every hash function", "why_tests_cant": "2^256 ids.", "anchors": ["sparse/tree.go:HexId2PathForFanOut", "sparse/tree.go:convertPathWithFanout", "sparse/tree.go:ExpectedHexPathLengthByFanOut"]}
{"id": "C35", "title": "Hex ids: rehashing aliases ids", "statement": "If the direct conversion of id s does not have the tabulated length then s and hash(s) have the same path, so they address the same liability; for fanouts 7 and 255 this concerns ids as large as 2^256-1, for every other tabulated fanout every 64-digit id fits in the tabulated length. A negative hexadecimal id never yields a path.", "quantifier": "every supported fanout, id and hash function; any number of iterations", "why_tests_cant": "Needs a statement about all hash outputs and non-termination.", "anchors": ["sparse/tree.go:HexId2PathForFanOut", "sparse/tree.go:hash"]}
{"id": "C36", "title": "Vertex keys are unique", "statement": "Different paths are stored under different database keys: the key of a vertex (dot-separated decimals) determines its path.", "quantifier": "all paths of uint16 of any length", "why_tests_cant": "All pairs of paths.", "anchors": ["sparse/tree.go:Put", "sparse/tree.go:Serialize"]}
{"id": "C37", "title": "Sparse tree: Get returns the last Put", "statement": "After any Put(id,d), Get(id) returns d; Put(id,d) does not change what Get(id') returns for any id' whose path is neither a prefix nor an extension of id's path; on an empty tree Get finds nothing.", "quantifier": "any tree reached by any sequence of Puts, any callback", "why_tests_cant": "All histories and ids.", "anchors": ["sparse/tree.go:Put", "sparse/tree.go:Get"]}
{"id": "C38", "title": "Sparse tree: ancestors are recomputed bottom-up, once each", "statement": "A Put with path p calls UpdateInnerVertex exactly len(p) times, from the leaf's parent up to the root, with the vertex's key, its previous data, the array of FanOut children's current data, the leaf flag true only for the first call, and the index of the changed child.", "quantifier": "all trees, paths, callbacks", "why_tests_cant": "The test checks four Puts in a tree of depth two.", "anchors": ["sparse/tree.go:Put", "sparse/tree.go:rawData"]}
{"id": "C39", "title": "Sparse tree: aggregation invariant", "statement": "With a summing callback, after any sequence of Puts on ids of equal path length the data of every inner vertex is the sum of the latest values of the ids below it.", "quantifier": "all histories with equal-length paths, all fanouts", "why_tests_cant": "All histories.", "anchors": ["sparse/tree.go:Put"]}
{"id": "C40", "title": "Sparse tree: out-of-range path entries panic", "statement": "Put panics if and only if (the callback does not panic and) some entry of the path is >= FanOut.", "quantifier": "all trees whose entries are in range, all paths", "why_tests_cant": "All paths.", "anchors": ["sparse/tree.go:rawData", "sparse/tree.go:Put"]}
{"id": "C41", "title": "Serialized stream is uniquely decodable", "statement": "The byte stream written by Serialize parses back to exactly one record (path, vertex bytes) per vertex, whatever order the children maps are iterated in.", "quantifier": "all trees, all map iteration orders, all vertex encodings below 2^31 bytes (the limit of the decoder in the Go library)", "why_tests_cant": "There is no decoder in the repository to test against; iteration order is nondeterministic.", "anchors": ["sparse/tree.go:Serialize", "sparse/tree.go:RawVertex"]}
{"id": "C42", "title": "Verkle Serialize writes no vertex contents", "statement": "For every verkle tree built by Put, every record written by Tree.Serialize carries an empty vertex field, so two trees over the same ids serialize to the same records whatever the liabilities are.", "quantifier": "all histories", "why_tests_cant": "All histories; the test discards the buffer.", "anchors": ["verkle/tree.go:Serialize"]}
{"id": "C43", "title": "Vertex encoding round-trips", "statement": "FromBytes(v.Bytes()) reproduces the vertex (blinding factor, sum, V, W or its absence, values and digests), for every order in which the maps are iterated.", "quantifier": "all vertices with uint16 indices, all map iteration orders", "why_tests_cant": "Map iteration order is random; all vertices.", "anchors": ["verkle/tree.go:Vertex.Bytes", "verkle/tree.go:Vertex.FromBytes"]}
{"id": "C44", "title": "Liability set behaves as a map", "statement": "For ids whose paths have one common length >= 1, after any history of Sets, Get(id) returns the most recently Set liability of an id with the same path, or not-found if there is none; Set with a negative liability panics and otherwise a Set with in-range path never panics.", "quantifier": "all histories, ids, liabilities", "why_tests_cant": "All histories.", "anchors": ["pol/pol.go:Set", "pol/pol.go:Get", "verkle/tree.go:Put", "verkle/tree.go:Get"]}
{"id": "C45", "title": "Every stored sum is the sum of the liabilities below it", "statement": "After any history the stored vertex of every path prefix holds, as its sum, the total of the current liabilities below it, and as value i the total below child i; the root's sum is the total of all current liabilities.", "quantifier": "all histories with fixed-length paths, every vertex", "why_tests_cant": "All histories.", "anchors": ["verkle/tree.go:updateInnerLayer", "verkle/tree.go:updateLayerAboveLeaves", "verkle/tree.go:updateSum"]}
{"id": "C46", "title": "The digest chain is consistent after every Set", "statement": "After any history every inner vertex stores, for each child, the hash of the child's current commitments, W is the commitment to exactly those digests, and vertices directly above liabilities have no W and no digests.", "quantifier": "all histories with fixed-length paths, every vertex", "why_tests_cant": "All histories.", "anchors": ["verkle/tree.go:updateInnerLayer", "verkle/tree.go:Digest"]}
{"id": "C47", "title": "Inner value commitments always open to the stored values", "statement": "After any history, V of every vertex at least two levels above the liabilities is the PointProofs commitment to (child totals, sum, blinding factor); the same holds for a vertex directly above liabilities that has been written by exactly one Set.", "quantifier": "all histories with fixed-length paths", "why_tests_cant": "All histories.", "anchors": ["verkle/tree.go:updateInnerLayer", "verkle/tree.go:updateLayerAboveLeaves"]}
{"id": "C48", "title": "Updating an existing bottom vertex corrupts its commitment", "statement": "When a Set reaches a bottom vertex that already exists, the new V differs from the commitment to its new values by the old difference plus (newsum - m_k) G_k - (newsum - oldsum) G_fanout, where k is the number of populated children and m_k the old value at k: the sum is written at the wrong position. In particular, with fanout >= 2, setting the same id twice to different liabilities below a fresh bottom vertex leaves a commitment that is not the commitment to the stored values, for all but at most fanout+1 trapdoors.", "quantifier": "all states, ids, values", "why_tests_cant": "No test sets an id twice or two siblings; characterisation over all states.", "anchors": ["verkle/tree.go:updateLayerAboveLeaves"]}
{"id": "C49", "title": "Blinding factors are never refreshed", "statement": "Updating a vertex keeps its blinding factor, so the difference between two successive published V of an inner vertex equals the liability change times public parameters (index element plus sum element), with no hiding.", "quantifier": "all histories and updates", "why_tests_cant": "Privacy relation over all histories.", "anchors": ["verkle/tree.go:updateInnerLayer", "verkle/tree.go:updateLayerAboveLeaves"]}
{"id": "C50", "title": "Total proof: completeness for every history", "statement": "After any non-empty history with total below 2^63, ProveTot returns the exact total of the current liabilities and its proof verifies against the current root commitment V.", "quantifier": "all histories with fixed-length paths (length >= 2), all parameters", "why_tests_cant": "All histories.", "anchors": ["pol/pol.go:ProveTot", "pol/pol.go:TotalProof.Verify"]}
{"id": "C51", "title": "Total proof: a different total cannot be proved without the withheld power", "statement": "If TotalProof.Verify accepts (Sum, pi) against the root V of a set whose true total is T different from Sum, then pi minus the honest proof equals a known non-zero multiple of the withheld parameter g1^(alpha^(N+1)).", "quantifier": "all histories, all adversarial proofs", "why_tests_cant": "Adversarial proofs.", "anchors": ["pol/pol.go:TotalProof.Verify", "pp/pointproofs.go:Verify"]}
{"id": "C52", "title": "Root is frozen by its first call", "statement": "Root() returns the current root commitments if it is called for the first time; every later call returns that same first answer whatever Sets happened in between, and a total proof made after a total-changing Set is then rejected against Root()'s V.", "quantifier": "all interleavings of Set, Get, ProveTot and Root", "why_tests_cant": "No test calls Root, then Set, then Root.", "anchors": ["pol/pol.go:Root", "pol/pol.go:DBMemorizeRoot.Get", "pol/pol.go:NewLiabilitySet"]}
{"id": "C53", "title": "Liability proof: end-to-end completeness", "statement": "After any history in which no two Sets hit the same bottom vertex, with total below 2^63, for every recorded id ProveLiability returns the id's liability and a proof that Verify accepts against the current root (V, W), provided the challenges of the run are non-zero.", "quantifier": "all histories of that kind, all ids, all fixed path lengths >= 2, all randomness, all public parameters", "why_tests_cant": "Tests prove one id in sets of one or two ids.", "anchors": ["pol/pol.go:ProveLiability", "pol/pol.go:LiabilityProof.Verify", "pol/pol.go:GeneratePublicParams"]}
{"id": "C54", "title": "Liability proof: unknown ids and absent state", "statement": "ProveLiability reports not-found exactly for ids whose path has no recorded liability; Root on an empty set returns nothing and ProveTot on an empty set panics.", "quantifier": "all histories and ids", "why_tests_cant": "All histories.", "anchors": ["pol/pol.go:ProveLiability", "pol/pol.go:Root", "pol/pol.go:ProveTot"]}
{"id": "C55", "title": "Liability proof: what acceptance guarantees", "statement": "If Verify accepts then the proof's first V and W are the published root, W has one entry less than the path, each digest is the hash of the next V (and W), every one of the first len(path) commitments passes its range proof, the sum argument and equality argument verify, and the claimed liability opens the last listed V at the last path index.", "quantifier": "all proofs, adversarial ones included", "why_tests_cant": "Adversarial proofs.", "anchors": ["pol/pol.go:LiabilityProof.Verify"]}
{"id": "C56", "title": "Liability proof: any liability can be claimed", "statement": "Verify does not check the number of commitments V, and opens the liability in the last one: from any honest state, for every amount X a prover can make a proof, accepted against the true root for the true id, that claims liability X.", "quantifier": "all honest states, ids and amounts X", "why_tests_cant": "No test uses a malformed proof.", "anchors": ["pol/pol.go:LiabilityProof.Verify"]}
{"id": "C57", "title": "Liability proof: the root W is not bound to the tree below", "statement": "Verify never relates the aggregated opening value to the digests it checks: for any honest state and any digest vector d, a proof is accepted against root (V, commitment to d), even when d does not contain the hash of the child on the path.", "quantifier": "all honest states, ids and vectors d", "why_tests_cant": "No test uses a malformed proof.", "anchors": ["pol/pol.go:LiabilityProof.Verify", "pp/pointproofs.go:VerifyAggregation"]}
{"id": "C58", "title": "Parallel verification gives the sequential verdict", "statement": "Whatever the interleaving of the range-proof goroutines with the main verification thread, Verify accepts in one schedule iff it accepts in every schedule iff the sequential version accepts; with the WaitGroup no schedule deadlocks.", "quantifier": "all interleavings, any number of goroutines", "why_tests_cant": "The scheduler is not under the test's control.", "anchors": ["pol/pol.go:LiabilityProof.Verify", "pol/pol.go:ParallelismEnabled"]}
{"id": "C59", "title": "Parallel proving fills every slot", "statement": "Whatever the interleaving of the range-proof goroutines in ProveLiability, when it returns RangeProofs[i] is the proof for vertex i, for every i.", "quantifier": "all interleavings, any number of goroutines", "why_tests_cant": "The scheduler is not under the test's control.", "anchors": ["pol/pol.go:ProveLiability"]}
{"id": "C60", "title": "Totals of 2^63 or more are accepted but cannot be proved", "statement": "Set never rejects a liability because of the total; once the total reaches 2^63 (below r) Get still works, ProveTot panics, and ProveLiability panics for every id below an overflowing vertex.", "quantifier": "all histories reaching such a total", "why_tests_cant": "All histories.", "anchors": ["pol/pol.go:Set", "pol/pol.go:ProveTot", "bp/range.go:ProveRange"]}
{"id": "C61", "title": "Public parameters are mutually consistent", "statement": "For every supported fanout and tree type GeneratePublicParams terminates, its equality-argument vectors have a power-of-two length m >= path length - 1 which is exactly the padded length used by prover and verifier for full-length paths, the commitment used by the tree equals F^blinding * Gs^(values,sum) with the range- and sum-argument generators, and those have length fanout+1, a power of two.", "quantifier": "all supported fanouts, both tree types, all trapdoors, all vectors", "why_tests_cant": "All trapdoors and vectors; termination.", "anchors": ["pol/pol.go:GeneratePublicParams", "common/math.go:IsPowerOfTwo"]}
{"id": "C62", "title": "A liability set does not survive a restart", "statement": "A LiabilitySet opened on a database already filled by another one finds no id, and its first Set overwrites the root so that the total becomes that single liability.", "quantifier": "all previous histories", "why_tests_cant": "All histories.", "anchors": ["pol/pol.go:NewLiabilitySet", "verkle/tree.go:NewVerkleTree", "verkle/tree.go:updateInnerLayer"]}
{"id": "C63", "title": "Overlapping dense paths break the map", "statement": "Let id a's path be a proper prefix of id b's path, all ids set so far having paths of one length. If a is set, setting b panics. If b is set, setting a returns normally, but from then on Get(b) panics.", "quantifier": "all such pairs of ids, all values", "why_tests_cant": "Depends on id pairs that random tests do not draw.", "anchors": ["sparse/tree.go:DigitPath", "verkle/tree.go:Get", "sparse/tree.go:Put"]}
{"id": "C64", "title": "Range proof: verification writes into the proof without changing later verdicts", "statement": "VerifyRange overwrites the inner-product claim stored in the proof. Verifying the proof it leaves behind gives the same verdict and changes nothing more, and the claim a prover stores there never influences the verdict.", "quantifier": "all parameters for n = 2^k values, all proofs (well-formed or not), all commitments", "why_tests_cant": "A test verifies one honest proof once; the claim is about repeated verification of arbitrary proofs.", "anchors": ["bp/range.go:VerifyRange"]}
{"id": "C65", "title": "Range proof: an accepted protocol proves the range", "statement": "VerifyRange accepts exactly when the reduction, the inner argument on the recomputed point and the last equation all hold for the recomputed challenges. A prover able to answer all challenges of that protocol (two values of x, the reduction tree, 64n values of y0, 3 of y1, 3 of z, the inner trees) knows an opening of V whose values are all below 2^63; if openings are unique, every known opening is in range. Conversely honest provers can answer all challenges.", "quantifier": "all parameters for n = 2^k values, all proofs and commitments; all groups with independent generators, all answer trees", "why_tests_cant": "Soundness quantifies over all provers, not over the honest one.", "anchors": ["bp/range.go:VerifyRange", "bp/range.go:computeP", "bp/ir.go:IterativeVerify", "bp/innerprod.go:Verify"]}
{"id": "C66", "title": "Vector commitment: the published parameters leave out exactly the withheld power", "statement": "NewPublicParams publishes the powers of the trapdoor 1..2N without N+1 in the first group (and 1..N in the second). No fixed linear recipe over the published elements yields the withheld power for more than 2N trapdoors, and no fixed pair of recipes opens one commitment to two different values at the same position for more than 2N trapdoors.", "quantifier": "all curves, all N, all recipes, all sets of trapdoors", "why_tests_cant": "The claim quantifies over all strategies and trapdoors; a test sees one setup.", "anchors": ["pp/pointproofs.go:NewPublicParams", "pp/pointproofs.go:Verify"]}
{"id": "C67", "title": "Every challenge is a hash of an unambiguous encoding of its listed inputs", "statement": "For each protocol the challenge is FieldElementFromBytes of the hash of a stated byte string, and equal strings have equal inputs: point proofs (digest, position, commitments), inner product (digest, L, R), reduction (digest, A, B, previous V), range proof (x: digest, V, W, Q; y: digest, x, Q, R, tag; z: digest, C1, C2, Q, R, y0, y1), sum argument (c, V, W; V), equality argument (points, indices, digest), vertices (V, W). What is not listed does not influence the challenge. The setup digest does determine the generators when G and H have equal length, but parameters without H share their digest with interleaved ones. The digest of the parameters of each protocol is the hash of the encodings of all of their group elements, and for fixed sizes that string determines them (for the vector commitment: those of the first group).", "quantifier": "all curves, parameters and inputs", "why_tests_cant": "Injectivity of the encodings is a statement about all pairs of inputs.", "anchors": ["pp/pointproofs.go:RO", "bp/innerprod.go:randomOracle", "bp/innerprod.go:setupDigest", "bp/ir.go:appendVToChallenge", "bp/range.go:rangeProofRO1", "bp/range.go:computeZ", "sum/sa.go:randomOracleCVW", "poe/poe.go:RO", "verkle/tree.go:Digest"]}
{"id": "C68", "title": "Aggregated openings: coefficients repeat with period 256", "statement": "The coefficient of the i-th commitment of an aggregated opening depends on i modulo 256 only. With more than 256 commitments a claimed value can be increased at one commitment and decreased at the one 256 later without changing the aggregated value.", "quantifier": "all parameters, commitments and values", "why_tests_cant": "Tests aggregate few commitments.", "anchors": ["pp/pointproofs.go:RO", "pp/pointproofs.go:VerifyAggregation"]}
{"id": "C69", "title": "Sum argument: an accepted protocol proves the sum", "statement": "Verify accepts exactly when the inner-product run on the recomputed point and claim accepts. A prover able to answer three challenges x (with trees of the inner argument) for the same W, c knows an opening of V over F, Gs and Hs whose vector v and Hs-part δ satisfy v·(b+δ)=0; if V is a commitment over F and Gs only, its last value is the sum of the others. With a range proof for the same V the values are below 2^63 and the last is the integer sum of the others. The argument alone accepts commitments with a component in Hs whose vector does not sum up.", "quantifier": "all parameters for n = 2^k values, all proofs and commitments; all groups with independent generators, all answer trees", "why_tests_cant": "Soundness quantifies over all provers, not over the honest one.", "anchors": ["sum/sa.go:Verify", "sum/sa.go:randomOracleCVW", "bp/innerprod.go:Verify", "bp/range.go:VerifyRange"]}
{"id": "C70", "title": "Aggregated sum argument: every committed vector sums up", "statement": "VerifyAggregated is Verify for the combination of the commitments with the powers of a hash τ of them. A prover answering for m different τ proves that all m committed vectors sum up. A proof made with NewAggregatedArgument is accepted exactly when τ is a root of the polynomial whose coefficients are the differences, which has fewer than m roots if some vector does not sum up.", "quantifier": "all parameters, numbers of commitments, vectors, randomness", "why_tests_cant": "Tests try one wrong vector; the claim is that differences cannot cancel.", "anchors": ["sum/sa.go:VerifyAggregated", "sum/sa.go:NewAggregatedArgument", "sum/sa.go:createHVZKChallenge"]}
{"id": "C71", "title": "Equality argument: an accepted protocol opens both commitments to the same value", "statement": "If one prover, having sent V', W', answers two different challenges x, each with a value c and with accepted responses to two independent challenge pairs (t0,t1), then explicit combinations of its responses are openings that the vector commitment's Verify accepts, of V at I and of W at J, to the same value. If V and W are honest commitments to v and w, then v[I] = w[J] or an explicit combination of the responses is the withheld power of the trapdoor. The package's prover gives such answers.", "quantifier": "all curves, parameters, commitments, positions below N, proofs and challenges", "why_tests_cant": "Soundness is about every prover, including dishonest ones; tests try one modified proof.", "anchors": ["poe/poe.go:Equality.Verify", "poe/poe.go:Equality.Prove", "pp/pointproofs.go:Verify"]}
{"id": "C72", "title": "Aggregated equality argument: every pair opens to the same value", "statement": "Verify of the aggregated argument accepts exactly when the weighted pairing equation holds and the inner-product run on the recomputed point accepts. A prover that answers two challenges x, each with answers to affinely independent second challenges (with trees of the inner argument), has for every pair openings of V_k at I_k and of W_k at J_k to the same value, as explicit combinations of its responses.", "quantifier": "all curves, parameters for 2^k pairs, commitments, positions, proofs; all groups with independent generators for the inner argument", "why_tests_cant": "Soundness quantifies over all provers and over all pairs of the batch.", "anchors": ["poe/poe.go:Equalities.Verify", "poe/poe.go:Equalities.Prove"]}
{"id": "C73", "title": "Benchmark: ids, population and averages", "statement": "For every random buffer the dense benchmark's id has nine characters and denotes a number in [10^8, 10^9); every such number occurs, and ids coincide exactly when the numbers do. For the fanouts 2^k-1 from 7 on, populating a set with any such ids never panics, every id reads back its last amount, and the measured ids hold 666. With fanout 3, two draws suffice to make Set panic. The average is the mean rounded down when the total fits 63 bits, panics exactly on no measurements (ITERATIONS=0), and can be negative on overflow. The sparse benchmark's ids have 64 characters, denote the number in the buffer and differ for different buffers; populating a set with any of them never panics, for every supported fanout, provided the search for a path ends for each, and the measured ids hold 666.", "quantifier": "all random buffers, all populations and measured ids, all curves, trapdoors, randomness and map orders", "why_tests_cant": "The ids are random; a run with fanout 3 panics only for some draws, and passing runs say nothing about the others.", "anchors": ["bench/main.go:main", "bench/main.go:populateLiabilitySet", "bench/main.go:benchmarkFanout", "bench/main.go:sizes.Avg", "bench/main.go:durations.Avg", "sparse/tree.go:DigitPath", "pol/pol.go:LiabilitySet.Set"]}
{"id": "C74", "title": "Vector commitments hide what is not opened", "statement": "Commitments to a vector followed by a random blinding value, together with openings at any positions other than the blinding's, are distributed the same for any two vectors that agree at the opened positions: for every message there is a one-to-one correspondence between the blindings producing it. In particular every commitment is also a commitment to any other vector. This needs a non-zero trapdoor: with the trapdoor 0, which NewPublicParams does not exclude, the blinding has no effect.", "quantifier": "all curves, sizes N >= 2, non-zero trapdoors, vectors, sets of opened positions", "why_tests_cant": "Hiding is a statement about the whole distribution of commitments for every pair of vectors, not about single runs.", "anchors": ["pp/pp.go:NewPublicParams", "pp/pp.go:Commit", "pp/pp.go:Open"]}
{"id": "C75", "title": "Sum argument: the proof is independent of which opening it was made from", "statement": "For two openings of the same commitment, both with last entry equal to the sum of the others, the sum argument produces every proof from exactly corresponding random values: the proofs are identically distributed (leaving out proofs whose challenge is 0). The same holds for the aggregated argument over a list of commitments.", "quantifier": "all curves, parameters for 2^k entries, openings, numbers of aggregated commitments, proofs", "why_tests_cant": "Witness indistinguishability compares distributions for all pairs of openings; no run can show that a proof reveals nothing.", "anchors": ["sum/sa.go:NewArgument", "sum/sa.go:NewAggregatedArgument"]}
{"id": "C76", "title": "Equality arguments: the proof is independent of which openings it was made from", "statement": "For two pairs of vectors under the same two commitments, each with equal entries at the given positions, the equality argument produces every proof from exactly corresponding random values, so the proofs are identically distributed (leaving out proofs whose first challenge is 0). The same holds for the aggregated argument over a list of pairs when the generator F is not the identity.", "quantifier": "all curves, sizes, non-zero trapdoors, oracles, vectors, positions below N-1, batches of 2^k pairs, proofs", "why_tests_cant": "Witness indistinguishability compares distributions for all pairs of openings; no run can show that a proof reveals nothing.", "anchors": ["poe/poe.go:Equality.Prove", "poe/poe.go:Equalities.Prove"]}
{"id": "C77", "title": "Range proofs: the proof is independent of the committed values", "statement": "For two openings of the same commitment, both with all values in [0,2^63), every range proof is produced from exactly corresponding random values, so the proofs are identically distributed: beyond the fact that the values are in range a proof reveals nothing about them (leaving out proofs for which the first or the last challenge is 0). Generators F and H must not be the identity.", "quantifier": "all curves, parameters for 2^k values, commitments, pairs of openings in range, randomness, proofs", "why_tests_cant": "Witness indistinguishability compares distributions for all pairs of openings; no run can show that a proof reveals nothing.", "anchors": ["bp/range.go:ProveRange", "bp/range.go:VerifyRange", "bp/ir.go:IterativeReduce", "bp/innerprod.go:NewInnerProdArgument"]}
{"id": "C78", "title": "The published commitments of a liability set reveal nothing about the amounts", "statement": "Take two sequences of Set calls with the same ids in the same order but any two choices of non-negative amounts (an id may be Set several times). Everything that is published, that is the value of Root and the commitments of all vertices of the tree, is produced from exactly corresponding random values of the tree, so it is identically distributed: it reveals which ids were Set, but nothing about the amounts. The same holds together with the proof of the total if the totals are equal. The trapdoor must not be 0.", "quantifier": "all curves, fanouts, trapdoors other than 0, id-to-path functions with paths of one length, sequences of Sets, amounts, orders of map iteration, random values", "why_tests_cant": "Compares the distributions of the whole published state for all pairs of amounts; a test only sees single runs and cannot show that nothing leaks.", "anchors": ["pol/pol.go:LiabilitySet.Set", "pol/pol.go:LiabilitySet.Root", "pol/pol.go:LiabilitySet.ProveTot", "verkle/tree.go:Tree.Put", "verkle/tree.go:Tree.updateInnerLayer", "verkle/tree.go:Tree.updateLayerAboveLeaves"]}
{"id": "C79", "title": "Publishing the root again after an update reveals the change of the amount", "statement": "If the root is published before and after one more Set of an id, the two root commitments differ by a public multiple: the change of the amount times the sum of two public generators. No randomness enters, so whoever sees both can confirm any guess of the change; two different new amounts never lead to the same pair of roots, whatever the random values.", "quantifier": "all curves, fanouts, trapdoors, histories of Sets, ids, amounts, orders of map iteration, random values", "why_tests_cant": "Says that no random values whatever hide the change; tests run with particular randomness and do not look at differences of commitments.", "anchors": ["pol/pol.go:LiabilitySet.Set", "pol/pol.go:LiabilitySet.Root", "verkle/tree.go:Tree.updateInnerLayer"]}
{"id": "C80", "title": "A client's proof reveals nothing about the amounts of others", "statement": "Take two sequences of Set calls with the same ids in the same order but any two choices of non-negative amounts that agree on one client. There is a permutation of the random values of the tree under which everything published (Root, the commitments of all vertices, the proof of the total if the totals agree) is the same for both, and given those the liability proofs ProveLiability returns for the client are produced from exactly corresponding random values of the prover. So what the client sees is identically distributed: it says nothing about the other amounts beyond which ids were Set. The same holds for all proofs of several clients together if the amounts agree on each of them. More generally the proofs of two honest states whose commitments on the client's path agree cannot be told apart.", "quantifier": "all curves, fanouts, trapdoors other than 0, id-to-path functions, sequences of Sets, amounts, clients whose bottom vertex was Set once, orders of map iteration, random values", "why_tests_cant": "Compares the distributions of complete proofs over all pairs of amounts and all randomness; a test sees single runs.", "anchors": ["pol/pol.go:LiabilitySet.ProveLiability", "pol/pol.go:LiabilitySet.Set", "pol/pol.go:LiabilitySet.Root", "pol/pol.go:LiabilitySet.ProveTot", "sum/sa.go:NewAggregatedArgument", "poe/poe.go:Equalities.Prove", "bp/range.go:ProveRange"]}
{"id": "C81", "title": "Proof sizes depend on fanout and path length only, and Size leaves parts out", "statement": "Size of a range proof, and of a liability proof returned for an honest state, is a closed formula in the fanout and the path length: it does not depend on amounts, ids, state or randomness. Size is smaller than what the proof carries: the inner product proof of the sum argument and the opening of the client's amount are not counted. Size of generated public parameters counts everything except the powers of the trapdoor that commitments are made of (they are added and subtracted again).", "quantifier": "all curves, fanouts and tree types supported, trapdoors, histories of Sets, ids, amounts, orders of map iteration, random values", "why_tests_cant": "Claims a size for every honest proof; the benchmark only prints the sizes of some, and nothing compares them with what the proofs contain.", "anchors": ["pol/pol.go:LiabilityProof.Size", "pol/pol.go:PublicParams.Size", "bp/range.go:RangeProof.Size", "bp/innerprod.go:InnerProductProof.Size", "poe/poe.go:AggregatedProof.Size", "sum/sa.go:Proof.Size"]}
{"id": "C82", "title": "The memorizing database wrapper is transparent only if nobody writes the root below it", "statement": "For every sequence of reads and writes through DBMemorizeRoot and writes to the database below it: every Get of a non-empty key answers the last value written by anyone; so does Get of the empty key as long as no write of the empty key bypasses the wrapper. Once a non-empty root was read, writes of the empty key below the wrapper stay invisible: Get answers the value read first, until the empty key is written through the wrapper. LiabilitySet reads its root through exactly this wrapper, while its tree writes below it.", "quantifier": "all databases, all sequences of accesses of any length, all keys and values", "why_tests_cant": "Coherence is a statement about every interleaving of reads and writes; a test shows one.", "anchors": ["pol/pol.go:DBMemorizeRoot.Get", "pol/pol.go:DBMemorizeRoot.Put", "pol/pol.go:LiabilitySet.Root", "pol/pol.go:NewLiabilitySet"]}
{"id": "C83", "title": "A proof with too few elements crashes the verifier; any other proof gets an answer", "statement": "LiabilityProof.Verify returns (nil or an error, never a panic) for every proof with arbitrary contents, provided it carries at least as many commitments, range proofs, round messages and inner elements as the parameters demand; the same holds for the range, sum, equality and total verifiers on their own. Every accepted proof has that many elements. But cutting an accepted proof short in any of these places - fewer commitments, fewer range proofs, fewer rounds or inner elements in one range proof, a shorter sum or equality proof - makes Verify panic instead of returning an error.", "quantifier": "all curves, trapdoors, parameters of any supported fanout, all roots, identifiers and paths, all proof contents, every truncation length", "why_tests_cant": "Tests verify honest proofs and a few altered scalars; totality is over all proof contents and all slice lengths an attacker may send.", "anchors": ["pol/pol.go:LiabilityProof.Verify", "pol/pol.go:TotalProof.Verify", "bp/range.go:VerifyRange", "sum/sa.go:Proof.VerifyAggregated", "poe/poe.go:Equalities.Verify", "bp/innerprod.go:InnerProductProof.Verify"]}
{"id": "C84", "title": "One published root fits many trees: accepted liabilities are not covered by the accepted total", "statement": "A user would expect that when one root is published, a total is accepted against it, and several clients each accept a proof of their liability against it, then the total is at least the sum of those liabilities. This is false. The first component of the root depends only on the subtotals below each entry of the root and on one random value. Two liability sets with the same subtotals therefore share it, and a client of the second set is convinced against the root published for the first (both components). Any two clients whose paths start with the same digit can both be convinced, with the honest prover's arguments, that their liability z is included, while the total accepted against the same root is z.", "quantifier": "For all fanouts and tree types admitted by the parameters, all trapdoors, all clients with full-length paths that start alike, all liabilities z in [0,2^63), all random values of the trees, all prover coins that meet non-zero challenges, and (first two theorems) all pairs of histories with equal subtotals.", "why_tests_cant": "The tests verify one client of one tree at a time; the property is about the joint views of several clients, and the failure needs two trees sharing a root.", "anchors": ["pol/pol.go:LiabilityProof.Verify", "pol/pol.go:LiabilitySet.ProveLiability", "pol/pol.go:LiabilitySet.ProveTot", "pol/pol.go:TotalProof.Verify", "verkle/tree.go:Tree.Put"]}
{"id": "C85", "title": "Clients with consistent views are covered by the total, and two more checks would make views consistent", "statement": "Suppose every client's proof carries exactly one value commitment per path entry, the prover knows vectors behind these commitments as the range, sum and equality arguments prove, and clients whose paths share a prefix see the same commitments there. Then the total accepted against the root is at least the sum of the liabilities of all these clients, unless the prover opened one commitment to two different vectors or the withheld power of the parameters can be computed from the openings shown. The views are consistent whenever every digest in a proof is the entry of the digest vector it belongs to (the check that is missing), unless a commitment equivocates or two different hashed lists collide. The honest prover's proofs meet all these conditions.", "quantifier": "For all parameters, all numbers of clients with distinct full-length paths, all accepted proofs whatever their contents, all vectors the prover knows, all accepted totals in int64.", "why_tests_cant": "The guarantee is about arbitrary proofs accepted by arbitrarily many clients together; a test can neither enumerate provers nor exhibit what they do not know.", "anchors": ["pol/pol.go:LiabilityProof.Verify", "pol/pol.go:TotalProof.Verify", "pp/pointproofs.go:PP.Verify"]}
{"id": "C86", "title": "The bytes of stored vertices and serialized trees are standard DER with sizes that do not depend on the amounts", "statement": "A vertex is stored as a DER sequence of: the blinding factor (octet string of 32 bytes, most significant first), the values and the digests (sequences of pairs of a 2-byte key and a 32-byte scalar), the sum, the first commitment and the second commitment (empty when absent). Its size is a function of the number of values, the number of digests and the presence of the second commitment alone. A serialized tree is the concatenation of one record per vertex: 32 bytes of which the first four are the big-endian length of the DER sequence (printable path, octet string) that follows and the rest is zero. Decoding a vertex ignores whatever follows the first element.", "quantifier": "For all vertices with keys below 2^16, all orders in which the maps are iterated, all trees built by Puts whatever the data, all byte strings and all trailing bytes.", "why_tests_cant": "The tests round-trip one vertex through the code's own decoder, which cannot show that other readers understand the bytes, and sizes range over all amounts.", "anchors": ["verkle/tree.go:Vertex.Bytes", "verkle/tree.go:Vertex.FromBytes", "sparse/tree.go:Vertex.Serialize"]}
{"id": "C87", "title": "After a liability is changed, its honest proof is rejected", "statement": "After any sequence of Sets and Roots on a fresh liability set, ProveLiability returns a proof of the recorded liability for every recorded id (it panics only if a range-proof challenge is zero), also when the id was set several times or shares its bottom vertex with other ids; every proof it returns gets a verdict from Verify, never a panic. Whether that proof is accepted is decided by one field element computed from the Sets that went through the bottom vertex and from the trapdoor: if it is zero the proof is accepted against the current root (unless a challenge is zero); if it is not, Verify returns an error, whatever root is given. For a given history where it is not identically zero it vanishes for at most fanout+1 trapdoors: so a client whose liability was changed once (fanout >= 2), or who shares the bottom vertex with one other client of nonzero liability set later (fanout >= 3), is convinced with at most fanout+1 of all nonzero trapdoors.", "quantifier": "For all sequences of Sets and Roots, all ids, liabilities with a total below 2^63, fanouts, path functions, prover coins, map orders and nonzero trapdoors.", "why_tests_cant": "The tests prove liabilities that were set once, below bottom vertices with a single child; the verdict depends on the whole history and on a secret trapdoor.", "anchors": ["pol/pol.go:LiabilitySet.Set", "pol/pol.go:LiabilitySet.ProveLiability", "pol/pol.go:LiabilityProof.Verify", "verkle/tree.go:updateLayerAboveLeaves"]}
{"id": "C88", "title": "Exactly when the benchmark of one fanout completes", "statement": "The benchmark of one fanout (generate parameters, populate the set with batches of ids, then for each run set an id to 666, prove and verify it; finally prove and verify the total) completes, if no challenge is zero, exactly when for every measured id a field element computed from the Sets through its bottom vertex and from the trapdoor is zero; otherwise it panics, whatever the coins. In particular it completes, and reports for every run the size in kilobytes that fanout and depth determine, when no other id drawn shares the bottom vertex of a measured one; for dense ids: when the measured numbers differ from all other numbers drawn modulo fanout^(depth-1). If that field element is not identically zero, at most fanout+1 nonzero trapdoors let the benchmark complete. Conversely, whenever it completes there was at least one run, and every size reported is that one.", "quantifier": "For all supported fanouts and tree types, nonzero trapdoors, batches of at most 1000 ids, numbers of runs with a total below 2^63, random buffers, prover coins, map orders and measured durations.", "why_tests_cant": "A run of the benchmark shows one choice of buffers and one trapdoor; whether the verification inside it can fail depends on all of them.", "anchors": ["bench/main.go:benchmarkFanout", "bench/main.go:benchmarkVerifyTot", "bench/main.go:retryUntilSuccess", "bench/main.go:populateLiabilitySet", "pol/pol.go:LiabilityProof.Verify"]}
{"id": "C89", "title": "The benchmark program: environment and report", "statement": "The program exits with code 2 exactly when PARALLELISM is none of '', 0 and 1, or when ITERATIONS can be read and TREETYPE is none of '', SPARSE and DENSE. PARALLELISM 0 switches the goroutines off, '' and 1 leave them on. An ITERATIONS that is no decimal 32-bit number is a panic, every 32-bit number in decimal is read as itself, and with zero or negative iterations no report is ever printed. With at least one iteration a report is printed exactly when the benchmark of each of the eight fanouts completes; for dense ids that is so if every measured number differs from all others drawn modulo fanout^(depth-1) (for fanout 3 also: all numbers at least 3^17), and no challenge is zero. A printed report consists of nine labelled lines of pairs (fanout, value): the sizes of parameters and proofs in KiB, which are functions of fanout, tree type and the size of a point alone, and for the seven durations the mean of the measured ones in milliseconds, rounded down. For sparse trees nothing is assumed on the ids drawn.", "quantifier": "For all values of the three environment variables, all draws of buffers, trapdoors and coins, map orders, and all measured durations that are non-negative with sums below 2^63.", "why_tests_cant": "A run of the program takes minutes to hours and shows one environment and one set of draws; that the printed sizes do not depend on them and that no other environment yields a report are statements about all of them.", "anchors": ["bench/main.go:main", "bench/main.go:setTreeType", "bench/main.go:setParallelism", "bench/main.go:getIterations", "bench/main.go:measurePPGen", "bench/main.go:measureConstructProofVerify", "bench/main.go:Avg"]}
{"id": "C90", "title": "The generators of the parameters come from pairwise different public labels", "statement": "Every point of the generated parameters outside the vector commitment (range proof G, H, Hs, Fs; equality argument F, G, H; sum argument U, G, H) is the hash-to-curve of the text 'PoL <context> <number>' (hashed twice) for a label of a stated list; no label occurs twice in the list, none is one of those the proofs use for their inner product base ('u', 'U range proof'), and different labels have different texts. So these points (and B) do not depend on the trapdoor, and two equal ones are a collision of SHA-256 or of hashing to the curve.", "quantifier": "For all curves, supported fanouts, tree types and trapdoors; all contexts and numbers for the texts.", "why_tests_cant": "That no label is used twice for any fanout and that any coincidence of generators is a hash collision is a statement about all parameters and hash functions; a reused generator makes no test fail, it lets a prover cheat.", "anchors": ["common/math.go:RandGenVec", "pol/pol.go:GeneratePublicParams", "bp/range.go:NewRangeProofPublicParams", "sum/sa.go:NewPublicParams", "poe/poe.go:NewPublicParams"]}
{"id": "C91", "title": "Computing with shared, mutable points changes nothing it should not", "statement": "Points are Go objects that Add and Sub overwrite, and the code shares them freely (parameters share generators, zero entries of a product share one object). Nevertheless every prover, verifier, commitment function and the parameter generation returns exactly what it would with immutable points, and leaves every object alone that existed before the call - parameters, commitments, other proofs - except that updating a commitment overwrites that commitment, and that verification overwrites the claim fields of the inner product proofs inside the proof it is given. So a proof can be verified again, and many in any order, each with the verdict it would get on its own; and two range proofs with separate inner proofs can be verified side by side without writing to a common object.", "quantifier": "For all curves, memories (any sharing among the objects), parameters, proofs, inputs, random values and sequences of verifications.", "why_tests_cant": "A missing copy shows only for the inputs and the call sequence that later read the overwritten object; tests that build fresh objects for each case never see it. The statement is about all sharings of all objects.", "anchors": ["common/math.go:G1v.MulV", "common/math.go:G1v.Sum", "bp/innerprod.go:InnerProdArgument.Prove", "bp/innerprod.go:InnerProductProof.Verify", "bp/range.go:ProveRange", "bp/range.go:VerifyRange", "sum/sa.go:NewArgument", "sum/sa.go:Proof.Verify", "poe/poe.go:Equality.Prove", "poe/poe.go:Equalities.Prove", "poe/poe.go:Equalities.Verify", "pp/pointproofs.go:Update", "pp/pointproofs.go:Commit", "pol/pol.go:GeneratePublicParams", "pol/pol.go:LiabilityProof.Verify"]}
{"id": "C92", "title": "The same liability proof can be verified from several threads at once", "statement": "Verifying a liability proof assigns to fields of the proof object, and with parallelism on it does so from several goroutines. Nevertheless any number of threads may verify liability proofs at the same time with the same parameters, also the same proof object for different ids, published roots and path functions: in every schedule each call that returns accepts iff it would accept on its own (a rejection is the same error or the error of one of its range proofs), no schedule panics or gets stuck if each call alone returns, and no schedule runs forever. This is a property of LiabilityProof.Verify and not of the verifiers below it: two threads that check one sum proof object against different commitments can get each other's verdict, so a wrong commitment can be accepted.", "quantifier": "For all curves, parameters, finite sets of calls (proofs, ids, roots, path functions; any sharing of whole proof objects), initial field contents and schedules; for all sum proofs and pairs of commitments.", "why_tests_cant": "A test runs a few of the exponentially many schedules, the overwritten fields have the right content unless a switch falls between two adjacent instructions, and the race detector reports the harmless assignments and the harmful ones alike.", "anchors": ["pol/pol.go:LiabilityProof.Verify", "bp/range.go:VerifyRange", "sum/sa.go:Proof.Verify", "sum/sa.go:Proof.VerifyAggregated", "poe/poe.go:Equalities.Verify", "bp/innerprod.go:InnerProductProof.Verify"]}
{"id": "C93", "title": "Equality arguments: exactly when an honest proof about the last slot is accepted", "statement": "A committed vector can be opened in each of its N slots, but an equality argument about the last slot (index N-1, which the code comment reserves for the blinding factor) does not work: for equal entries v[I] = w[J] and any slots I, J < N, the honest prover returns a proof without complaint, and the verifier accepts it iff alpha^(N+1) = 1 for the trapdoor alpha or x*(t0*nu + t1*eta) = 0, where x, t0, t1 are the challenges and the coins nu and eta count only for I = N-1 and J = N-1. So a proof about a last slot is rejected unless a coin or challenge happens to cancel, and below it always accepted. The same holds for the aggregated argument with the weighted sum of the coins of all last slots. Slots from N on make prover and verifier panic.", "quantifier": "For all curves, N >= 2, trapdoors, vectors, slots, coins and random oracles; for the aggregated argument all lists of 2^k pairs, equal or not.", "why_tests_cant": "The repository's tests only use slots in front of the last one, and a test of the last slot sees a rejection for its own random coins, not why and not that it is the only slot affected.", "anchors": ["poe/poe.go:Equality.Prove", "poe/poe.go:Equality.Verify", "poe/poe.go:Equalities.Prove", "poe/poe.go:Equalities.Verify", "pp/pointproofs.go:NewPublicParams"]}
{"id": "C94", "title": "Whether one liability proof can convince two clients", "statement": "Handing two clients with the same balance one and the same proof is how an institution would count a liability once instead of twice. The client's path enters no challenge of the verifier, so for any proof, honest or not, that client A's verification accepts against a root: client B (path of the same length) also accepts it against that root iff three equations between points of the proof hold: the last commitment times the difference of the trapdoor powers of the two last digits is zero, and so are the sums of the digest commitments and of the blinded value commitments, each weighted with its hash challenge times the difference for its digit. In particular, if the paths differ only in the last digit (same vertex), B accepts iff the vertex commitment is the zero point; if they differ in one other digit, B accepts iff that digest commitment (or its challenge) and that blinded commitment (or its challenge) are zero; paths of different lengths are never both accepted; for two different digits at most as many nonzero trapdoors as the digits are apart have equal powers; with the trapdoor 1 every accepted proof convinces every client.", "quantifier": "For all curves, supported parameters and trapdoors, all proofs (not only honest ones), roots, pairs of ids and id-to-path functions with digits below the fanout.", "why_tests_cant": "A test can try one proof against one other id. That nothing else in the proof ties it to the client, and which algebraic coincidences make it transferable, is a statement about all proofs.", "anchors": ["pol/pol.go:LiabilityProof.Verify", "pp/pointproofs.go:VerifyAggregation", "pp/pointproofs.go:Verify", "pp/pointproofs.go:RO", "poe/poe.go:Equalities.Verify", "poe/poe.go:RO"]}
