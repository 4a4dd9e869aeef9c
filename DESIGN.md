# Formal model of yacovm/PoL in Rocq (Coq 8.16.1)

## 1. Approach

The Go packages `common`, `pp`, `bp`, `sum`, `poe`, `sparse`, `verkle` and `pol` are modelled function by function as computable
Gallina functions in `rocq/theories/Model_*.v`. Every definition cites file and lines of /repo. Auxiliary facts are in `*_facts.v`,
`*_run.v` and similar files. Property theorems, the small specifications they use, their `Print Assumptions` and an
`Example …_nonvacuous` beside them are in `Prop_*.v`. `MANIFEST.json` maps each property to its theorems.

* **Panics and non-termination.** A Go function that can panic returns `res A := Ret a | Panic | Hang`. `Hang` is fuel exhaustion; loops that
  terminate are proved never to give `Hang`, the others are proved to give it for every fuel. A Go `error` is a value (`nil_error` or `Err msg`).
* **Scalars.** `Zr` is the field of residues modulo `r`, the concrete order of the BN254 groups. Its primality is proved by Pocklington
  certificates (`Prime_r.v`), so `Zr` is a field without any hypothesis.
* **Groups and hashes.** `Curve` is a record: carriers `G1 G2 GT` with `Zr`-module laws, generators, a bilinear non-degenerate pairing, injective
  fixed-length encodings of points, and SHA-256, HMAC-SHA-256 and hash-to-curve as *arbitrary* functions with outputs of the right length.
  All theorems are for every `C : Curve`. `Toy.v` builds a concrete `Curve`, so the record is inhabited and the examples compute.
* **Randomness**, blinding factors and the trapdoor are explicit, universally quantified arguments.
* **Fiat–Shamir** is executed literally: challenges are the model's hash of the bytes the code hashes. Completeness assumes that the challenges *of that
  run* are non-zero; nothing global is assumed of the hash.
* **Soundness** is special soundness: from accepted answers to several challenges a witness is computed. Where independence of generators
  is needed, the theorem is about an arbitrary `Zr`-module with independent generators (in `G1` itself generators are never independent). A separate
  acceptance theorem says that the code's `Verify` checks exactly the equations of such a conversation.
  The step to hash challenges (random-oracle argument) is probabilistic and not expressed.
* **Maps** are finite maps or association lists; iteration order is a universally quantified permutation where it matters.
* **Mutable points.** In the main model points are values. `Model_mem.v` is a second model of the same functions in which points and inner-product proofs
  are objects that Go's in-place `Add`, `Sub` and assignments overwrite; C91 relates the two, so value semantics is not an assumption for these functions.
* **Goroutines** are an explicit small-step interleaving machine (`Model_conc.v`); in `Model_share.v` several callers run at once and every assignment
  to and read of a field of a shared proof object is a step of its own (C92). Memory is sequentially consistent.

## 2. Per property: what is modelled, how it is proved

The statements are in `properties.jsonl`. Each row names the technique and the theorems (file).

| id | property | model and technique | theorems |
|---|---|---|---|
| C01 | IsPowerOfTwo decides powers of two from 2 up | `uint16` loop with fuel; case analysis on the binary form, all 65536 inputs covered by a lemma | `C01_is_power_of_two` (Prop_common.v) |
| C02 | Bits is the exact binary expansion | `Bits` on `Z`; induction on the number of bits | `C02_bits_exact`, `C02_vec_bits` (Prop_common.v) |
| C03 | FieldElementFromBytes is total and canonical on 32-byte digests | `FieldElementFromBytes` with limbs, `z3 mod q3` and the Montgomery factor; arithmetic | `C03_field_element_total`, `C03_other_lengths_panic` (Prop_common.v) |
| C04 | Two digests give the same challenge only in one predictable way | as C03; congruence of the two digests | `C04_challenge_collisions`, `C04_preimage_count` (Prop_common.v) |
| C05 | Generator derivation is domain separated | `fmt.Sprintf("PoL %s %d")` on strings; injectivity of decimal printing | `C05_generators_domain_separated`, `C05_generator_vectors` (Prop_common.v) |
| C06 | Vector algebra laws and length checks | slices as lists with length panics; list induction and `ring` | `C06_inner_product_laws`, `C06_pointwise`, `C06_sub_inverse_of_add`, `C06_reverse_involution`, `C06_evens_odds`, `C06_power_series`, `C06_length_checks`, `C06_msm`, `C06_point_sums`, `C06_points_pointwise`, `C06_duplicate`, `C06_point_bytes`, `C06_pairing_product` (Prop_common.v, Prop_points.v) |
| C07 | PointProofs: every honest opening verifies | `Model_pp`; verification rewritten as a linear equation between points | `C07_honest_openings_verify`, `C07_misuse_panics`, `C07_commitment_value` (Prop_pp.v) |
| C08 | PointProofs: position binding reduces to the withheld power | two openings subtracted | `C08_position_binding`, `C08_value_unique` (Prop_pp.v) |
| C09 | PointProofs: Update equals recommitting | `Update` against `Commit`; module algebra | `C09_update_is_recommit`, `C09_update_sequences` (Prop_pp.v) |
| C10 | PointProofs: aggregated honest openings verify | weighted sum of openings, weights from `RO` | `C10_aggregated_openings_verify`, `C10_production_oracle` (Prop_pp.v) |
| C11 | PointProofs: an aggregated opening binds only the weighted sum | equivalence with the weighted sum | `C11_aggregate_binds_sum`, `C11_only_the_sum_matters`, `C11_length_mismatch_panics` (Prop_pp.v) |
| C12 | Inner product argument: completeness | prover and verifier of `bp/innerprod.go` with literal hash challenges; induction on the number of rounds | `C12_ipa_complete`, `C12_generated_params` (Prop_ipa.v) |
| C13 | Inner product argument: a proof fixes the claimed product | two claims for one proof subtracted | `C13_claim_unique`, `C13_commitment_unique`, `C13_altered_claim_rejected` (Prop_ipa.v) |
| C14 | Inner product argument: soundness fails for prover-chosen statements | explicit forging algorithm, run against the verifier | `C14_ipa_forgery` (Prop_ipa.v) |
| C15 | Inner product argument: verification reads exactly 2*log2(n) group elements | exact reads of the LR list; induction on rounds | `C15_too_few_panics`, `C15_enough_returns`, `C15_extra_ignored` (Prop_ipa.v) |
| C16 | Inner product argument: one folding round is sound | special soundness over an arbitrary module: interpolation of four answers per round, induction over the tree | `C16_round_extraction`, `C16_special_soundness`, `C16_two_first_challenges`, `C16_verifier_runs` (Prop_ipa.v) |
| C17 | Iterated reduction: final scalar is the claimed inner product | `IterativeReduce`; induction on rounds | `C17_final_scalar`, `C17_bit_decomposition` (Prop_ir.v) |
| C18 | Iterated reduction: completeness | prover run into the verifier; induction on rounds | `C18_ir_complete` (Prop_ir.v) |
| C19 | Iterated reduction: acceptance characterised | acceptance as a closed equation | `C19_acceptance`, `C19_too_few`, `C19_extra_ignored`, `C19_bad_sizes` (Prop_ir.v) |
| C20 | Iterated reduction: extraction | as C16, for the reduction | `C20_round_extraction`, `C20_special_soundness` (Prop_ir.v) |
| C21 | Range proof: completeness for values below 2^63 | `ProveRange` into `VerifyRange`; algebra over lists of length n·63 | `C21_range_complete`, `C21_returned_verifies`, `C21_generated_params` (Prop_range.v) |
| C22 | Range proof: the prover never signs an out-of-range value | prover on out-of-range values ends in `panic` | `C22_out_of_range_panics` (Prop_range.v) |
| C23 | Range proof parameters: the digest does not cover the generators in use | digest of the original generators against the replaced ones | `C23_stale_digest` (Prop_params.v) |
| C24 | Sum argument: completeness | `sum/sa.go` prover into verifier | `C24_sum_complete`, `C24_generated_params` (Prop_sum.v) |
| C25 | Sum argument: aggregated completeness | powers of τ; C24 for the combination | `C25_aggregated_sum_complete` (Prop_sum.v) |
| C26 | Sum argument: an honest prover run on a wrong sum is rejected | prover run on a wrong sum; the equation reduces to the difference | `C26_wrong_sum_rejected`, `C26_commitment_checks_sum` (Prop_sum.v) |
| C27 | Sum argument: soundness fails for prover-chosen commitments | explicit forger using C14's gap | `C27_sum_forgery` (Prop_sum.v) |
| C28 | Equality argument: completeness | `Equality.Prove` into `Verify` for any oracle that answers with enough scalars | `C28_equality_complete`, `C28_unequal_panics`, `C28_generated_params`, `C28_package_oracle` (Prop_poe.v) |
| C29 | Aggregated equality argument: completeness | `Equalities.Prove` into `Verify` | `C29_equalities_complete` (Prop_poe.v) |
| C30 | Aggregated equality argument: unequal entries are caught | acceptance of the honest run reduces to a weighted sum of differences | `C30_unequal_entries` (Prop_poe.v) |
| C31 | Dense ids: the path determines the number, and the length is known | base-f digits; `ParseInt` on strings | `C31_dense_path`, `C31_value`, `C31_injective`, `C31_length`, `C31_rejects`, `C31_every_number` (Prop_paths.v) |
| C32 | Dense path length is minimal | minimality of the loop of `DigitPathLen` | `C32_path_length`, `C32_small_fanouts`, `C32_iterations` (Prop_paths.v) |
| C33 | Dense ids: small and signed ids collide or overlap | explicit overlapping and colliding ids | `C33_nonpositive`, `C33_zero_is_prefix`, `C33_one_is_prefix`, `C33_plus_sign`, `C33_benchmark_ids`, `C33_benchmark_fanout_3` (Prop_paths.v) |
| C34 | Hex ids: fixed-length, in-range, prefix-free paths | digits of 256-bit numbers, table of lengths | `C34_fixed_length`, `C34_prefix_free`, `C34_deterministic`, `C34_direct`, `C34_injective` (Prop_paths.v) |
| C35 | Hex ids: rehashing aliases ids | rehash loop | `C35_alias`, `C35_too_large`, `C35_too_small`, `C35_negative`, `C35_not_hex` (Prop_paths.v) |
| C36 | Vertex keys are unique | keys built from paths; injectivity of the separator encoding | `C36_keys_unique` (Prop_sparse.v) |
| C37 | Sparse tree: Get returns the last Put | tree as rose tree with association lists; induction on paths | `C37_get_after_put`, `C37_other_ids`, `C37_empty`, `C37_vertices` (Prop_sparse.v) |
| C38 | Sparse tree: ancestors are recomputed bottom-up, once each | callback as state transformer; log of calls | `C38_callbacks` (Prop_sparse.v) |
| C39 | Sparse tree: aggregation invariant | invariant preserved by `Put`, induction over histories | `C39_aggregation` (Prop_sparse.v) |
| C40 | Sparse tree: out-of-range path entries panic | index check at the first bad entry | `C40_panic_iff` (Prop_sparse.v) |
| C41 | Serialized stream is uniquely decodable | DER stream of the tree; parser inverts the printer | `C41_stream` (Prop_sparse.v) |
| C42 | Verkle Serialize writes no vertex contents | `Tree.Serialize` on the database keys the tree holds | `C42_no_contents`, `C42_same_records` (Prop_verkle.v) |
| C43 | Vertex encoding round-trips | DER encoding of `RawVertex` at byte level, decoder inverts it | `C43_round_trip` (Prop_verkle.v) |
| C44 | Liability set behaves as a map | history of `Set` refines a finite map | `C44_get`, `C44_set_never_fails`, `C44_negative_panics` (Prop_set.v) |
| C45 | Every stored sum is the sum of the liabilities below it | invariant over all histories | `C45_runs_succeed`, `C45_sums`, `C45_root_sum` (Prop_verkle.v) |
| C46 | The digest chain is consistent after every Set | invariant over all histories (digest of child = entry of parent) | `C46_digests`, `C46_bottom` (Prop_verkle.v) |
| C47 | Inner value commitments always open to the stored values | invariant over all histories (V, W open to the stored values) | `C47_inner`, `C47_bottom_once` (Prop_verkle.v) |
| C48 | Updating an existing bottom vertex corrupts its commitment | second `Set` through a bottom vertex, computed symbolically | `C48_bottom_update`, `C48_same_id_twice`, `C48_few_trapdoors` (Prop_verkle.v) |
| C49 | Blinding factors are never refreshed | difference of successive commitments | `C49_no_refresh` (Prop_verkle.v) |
| C50 | Total proof: completeness for every history | C47 and C07 through `ProveTot` and `Verify` | `C50_total_proof_complete` (Prop_set.v) |
| C51 | Total proof: a different total cannot be proved without the withheld power | C08 at index fanout | `C51_total_binding` (Prop_set.v) |
| C52 | Root is frozen by its first call | `DBMemorizeRoot.Get`; induction over histories | `C52_first_call`, `C52_frozen`, `C52_later_total_proofs`, `C52_few_trapdoors` (Prop_set.v) |
| C53 | Liability proof: end-to-end completeness | composition of C21, C25, C29, C10, C47 through `ProveLiability` and `LiabilityProof.Verify` | `C53_accepted`, `C53_returned`, `C53_generated` (Prop_liability.v) |
| C54 | Liability proof: unknown ids and absent state | unknown ids: `Get`, `ProveLiability`, `Root`, `ProveTot` | `C54_not_found`, `C54_empty_root`, `C54_empty_total` (Prop_set.v) |
| C55 | Liability proof: what acceptance guarantees | inversion of `LiabilityProof.Verify` | `C55_acceptance` (Prop_accept.v) |
| C56 | Liability proof: any liability can be claimed | explicit false proof with one appended commitment | `C56_any_liability` (Prop_liability.v) |
| C57 | Liability proof: the root W is not bound to the tree below | explicit proof against a root with a foreign W | `C57_any_root_digests` (Prop_liability.v) |
| C58 | Parallel verification gives the sequential verdict | small-step interleavings of goroutines; confluence to the sequential verdict | `C58_sequential`, `C58_same_verdict`, `C58_no_crash_no_deadlock`, `C58_deadlock_free`, `C58_terminates`, `C58_accept_one_iff_all` (Prop_conc.v) |
| C59 | Parallel proving fills every slot | small-step interleavings with lock and WaitGroup; invariant | `C59_slots`, `C59_not_found`, `C59_after_return`, `C59_no_crash_no_deadlock`, `C59_deadlock_free`, `C59_terminates`, `C59_sequential` (Prop_conc.v) |
| C60 | Totals of 2^63 or more are accepted but cannot be proved | `Zr.Int` error at 2^63 | `C60_total_overflow`, `C60_liability_overflow`, `C44_set_never_fails` (Prop_set.v) |
| C61 | Public parameters are mutually consistent | `GeneratePublicParams` component by component | `C61_consistent`, `C61_unsupported`, `C61_commitments`, `C61_padding` (Prop_params.v) |
| C62 | A liability set does not survive a restart | fresh tree over an old database | `C62_finds_nothing`, `C62_first_set`, `C62_stale_total` (Prop_set.v) |
| C63 | Overlapping dense paths break the map | overlapping dense ids through `Set`/`Get` | `C63_long_after_short`, `C63_short_after_long` (Prop_overlap.v) |
| C64 | Range proof: verification writes into the proof without changing later verdicts | `VerifyRange` as state transformer on the proof object | `C64_reverification`, `C64_inner_claims_ignored` (Prop_range.v) |
| C65 | Range proof: an accepted protocol proves the range | special soundness of the whole range protocol, bits extracted from the quadratic constraints | `C65_acceptance`, `C65_special_soundness`, `C65_committed_in_range`, `C65_honest_conversations` (Prop_rangesound.v) |
| C66 | Vector commitment: the published parameters leave out exactly the withheld power | polynomials in the trapdoor; `poly_roots` | `C66_published`, `C66_withheld`, `C66_algebraic_binding` (Prop_withheld.v) |
| C67 | Every challenge is a hash of an unambiguous encoding of its listed inputs | unique decodability of every hash input | `C67_pointproofs`, `C67_inner_product`, `C67_setup`, `C67_setup_ambiguous`, `C67_reduction`, `C67_range`, `C67_range_inputs`, `C67_sum`, `C67_equality`, `C67_vertex`, `C67_parameters`, `C67_parameters_inputs` (Prop_transcript.v) |
| C68 | Aggregated openings: coefficients repeat with period 256 | byte truncation in `RO` | `C68_period`, `C68_compensation` (Prop_withheld.v) |
| C69 | Sum argument: an accepted protocol proves the sum | special soundness, opening uniqueness over independent generators | `C69_acceptance`, `C69_special_soundness`, `C69_committed_sum`, `C69_range_and_sum`, `C69_honest_conversations`, `C69_honest_answers`, `C69_hidden_component` (Prop_sumsound.v) |
| C70 | Aggregated sum argument: every committed vector sums up | Vandermonde argument over τ | `C70_acceptance`, `C70_special_soundness`, `C70_wrong_sums_rejected` (Prop_sumsound.v) |
| C71 | Equality argument: an accepted protocol opens both commitments to the same value | linear algebra on accepted equations (Cramer), stated on `Equality_Verify` itself | `C71_two_answers`, `C71_special_soundness`, `C71_equal_or_withheld`, `C71_honest_answers` (Prop_poesound.v) |
| C72 | Aggregated equality argument: every pair opens to the same value | C16 plus weighted combination of the pairing equations | `C72_acceptance`, `C72_same_first_challenge`, `C72_special_soundness` (Prop_poesound.v) |
| C73 | Benchmark: ids, population and averages | C31, C33, C34, C44 and C63 applied to the generated ids; decimal printing inverted by induction on the digits | `C73_id_format`, `C73_every_id`, `C73_id_injective`, `C73_dense_runs`, `C73_dense_benchmark`, `C73_fanout_3_panics`, `C73_average_panics`, `C73_average_mean`, `C73_average_overflow`, `C73_sparse_ids`, `C73_sparse_benchmark` (Prop_bench.v) |
| C74 | Vector commitments hide what is not opened | `Hiding.v`: bijection between random values (`same_messages`), closed forms of `Commit`/`Open` | `C74_hiding`, `C74_any_vector`, `C74_trapdoor_0` (Prop_hiding.v) |
| C75 | Sum argument: the proof is independent of which opening it was made from | masks shifted by x⁻¹(v−v'), which leaves every sent value unchanged | `C75_sum_argument`, `C75_aggregated` (Prop_hiding.v) |
| C76 | Equality arguments: the proof is independent of which openings it was made from | closed form of the prover; masks readjusted so that every sent value stays, Ω because it is determined by the rest | `C76_equality`, `C76_equalities` (Prop_eqhiding.v) |
| C77 | Range proofs: the proof is independent of the committed values | closed form of the prover; the five masks readjusted so that every sent value stays; ρ and τ because the sent points determine them | `C77_range_proof` (Prop_rangehiding.v) |
| C78 | The published commitments of a liability set reveal nothing about the amounts | the vertex at each path takes its own random value (which one is computed); two runs of one history differ only in the blinding of each commitment, so the amounts can be compensated vertex by vertex; digests and W follow bottom-up | `C78_commitments`, `C78_with_total` (Prop_treehiding.v) |
| C79 | Publishing the root again after an update reveals the change of the amount | difference of the two commitments of the root vertex (C49); a guess is confirmed by one comparison | `C79_update_difference`, `C79_updates_hidden_refuted` (Prop_treehiding.v) |
| C80 | A client's proof reveals nothing about the amounts of others | closed form of ProveLiability; the openings on the path are determined by commitments and amounts up to the blinding; the bijections of the sum, equality and range arguments (C75-C77) are composed component by component | `C80_liability_proof`, `C80_client_view`, `C80_coalition` (Prop_proofhiding.v) |
| C81 | Proof sizes depend on fanout and path length only, and Size leaves parts out | number of rounds of the inner product argument and of the iterated reduction; length of each component of the closed form of ProveLiability; explicit lists of all points and scalars | `C81_range_size`, `C81_liability_size`, `C81_params_size`, `C81_parts_size` (Prop_size.v) |
| C82 | The memorizing database wrapper is transparent only if nobody writes the root below it | wrapper as a state machine; invariant: the memorized root is empty or the database's value of the empty key; induction over the accesses | `C82_transparent`, `C82_other_keys`, `C82_stale`, `C82_used_by_root` (Prop_memo.v) |
| C83 | A proof with too few elements crashes the verifier; any other proof gets an answer | shape predicates on lengths only; each verifier is run step by step, the loop by induction over the path; the panics follow from the too-few theorems of C15 and C19 after all earlier checks pass | `C83_liability_returns`, `C83_range_returns`, `C83_sum_returns`, `C83_equality_returns`, `C83_total_returns`, `C83_accepted_shape`, `C83_truncated_panics` (Prop_total.v) |
| C84 | One published root fits many trees: accepted liabilities are not covered by the accepted total | Prop_views. C84_same_root compares the two root vertices entry by entry (root_vertex) with their blinding (verkle_births); C84_two_trees_one_root combines the completeness of the liability proof (C53) for the second tree with the exchange of the digest opening (C57) against the first tree's root; C84_total_covers_refuted instantiates it with two one-client sets. | `C84_same_root`, `C84_two_trees_one_root`, `C84_total_covers_refuted` (Prop_views.v) |
| C85 | Clients with consistent views are covered by the total, and two more checks would make views consistent | Prop_covers. The inequality is proved over the integers by induction over the levels, grouping clients by the next path entry (cover_at); vectors with entries below 2^63 cannot wrap around (sum_int); openings are compared by C08. The views are compared level by level from the shared root. | `C85_total_covers`, `C85_digest_check_suffices`, `C85_honest_views` (Prop_covers.v) |
| C86 | The bytes of stored vertices and serialized trees are standard DER with sizes that do not depend on the amounts | Prop_wire. A specification of DER elements independent of the model; layouts by unfolding the encoder, the records of a tree by induction on its vertices and comparison with C41; sizes by arithmetic on length fields. | `C86_vertex_layout`, `C86_stream_layout`, `C86_vertex_size`, `C86_trailing_bytes_ignored` (Prop_wire.v) |
| C87 | After a liability is changed, its honest proof is rejected | Prop_update, Bottom_drift, Liability_run. The error of the bottom commitment by induction on the history (C48's step); the provers of C53 rerun without the assumption that the bottom commitment is right; the verifier is total on the proof's shape (C83) and its last check is equivalent to the bottom commitment being right; few trapdoors: the drift is a polynomial in the trapdoor with fanout+2 coefficients. | `C87_returned`, `C87_outcome`, `C87_verdict`, `C87_few_trapdoors`, `C87_changed_once`, `C87_neighbour` (Prop_update.v) |
| C88 | Exactly when the benchmark of one fanout completes | Prop_benchrun (model: Model_bench, Section Benchmark). The state after the Sets of the benchmark meets the hypotheses of C53 and C87 for every measured id; the sizes are C81's; the total is proved and verified as in C50. The failing direction and the bound on the trapdoors are C87's. | `C88_completes`, `C88_fails`, `C88_completes_iff`, `C88_few_trapdoors`, `C88_dense`, `C88_report` (Prop_benchrun.v) |
| C89 | The benchmark program: environment and report | model of the environment variables, the measurements and the report (Model_main.v); C88 for each fanout, C81 for the sizes, C73 for the averages, and the fixed lengths of the paths derived from the completed run | `C89_report`, `C89_exit`, `C89_iterations`, `C89_completes`, `C89_dense`, `C89_decimal`, `C89_parallelism` (Prop_main.v) |
| C90 | The generators of the parameters come from pairwise different public labels | the list of labels is a separate specification; the parameters are computed symbolically for all fanouts; injectivity of the texts from C05 | `C90_texts`, `C90_distinct`, `C90_points`, `C90_transparent`, `C90_equal_points` (Prop_labels.v) |
| C91 | Computing with shared, mutable points changes nothing it should not | a second model of the same functions over a memory of point objects (`Model_mem.v`); each function is related to its value-level counterpart by a small program logic (`Mem_logic.v`, `Mem_*.v`) | `C91_vectors`, `C91_shared_zero`, `C91_inner_product_verify`, `C91_range_verify`, `C91_point_verify`, `C91_sum_verify`, `C91_equality_verify`, `C91_liability_verify`, `C91_commitments`, `C91_new`, `C91_update`, `C91_proofs`, `C91_parameters`, `C91_stays`, `C91_any_order`, `C91_again`, `C91_side_by_side`, `C91_received` (Prop_memory.v) |
| C92 | The same liability proof can be verified from several threads at once | the library calls as programs over the shared claim fields, interleaved in any order (`Model_share.v`); a simulation of each call by the goroutine process of C58, because every call on a proof object assigns the same values | `C92_same_verdict`, `C92_no_crash_no_deadlock`, `C92_terminates`, `C92_sum_race` (Prop_share.v) |
| C93 | Equality arguments: exactly when an honest proof about the last slot is accepted | the exponents of the honest run for all slots, with the generator in place of the withheld power (`Poe_last.v`), as for C28-C30 | `C93_last_slot`, `C93_rejected`, `C93_no_such_slot`, `C93_aggregated` (Prop_last.v) |
| C94 | Whether one liability proof can convince two clients | C55 turned into equations (`verify_iff`, `aggregation_iff`, `equalities_by_index`), in which the path occurs linearly, subtracted for two paths; the trapdoors by counting roots | `C94_two_clients`, `C94_lengths`, `C94_one_digit`, `C94_few_trapdoors`, `C94_trapdoor_one` (Prop_replay.v) |

No property is left partial. Properties that do not hold of the code in the form a user expects are stated and proved in their true form: a
characterisation of what does hold, together with an explicit counterexample or forgery.

## 3. Findings

Deviations of the code from what a user would expect, each proved of the model:

* **C14** line 107 drops P from the pre-image of the first challenge; with a prover-chosen statement a false inner product is accepted. k <= 62 (a Go slice cannot be longer).
* **C23** the generators are replaced after the digest was taken.
* **C27** the claim P of the inner-product argument is not hashed (see C14), so a prover can pick v after the challenges. The condition <b,gco xs> <> 0 says the folded weight vector is non-zero for the forger's run.
* **C33** dense paths are not prefix free and non-positive ids collide.
* **C35** an id and its hash can address the same liability.
* **C42** Tree.Serialize never writes vertex contents, because the sparse tree stores database keys, not vertices.
* **C48** the update of a bottom vertex adds the new sum at index len(values) instead of replacing the sum at index fanout.
* **C49** successive commitments of a vertex differ by the liability change times public elements.
* **C52** the root is remembered at the first call of Root and never refreshed.
* **C56** Verify does not bound len(V), so one appended commitment lets a prover claim any liability against the true root.
* **C57** the aggregated opening value is never compared with the digests, so the W half of the root is not bound to the tree below.
* **C60** Set never checks the total against the range that can be proved.
* **C62** a set opened on an existing database forgets the tree but not the root.
* **C63** dense ids with overlapping paths (C33) break the set.
* **C67** the claim (P, c) of the inner product argument, the triples of the reduction in y0, y1, z, and the parameters in the sum argument do not enter the challenges; the setup digest of parameters without H is ambiguous.
* **C68** RO truncates the position to one byte.
* **C69** alone, the argument accepts V with a component in H whose vector does not sum up; the range proof on the same V excludes it.
* **C72** the positions I, J enter no challenge of the aggregated argument (visible in C72_acceptance; the single argument hashes them).
* **C73** with fanout 3 (the first in the benchmark's list) the ids 100000000 and 487420489 overlap, so a dense benchmark run can panic in Set.
* **C74** trapdoor 0, chosen with probability 1/r, would make commitments deterministic.
* **C82** the tree writes to the database below the wrapper, so the stale case is the one that occurs (C52).
* **C83** a malformed proof crashes the client that verifies it. With parallelism enabled the range proofs are verified in goroutines (pol.go:169-170), where a panic ends the process and the caller cannot recover it. Missing (nil) pointers inside a proof are not modelled.
* **C84** the total accepted against a root does not bound the liabilities accepted against it; the statement proved is the refutation. The two proofs consist of honest arguments only. Cause: Verify never compares the digests carried by the proof with the vector opened by the aggregated opening, so a level is not bound to the next except through its sum.

## 4. Trusted base

* The Coq 8.16.1 kernel, including `vm_compute`.
* `Print Assumptions` under every property theorem prints "Closed under the global context": no axioms, own or library, are used.
  `coqchk` lists seven axioms of the loaded library file `Coq.ssr.ssrunder` (`Under_rel.*`, loaded through std++); no theorem depends on them.
* The reading of the Go code. The code is not run here; nothing checks the model against it mechanically.

### What the model takes for granted

* mathlib and gnark: a bilinear group of prime order r with canonical scalars. `Zr.Bytes` is the 32-byte big-endian residue and `Zr.Int` fails from 2^63 on.
  Point encodings are injective, of one fixed length below 65536.
* Go's `encoding/asn1` is modelled for the types used (octet strings, printable strings, sequences, minimal lengths), from its documentation.
* SHA-256, HMAC and hash-to-curve are arbitrary functions; no collision resistance is assumed. Where it matters a theorem says "equal, or two different
  inputs with the same hash".

### Simplifications

* The capacity of a slice is its length; `append` never aliases. Nil pointers inside proof objects are not modelled.
* Positions in `poe` and path entries are natural numbers, not `int`/`uint16`; values out of range panic as in the code.
* The state after a panic is not modelled.
* `Parent` pointers of the sparse tree are omitted: walking up through them is the return from the recursion along the path. `NewVerkleTree` creates parameters that `NewLiabilitySet` replaces; only
  the replacement is modelled.
* `Vertex.Values` is modelled for at most 65536 entries (its counter is a `uint16`).
* Error messages keep their fixed text; formatted arguments are dropped. Time measurements are dropped.
* Random values are indexed by a tick per vertex creation, so the order in which Go reads randomness does not matter.
* The range proofs inside one liability proof are distinct objects (aliasing would make parallel verification race on one object; with distinct ones see C91).
* Points as values instead of mutable objects: justified by C91 for `common`, `bp`, `sum`, `poe`, `pp`, parameter generation and verification. For the trees and
  `ProveLiability` it rests on reading the code: vertices are decoded afresh from the database and `pp.Update` is called only on the commitments of such a vertex.

### Not modelled

The progress output of the benchmark program `bench/main.go`, its LevelDB wrapper (which it does not use) and the test helpers.

### Mutation log (`seeded/LOG.jsonl`)

* First group of entries: failing lemmas were admitted in the scratch copy and the build went on; `failed` lists the property theorems that came to depend on one.
* Entries with a `note` (`mem_*`, `share_*`, `replay_*`): compilation stopped at the first failing lemma, which `failed` names; `theorems_using_it` is read off, not observed.
* `auto.*`: generated mutants; `failed` names where the build stopped. Survivors carry a verdict, given by hand.
* A failing lemma shows that the proof no longer goes through, not by itself that the theorem became false. The edits marked equivalent fail in this way too.
