{
 "claims": [
  {
   "property": "C01",
   "status": "proved",
   "theorems": [
    "C01_is_power_of_two"
   ],
   "note": ""
  },
  {
   "property": "C02",
   "status": "proved",
   "theorems": [
    "C02_bits_exact",
    "C02_vec_bits"
   ],
   "note": ""
  },
  {
   "property": "C03",
   "status": "proved",
   "theorems": [
    "C03_field_element_total",
    "C03_other_lengths_panic"
   ],
   "note": ""
  },
  {
   "property": "C04",
   "status": "proved",
   "theorems": [
    "C04_challenge_collisions",
    "C04_preimage_count"
   ],
   "note": ""
  },
  {
   "property": "C05",
   "status": "proved",
   "theorems": [
    "C05_generators_domain_separated",
    "C05_generator_vectors"
   ],
   "note": ""
  },
  {
   "property": "C06",
   "status": "proved",
   "theorems": [
    "C06_inner_product_laws",
    "C06_pointwise",
    "C06_sub_inverse_of_add",
    "C06_reverse_involution",
    "C06_evens_odds",
    "C06_power_series",
    "C06_length_checks",
    "C06_msm",
    "C06_point_sums",
    "C06_points_pointwise",
    "C06_duplicate",
    "C06_point_bytes",
    "C06_pairing_product"
   ],
   "note": ""
  },
  {
   "property": "C07",
   "status": "proved",
   "theorems": [
    "C07_honest_openings_verify",
    "C07_misuse_panics",
    "C07_commitment_value"
   ],
   "note": ""
  },
  {
   "property": "C08",
   "status": "proved",
   "theorems": [
    "C08_position_binding",
    "C08_value_unique"
   ],
   "note": "Binding is stated as an algebraic reduction: two openings give out the withheld element; uniqueness for one proof needs α ≠ 0."
  },
  {
   "property": "C09",
   "status": "proved",
   "theorems": [
    "C09_update_is_recommit",
    "C09_update_sequences"
   ],
   "note": ""
  },
  {
   "property": "C10",
   "status": "proved",
   "theorems": [
    "C10_aggregated_openings_verify",
    "C10_production_oracle"
   ],
   "note": ""
  },
  {
   "property": "C11",
   "status": "proved",
   "theorems": [
    "C11_aggregate_binds_sum",
    "C11_only_the_sum_matters",
    "C11_length_mismatch_panics"
   ],
   "note": ""
  },
  {
   "property": "C12",
   "status": "proved",
   "theorems": [
    "C12_ipa_complete",
    "C12_generated_params"
   ],
   "note": "Challenges are hashes of the run; completeness assumes none of them is 0 (probability 2^-254 each for a random hash), which is the code's own precondition (InvModP)."
  },
  {
   "property": "C13",
   "status": "proved",
   "theorems": [
    "C13_claim_unique",
    "C13_commitment_unique",
    "C13_altered_claim_rejected"
   ],
   "note": ""
  },
  {
   "property": "C14",
   "status": "proved",
   "theorems": [
    "C14_ipa_forgery"
   ],
   "note": "FINDING: line 107 drops P from the pre-image of the first challenge; with a prover-chosen statement a false inner product is accepted. k <= 62 (a Go slice cannot be longer)."
  },
  {
   "property": "C15",
   "status": "proved",
   "theorems": [
    "C15_too_few_panics",
    "C15_enough_returns",
    "C15_extra_ignored"
   ],
   "note": "The model's Verify is a function of the proof: bp/innerprod.go:111 copies P, nothing in the proof is written."
  },
  {
   "property": "C16",
   "status": "proved",
   "theorems": [
    "C16_round_extraction",
    "C16_special_soundness",
    "C16_two_first_challenges",
    "C16_verifier_runs"
   ],
   "note": "Stated over any Zr-module; also the full tree of transcripts for all rounds."
  },
  {
   "property": "C17",
   "status": "proved",
   "theorems": [
    "C17_final_scalar",
    "C17_bit_decomposition"
   ],
   "note": "n = 2^k with 1 <= k < 16: the code converts n to uint16."
  },
  {
   "property": "C18",
   "status": "proved",
   "theorems": [
    "C18_ir_complete"
   ],
   "note": ""
  },
  {
   "property": "C19",
   "status": "proved",
   "theorems": [
    "C19_acceptance",
    "C19_too_few",
    "C19_extra_ignored",
    "C19_bad_sizes"
   ],
   "note": ""
  },
  {
   "property": "C20",
   "status": "proved",
   "theorems": [
    "C20_round_extraction",
    "C20_special_soundness"
   ],
   "note": "Any Zr-module; the tree version covers all rounds."
  },
  {
   "property": "C21",
   "status": "proved",
   "theorems": [
    "C21_range_complete",
    "C21_returned_verifies",
    "C21_generated_params"
   ],
   "note": "n = 2^k with 1 <= k < 16. Non-zero: y0 and the challenges of the two inner arguments, as recomputed by the verifier."
  },
  {
   "property": "C22",
   "status": "proved",
   "theorems": [
    "C22_out_of_range_panics"
   ],
   "note": "Also covers a wrong number of values."
  },
  {
   "property": "C64",
   "status": "proved",
   "theorems": [
    "C64_reverification",
    "C64_inner_claims_ignored"
   ],
   "note": ""
  },
  {
   "property": "C24",
   "status": "proved",
   "theorems": [
    "C24_sum_complete",
    "C24_generated_params"
   ],
   "note": ""
  },
  {
   "property": "C25",
   "status": "proved",
   "theorems": [
    "C25_aggregated_sum_complete"
   ],
   "note": ""
  },
  {
   "property": "C26",
   "status": "proved",
   "theorems": [
    "C26_wrong_sum_rejected",
    "C26_commitment_checks_sum"
   ],
   "note": "NewCommitment's check is for vectors of length >= 2; with one entry it checks nothing."
  },
  {
   "property": "C27",
   "status": "proved",
   "theorems": [
    "C27_sum_forgery"
   ],
   "note": "FINDING: the claim P of the inner-product argument is not hashed (see C14), so a prover can pick v after the challenges. The condition <b,gco xs> <> 0 says the folded weight vector is non-zero for the forger's run."
  },
  {
   "property": "C28",
   "status": "proved",
   "theorems": [
    "C28_equality_complete",
    "C28_unequal_panics",
    "C28_generated_params",
    "C28_package_oracle"
   ],
   "note": ""
  },
  {
   "property": "C29",
   "status": "proved",
   "theorems": [
    "C29_equalities_complete"
   ],
   "note": "Non-zero: the challenges of the inner-product argument as recomputed by the verifier."
  },
  {
   "property": "C30",
   "status": "proved",
   "theorems": [
    "C30_unequal_entries"
   ],
   "note": "For trapdoor alpha <> 0."
  },
  {
   "property": "C31",
   "status": "proved",
   "theorems": [
    "C31_dense_path",
    "C31_value",
    "C31_injective",
    "C31_length",
    "C31_rejects",
    "C31_every_number"
   ],
   "note": ""
  },
  {
   "property": "C32",
   "status": "proved",
   "theorems": [
    "C32_path_length",
    "C32_small_fanouts",
    "C32_iterations"
   ],
   "note": ""
  },
  {
   "property": "C33",
   "status": "proved",
   "theorems": [
    "C33_nonpositive",
    "C33_zero_is_prefix",
    "C33_one_is_prefix",
    "C33_plus_sign",
    "C33_benchmark_ids",
    "C33_benchmark_fanout_3"
   ],
   "note": "FINDING: dense paths are not prefix free and non-positive ids collide."
  },
  {
   "property": "C34",
   "status": "proved",
   "theorems": [
    "C34_fixed_length",
    "C34_prefix_free",
    "C34_deterministic",
    "C34_direct",
    "C34_injective"
   ],
   "note": ""
  },
  {
   "property": "C35",
   "status": "proved",
   "theorems": [
    "C35_alias",
    "C35_too_large",
    "C35_too_small",
    "C35_negative",
    "C35_not_hex"
   ],
   "note": "FINDING: an id and its hash can address the same liability."
  },
  {
   "property": "C36",
   "status": "proved",
   "theorems": [
    "C36_keys_unique"
   ],
   "note": ""
  },
  {
   "property": "C37",
   "status": "proved",
   "theorems": [
    "C37_get_after_put",
    "C37_other_ids",
    "C37_empty",
    "C37_vertices"
   ],
   "note": ""
  },
  {
   "property": "C38",
   "status": "proved",
   "theorems": [
    "C38_callbacks"
   ],
   "note": ""
  },
  {
   "property": "C39",
   "status": "proved",
   "theorems": [
    "C39_aggregation"
   ],
   "note": ""
  },
  {
   "property": "C40",
   "status": "proved",
   "theorems": [
    "C40_panic_iff"
   ],
   "note": ""
  },
  {
   "property": "C41",
   "status": "proved",
   "theorems": [
    "C41_stream"
   ],
   "note": ""
  },
  {
   "property": "C42",
   "status": "proved",
   "theorems": [
    "C42_no_contents",
    "C42_same_records"
   ],
   "note": "FINDING: Tree.Serialize never writes vertex contents, because the sparse tree stores database keys, not vertices."
  },
  {
   "property": "C43",
   "status": "proved",
   "theorems": [
    "C43_round_trip"
   ],
   "note": ""
  },
  {
   "property": "C45",
   "status": "proved",
   "theorems": [
    "C45_runs_succeed",
    "C45_sums",
    "C45_root_sum"
   ],
   "note": "Sums are field elements: the total modulo the group order."
  },
  {
   "property": "C46",
   "status": "proved",
   "theorems": [
    "C46_digests",
    "C46_bottom"
   ],
   "note": ""
  },
  {
   "property": "C47",
   "status": "proved",
   "theorems": [
    "C47_inner",
    "C47_bottom_once"
   ],
   "note": ""
  },
  {
   "property": "C48",
   "status": "proved",
   "theorems": [
    "C48_bottom_update",
    "C48_same_id_twice",
    "C48_few_trapdoors"
   ],
   "note": "FINDING: the update of a bottom vertex adds the new sum at index len(values) instead of replacing the sum at index fanout."
  },
  {
   "property": "C49",
   "status": "proved",
   "theorems": [
    "C49_no_refresh"
   ],
   "note": "FINDING: successive commitments of a vertex differ by the liability change times public elements."
  },
  {
   "property": "C23",
   "status": "proved",
   "theorems": [
    "C23_stale_digest"
   ],
   "note": "FINDING: the generators are replaced after the digest was taken."
  },
  {
   "property": "C61",
   "status": "proved",
   "theorems": [
    "C61_consistent",
    "C61_unsupported",
    "C61_commitments",
    "C61_padding"
   ],
   "note": ""
  },
  {
   "property": "C44",
   "status": "proved",
   "theorems": [
    "C44_get",
    "C44_set_never_fails",
    "C44_negative_panics"
   ],
   "note": ""
  },
  {
   "property": "C50",
   "status": "proved",
   "theorems": [
    "C50_total_proof_complete"
   ],
   "note": ""
  },
  {
   "property": "C51",
   "status": "proved",
   "theorems": [
    "C51_total_binding"
   ],
   "note": ""
  },
  {
   "property": "C52",
   "status": "proved",
   "theorems": [
    "C52_first_call",
    "C52_frozen",
    "C52_later_total_proofs",
    "C52_few_trapdoors"
   ],
   "note": "FINDING: the root is remembered at the first call of Root and never refreshed."
  },
  {
   "property": "C54",
   "status": "proved",
   "theorems": [
    "C54_not_found",
    "C54_empty_root",
    "C54_empty_total"
   ],
   "note": ""
  },
  {
   "property": "C60",
   "status": "proved",
   "theorems": [
    "C60_total_overflow",
    "C60_liability_overflow",
    "C44_set_never_fails"
   ],
   "note": "FINDING: Set never checks the total against the range that can be proved."
  },
  {
   "property": "C62",
   "status": "proved",
   "theorems": [
    "C62_finds_nothing",
    "C62_first_set",
    "C62_stale_total"
   ],
   "note": "FINDING: a set opened on an existing database forgets the tree but not the root."
  },
  {
   "property": "C63",
   "status": "proved",
   "theorems": [
    "C63_long_after_short",
    "C63_short_after_long"
   ],
   "note": "FINDING: dense ids with overlapping paths (C33) break the set."
  },
  {
   "property": "C55",
   "status": "proved",
   "theorems": [
    "C55_acceptance"
   ],
   "note": ""
  },
  {
   "property": "C53",
   "status": "proved",
   "theorems": [
    "C53_accepted",
    "C53_returned",
    "C53_generated"
   ],
   "note": "For all curves, fanouts, parameters, histories, ids, randomness. Hypotheses: path lengths all n >= 2, total below 2^63, the bottom vertex of the id was set once (C47/C48 show why: a second Set through it leaves a wrong commitment), challenges of the run non-zero (completeness of the Fiat-Shamir arguments needs their inverses). C53_returned: a proof is returned; C53_accepted: whatever is returned is the right liability and is accepted; C53_generated: the same for GeneratePublicParams and the first Root."
  },
  {
   "property": "C56",
   "status": "proved",
   "theorems": [
    "C56_any_liability"
   ],
   "note": "FINDING: Verify does not bound len(V), so one appended commitment lets a prover claim any liability against the true root."
  },
  {
   "property": "C57",
   "status": "proved",
   "theorems": [
    "C57_any_root_digests"
   ],
   "note": "FINDING: the aggregated opening value is never compared with the digests, so the W half of the root is not bound to the tree below."
  },
  {
   "property": "C58",
   "status": "proved",
   "theorems": [
    "C58_sequential",
    "C58_same_verdict",
    "C58_no_crash_no_deadlock",
    "C58_deadlock_free",
    "C58_terminates",
    "C58_accept_one_iff_all"
   ],
   "note": "All interleavings of the goroutines with the main thread, any number of goroutines (one per entry of the path). Library calls are local to a thread and atomic; the range proofs of a liability proof are distinct objects (VerifyRange writes into its range proof); all errors of VerifyRange have one type (atomic.Value). Which range-proof error is reported can depend on the schedule; acceptance does not. Verify can return before its goroutines have ended; a later panic of such a goroutine is a step to Crashed and is covered by C58_no_crash_no_deadlock."
  },
  {
   "property": "C59",
   "status": "proved",
   "theorems": [
    "C59_slots",
    "C59_not_found",
    "C59_after_return",
    "C59_no_crash_no_deadlock",
    "C59_deadlock_free",
    "C59_terminates",
    "C59_sequential"
   ],
   "note": "All interleavings, any number of goroutines, with the lock and the WaitGroup as in the code. Library calls are local to a thread; the randomness of the i-th range proof is an arbitrary argument."
  },
  {
   "property": "C65",
   "status": "proved",
   "theorems": [
    "C65_acceptance",
    "C65_special_soundness",
    "C65_committed_in_range",
    "C65_honest_conversations"
   ],
   "note": "Acceptance is about the code with its hash challenges. Soundness is special soundness of the interactive protocol these equations define (independent generators, trees of accepting conversations); the step from there to hash challenges (random oracle) is outside the model."
  },
  {
   "property": "C66",
   "status": "proved",
   "theorems": [
    "C66_published",
    "C66_withheld",
    "C66_algebraic_binding"
   ],
   "note": "Generic (algebraic) form of the hardness assumption: recipes are linear in the published elements and fixed before the trapdoor."
  },
  {
   "property": "C67",
   "status": "proved",
   "theorems": [
    "C67_pointproofs",
    "C67_inner_product",
    "C67_setup",
    "C67_setup_ambiguous",
    "C67_reduction",
    "C67_range",
    "C67_range_inputs",
    "C67_sum",
    "C67_equality",
    "C67_vertex",
    "C67_parameters",
    "C67_parameters_inputs"
   ],
   "note": "Digests of equal length (32 bytes), positions below 256 (RO writes one byte, C68) and 65536 (poe). FINDING: the claim (P, c) of the inner product argument, the triples of the reduction in y0, y1, z, and the parameters in the sum argument do not enter the challenges; the setup digest of parameters without H is ambiguous."
  },
  {
   "property": "C68",
   "status": "proved",
   "theorems": [
    "C68_period",
    "C68_compensation"
   ],
   "note": "FINDING: RO truncates the position to one byte."
  },
  {
   "property": "C69",
   "status": "proved",
   "theorems": [
    "C69_acceptance",
    "C69_special_soundness",
    "C69_committed_sum",
    "C69_range_and_sum",
    "C69_honest_conversations",
    "C69_honest_answers",
    "C69_hidden_component"
   ],
   "note": "Special soundness of the interactive protocol (independent generators); with hash challenges C27 gives a forgery because the inner argument does not bind its statement. FINDING (C69_hidden_component): alone, the argument accepts V with a component in H whose vector does not sum up; the range proof on the same V excludes it."
  },
  {
   "property": "C70",
   "status": "proved",
   "theorems": [
    "C70_acceptance",
    "C70_special_soundness",
    "C70_wrong_sums_rejected"
   ],
   "note": "Commitments with known openings over F and Gs (which the range proof gives)."
  },
  {
   "property": "C71",
   "status": "proved",
   "theorems": [
    "C71_two_answers",
    "C71_special_soundness",
    "C71_equal_or_withheld",
    "C71_honest_answers"
   ],
   "note": "Special soundness of the interactive protocol, stated on the code's Verify with an oracle that returns the given challenges."
  },
  {
   "property": "C72",
   "status": "proved",
   "theorems": [
    "C72_acceptance",
    "C72_same_first_challenge",
    "C72_special_soundness"
   ],
   "note": "Special soundness of the interactive protocol; the inner argument's generators are independent in an arbitrary group M, the pairing side is in the curve, and the two share only scalars. FINDING: the positions I, J enter no challenge of the aggregated argument (visible in C72_acceptance; the single argument hashes them)."
  },
  {
   "property": "C73",
   "status": "proved",
   "theorems": [
    "C73_id_format",
    "C73_every_id",
    "C73_id_injective",
    "C73_dense_runs",
    "C73_dense_benchmark",
    "C73_fanout_3_panics",
    "C73_average_panics",
    "C73_average_mean",
    "C73_average_overflow",
    "C73_sparse_ids",
    "C73_sparse_benchmark"
   ],
   "note": "FINDING: with fanout 3 (the first in the benchmark's list) the ids 100000000 and 487420489 overlap, so a dense benchmark run can panic in Set."
  },
  {
   "property": "C74",
   "status": "proved",
   "theorems": [
    "C74_hiding",
    "C74_any_vector",
    "C74_trapdoor_0"
   ],
   "note": "Perfect hiding, stated as a bijection of the blindings for every message (same_messages). FINDING: trapdoor 0, chosen with probability 1/r, would make commitments deterministic."
  },
  {
   "property": "C75",
   "status": "proved",
   "theorems": [
    "C75_sum_argument",
    "C75_aggregated"
   ],
   "note": "Perfect witness indistinguishability; proofs with challenge 0 (probability about 1/r) are left out."
  },
  {
   "property": "C76",
   "status": "proved",
   "theorems": [
    "C76_equality",
    "C76_equalities"
   ],
   "note": "Perfect witness indistinguishability; the trapdoor is not 0, F is not the identity."
  },
  {
   "property": "C77",
   "status": "proved",
   "theorems": [
    "C77_range_proof"
   ],
   "note": "Perfect witness indistinguishability; proofs whose challenge x or z is 0 are left out; F and H are not the identity."
  },
  {
   "property": "C78",
   "status": "proved",
   "theorems": [
    "C78_commitments",
    "C78_with_total"
   ],
   "note": "Perfect hiding for one publication of the state; trapdoor not 0. What a second publication reveals is C79."
  },
  {
   "property": "C79",
   "status": "proved",
   "theorems": [
    "C79_update_difference",
    "C79_updates_hidden_refuted"
   ],
   "note": "The privacy one would want of updates is refuted; paths of at least two entries."
  },
  {
   "property": "C80",
   "status": "proved",
   "theorems": [
    "C80_liability_proof",
    "C80_client_view",
    "C80_coalition"
   ],
   "note": "Perfect indistinguishability, for random values where no challenge vanishes (proof_good, C76 and C77); trapdoor not 0; the two bases hashed to the curve are not the neutral element; the bottom vertex of the client was Set once, which an honest proof needs anyway (C49)."
  },
  {
   "property": "C81",
   "status": "proved",
   "theorems": [
    "C81_range_size",
    "C81_liability_size",
    "C81_params_size",
    "C81_parts_size"
   ],
   "note": "The claimed amount, an int, is left out of both counts."
  },
  {
   "property": "C82",
   "status": "proved",
   "theorems": [
    "C82_transparent",
    "C82_other_keys",
    "C82_stale",
    "C82_used_by_root"
   ],
   "note": "FINDING: the tree writes to the database below the wrapper, so the stale case is the one that occurs (C52)."
  },
  {
   "property": "C83",
   "status": "proved",
   "theorems": [
    "C83_liability_returns",
    "C83_range_returns",
    "C83_sum_returns",
    "C83_equality_returns",
    "C83_total_returns",
    "C83_accepted_shape",
    "C83_truncated_panics"
   ],
   "note": "FINDING: a malformed proof crashes the client that verifies it. With parallelism enabled the range proofs are verified in goroutines (pol.go:169-170), where a panic ends the process and the caller cannot recover it. Missing (nil) pointers inside a proof are not modelled."
  },
  {
   "property": "C84",
   "status": "proved",
   "theorems": [
    "C84_same_root",
    "C84_two_trees_one_root",
    "C84_total_covers_refuted"
   ],
   "note": "FINDING: the total accepted against a root does not bound the liabilities accepted against it; the statement proved is the refutation. The two proofs consist of honest arguments only. Cause: Verify never compares the digests carried by the proof with the vector opened by the aggregated opening, so a level is not bound to the next except through its sum."
  },
  {
   "property": "C85",
   "status": "proved",
   "theorems": [
    "C85_total_covers",
    "C85_digest_check_suffices",
    "C85_honest_views"
   ],
   "note": "The condition on the number of value commitments and the opening of single digests are NOT checked by the code (C56, C57, C84); this says they are all that is missing. The vectors the prover knows are hypotheses of the form that the extraction theorems C65, C70, C72 deliver."
  },
  {
   "property": "C86",
   "status": "proved",
   "theorems": [
    "C86_vertex_layout",
    "C86_stream_layout",
    "C86_vertex_size",
    "C86_trailing_bytes_ignored"
   ],
   "note": "The DER format in the specification is written from X.690; encoding/asn1 itself is modelled, not verified. The 28 unused header bytes of each record are always zero."
  },
  {
   "property": "C87",
   "status": "proved",
   "theorems": [
    "C87_returned",
    "C87_outcome",
    "C87_verdict",
    "C87_few_trapdoors",
    "C87_changed_once",
    "C87_neighbour"
   ],
   "note": "This is a defect of the code, stated as what it does: the drift is the exact error of the commitment of the bottom vertex (C48), accumulated over the history. C53 is the case of one Set, with drift zero."
  },
  {
   "property": "C88",
   "status": "proved",
   "theorems": [
    "C88_completes",
    "C88_fails",
    "C88_completes_iff",
    "C88_few_trapdoors",
    "C88_dense",
    "C88_report"
   ],
   "note": "Durations are inputs of the model; the batches are drawn from the random buffers given; printing is not modelled."
  },
  {
   "property": "C89",
   "status": "proved",
   "theorems": [
    "C89_report",
    "C89_exit",
    "C89_iterations",
    "C89_completes",
    "C89_dense",
    "C89_decimal",
    "C89_parallelism"
   ],
   "note": "Durations are inputs of the model. The progress output and the averages printed by the benchmark of one fanout are not part of the report."
  },
  {
   "property": "C90",
   "status": "proved",
   "theorems": [
    "C90_texts",
    "C90_distinct",
    "C90_points",
    "C90_transparent",
    "C90_equal_points"
   ],
   "note": "SHA-256 and hashing to the curve are arbitrary functions. The points of the vector commitment are powers of the trapdoor (C07, C61)."
  },
  {
   "property": "C91",
   "status": "proved",
   "theorems": [
    "C91_vectors",
    "C91_shared_zero",
    "C91_inner_product_verify",
    "C91_range_verify",
    "C91_point_verify",
    "C91_sum_verify",
    "C91_equality_verify",
    "C91_liability_verify",
    "C91_commitments",
    "C91_new",
    "C91_update",
    "C91_proofs",
    "C91_parameters",
    "C91_stays",
    "C91_any_order",
    "C91_again",
    "C91_side_by_side",
    "C91_received"
   ],
   "note": "Model_mem.v is a second model of the same functions in which points and inner product proofs are objects in a memory and every overwrite of an object is logged. Scalars and slices stay values; LiabilityProof.Verify is its sequential mode; ProveLiability and the tree are not in it. C91_shared_zero shows the sharing that makes it delicate."
  },
  {
   "property": "C92",
   "status": "proved",
   "theorems": [
    "C92_same_verdict",
    "C92_no_crash_no_deadlock",
    "C92_terminates",
    "C92_sum_race"
   ],
   "note": "Model_share.v: the shared memory is the fields C and P of the inner product proof objects (by C91 the only older objects that verification assigns to); one step is one assignment or one read of a field, or one step of the goroutine model of C58. Interleaving semantics: reordering by compiler or processor is not modelled."
  },
  {
   "property": "C93",
   "status": "proved",
   "theorems": [
    "C93_last_slot",
    "C93_rejected",
    "C93_no_such_slot",
    "C93_aggregated"
   ],
   "note": "The element of the parameters that the prover uses for the blinding of slot N-1 is the generator, put in place of the withheld power."
  },
  {
   "property": "C94",
   "status": "proved",
   "theorems": [
    "C94_two_clients",
    "C94_lengths",
    "C94_one_digit",
    "C94_few_trapdoors",
    "C94_trapdoor_one"
   ],
   "note": "Says when a given proof is transferable, not how hard such a proof is to find."
  }
 ]
}