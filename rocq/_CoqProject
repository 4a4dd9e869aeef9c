-Q theories Verif

theories/Fermat.v
theories/Prime_r.v
theories/Base.v
theories/Zr.v
theories/Curve.v
theories/Spec.v
theories/Model_common.v
theories/Common_facts.v
theories/Toy.v
theories/Prop_common.v
theories/Model_pp.v
theories/Pp_facts.v
theories/Prop_pp.v
theories/Model_ipa.v
theories/Ipa_facts.v
theories/Extract.v
theories/Prop_ipa.v
theories/Prop_withheld.v
theories/Model_ir.v
theories/Ir_facts.v
theories/Model_range.v
theories/Range_facts.v
theories/Prop_ir.v
theories/Range_run.v
theories/Range_prover.v
theories/Prop_range.v
theories/Prop_rangesound.v
theories/Model_sum.v
theories/Sum_facts.v
theories/Prop_sum.v
theories/Prop_sumsound.v
theories/Model_poe.v
theories/Poe_facts.v
theories/Prop_poe.v
theories/Prop_poesound.v
theories/Hiding.v
theories/Prop_hiding.v
theories/Prop_eqhiding.v
theories/Model_paths.v
theories/Paths_facts.v
theories/Prop_paths.v
theories/Model_der.v
theories/Model_sparse.v
theories/Sparse_facts.v
theories/Prop_sparse.v
theories/Model_verkle.v
theories/Verkle_enc.v
theories/Verkle_facts.v
theories/Verkle_run.v
theories/Prop_verkle.v
theories/Prop_transcript.v
theories/Model_pol.v
theories/Pol_params.v
theories/Prop_params.v
theories/Pol_run.v
theories/Prop_set.v
theories/Prop_overlap.v
theories/Model_bench.v
theories/Prop_bench.v
theories/Prop_accept.v
theories/Pol_chain.v
theories/Prop_liability.v
theories/Model_conc.v
theories/Prop_conc.v
theories/Prop_rangehiding.v
theories/Verkle_blind.v
theories/Prop_treehiding.v
theories/Prop_proofhiding.v
theories/Prop_size.v
theories/Prop_points.v
theories/Model_memo.v
theories/Prop_memo.v
theories/Prop_total.v
theories/Prop_views.v
theories/Prop_covers.v
theories/Prop_wire.v
theories/Liability_run.v
theories/Bottom_drift.v
theories/Prop_update.v
theories/Prop_benchrun.v
theories/Model_main.v
theories/Prop_main.v
theories/Prop_labels.v
theories/Model_mem.v
theories/Mem_logic.v
theories/Mem_common.v
theories/Mem_ipa.v
theories/Mem_range.v
theories/Mem_pp.v
theories/Mem_poe.v
theories/Mem_pol.v
theories/Prop_memory.v
theories/Model_share.v
theories/Prop_share.v
theories/Poe_last.v
theories/Prop_last.v
theories/Prop_replay.v
