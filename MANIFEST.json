{
 "claims": [
  {
   "property": "C01",
   "status": "proved",
   "theorems": [
    "C01_checksum_value",
    "C01_compare_decides",
    "C01_write_error",
    "C01_same_prefix_same_checksum",
    "C01_short_digest_panics"
   ],
   "note": ""
  },
  {
   "property": "C02",
   "status": "proved",
   "theorems": [
    "C02_rand_entropy",
    "C02_short_read_is_error",
    "C02_texts"
   ],
   "note": ""
  },
  {
   "property": "C03",
   "status": "proved",
   "theorems": [
    "C03_newtree_root",
    "C03_newtree_error_iff",
    "C03_newtree_terminates",
    "C03_first_failure",
    "C03_spec_unique"
   ],
   "note": ""
  },
  {
   "property": "C04",
   "status": "proved",
   "theorems": [
    "C04_newtree_verifies"
   ],
   "note": ""
  },
  {
   "property": "C05",
   "status": "proved",
   "theorems": [
    "C05_verify_content",
    "C05_verify_content_hash_error",
    "C05_nil"
   ],
   "note": ""
  },
  {
   "property": "C06",
   "status": "proved",
   "theorems": [
    "C06_tampering_detected"
   ],
   "note": ""
  },
  {
   "property": "C07",
   "status": "proved",
   "theorems": [
    "C07_root_binds"
   ],
   "note": ""
  },
  {
   "property": "C08",
   "status": "proved",
   "theorems": [
    "C08_dup_last_same_root",
    "C08_level_up_same_root",
    "C08_root_identifies_payloads_refuted"
   ],
   "note": ""
  },
  {
   "property": "C09",
   "status": "proved",
   "theorems": [
    "C09_rebuild_keeps_root",
    "C09_rebuild_using_is_newtree",
    "C09_rebuild_is_using",
    "C09_zero_tree",
    "C09_rebuild_sequences"
   ],
   "note": ""
  },
  {
   "property": "C10",
   "status": "proved",
   "theorems": [
    "C10_structure",
    "C10_levels"
   ],
   "note": ""
  },
  {
   "property": "C11",
   "status": "proved",
   "theorems": [
    "C11_append_value",
    "C11_no_spare_no_write",
    "C11_spare_overwrites",
    "C11_tight_slices_right_root",
    "C11_right_root_refuted"
   ],
   "note": ""
  },
  {
   "property": "C12",
   "status": "proved",
   "theorems": [
    "C12_add",
    "C12_sub",
    "C12_hadamard",
    "C12_scalar_operations",
    "C12_inner_product",
    "C12_errors"
   ],
   "note": ""
  },
  {
   "property": "C13",
   "status": "proved",
   "theorems": [
    "C13_exp",
    "C13_exp_errors",
    "C13_exp_linear",
    "C13_exp_linear_points"
   ],
   "note": ""
  },
  {
   "property": "C14",
   "status": "proved",
   "theorems": [
    "C14_powers",
    "C14_powers_zero_base",
    "C14_powers_refuted",
    "C14_powers_sum",
    "C14_disagree",
    "C14_geometric"
   ],
   "note": ""
  },
  {
   "property": "C15",
   "status": "proved",
   "theorems": [
    "C15_split",
    "C15_split_errors",
    "C15_points_and_scalars",
    "C15_split_any_length_refuted"
   ],
   "note": ""
  },
  {
   "property": "C16",
   "status": "proved",
   "theorems": [
    "C16_history",
    "C16_prefix_stable",
    "C16_compute_adds",
    "C16_chain"
   ],
   "note": ""
  },
  {
   "property": "C17",
   "status": "proved",
   "theorems": [
    "C17_opens",
    "C17_homomorphic",
    "C17_binding",
    "C17_hiding"
   ],
   "note": ""
  },
  {
   "property": "C18",
   "status": "proved",
   "theorems": [
    "C18_vector_commitment",
    "C18_no_vectors",
    "C18_labels_distinct"
   ],
   "note": ""
  },
  {
   "property": "C19",
   "status": "proved",
   "theorems": [
    "C19_swap",
    "C19_move",
    "C19_binding_refuted"
   ],
   "note": ""
  },
  {
   "property": "C20",
   "status": "proved",
   "theorems": [
    "C20_roundtrip",
    "C20_overlong_list_is_cut",
    "C20_equality"
   ],
   "note": ""
  },
  {
   "property": "C21",
   "status": "proved",
   "theorems": [
    "C21_concatenation",
    "C21_fixed_width_injective",
    "C21_framing_refuted"
   ],
   "note": ""
  },
  {
   "property": "C22",
   "status": "proved",
   "theorems": [
    "C22_diff_next_pow2",
    "C22_zero"
   ],
   "note": ""
  },
  {
   "property": "C23",
   "status": "proved",
   "theorems": [
    "C23_complete"
   ],
   "note": ""
  },
  {
   "property": "C24",
   "status": "proved",
   "theorems": [
    "C24_verify_iff",
    "C24_other_sizes",
    "C24_all_sizes",
    "C24_unique_statement"
   ],
   "note": ""
  },
  {
   "property": "C25",
   "status": "proved",
   "theorems": [
    "C25_verif_scalars",
    "C25_wraps"
   ],
   "note": ""
  },
  {
   "property": "C26",
   "status": "proved",
   "theorems": [
    "C26_not_power_of_two",
    "C26_mismatched_lengths",
    "C26_outcomes",
    "C26_empty_panics",
    "C26_single_unchecked"
   ],
   "note": ""
  },
  {
   "property": "C27",
   "status": "proved",
   "theorems": [
    "C27_roundtrip",
    "C27_accepts_junk",
    "C27_encode_panics",
    "C27_encode_all"
   ],
   "note": ""
  },
  {
   "property": "C28",
   "status": "proved",
   "theorems": [
    "C28_ipp_prefix",
    "C28_ipp_panics",
    "C28_ipp_all",
    "C28_ipp_symmetric_refuted",
    "C28_mlsag",
    "C28_mlsag_shorter",
    "C28_mlsag_longer",
    "C28_rp_equals",
    "C28_rp_without_commitments",
    "C28_rp_ignores_ip"
   ],
   "note": ""
  },
  {
   "property": "C29",
   "status": "proved",
   "theorems": [
    "C29_bit_commit",
    "C29_negative",
    "C29_debug",
    "C29_debug_any"
   ],
   "note": ""
  },
  {
   "property": "C30",
   "status": "proved",
   "theorems": [
    "C30_complete"
   ],
   "note": ""
  },
  {
   "property": "C31",
   "status": "proved",
   "theorems": [
    "C31_errors",
    "C31_succeeds",
    "C31_error_iff",
    "C31_no_panic"
   ],
   "note": ""
  },
  {
   "property": "C32",
   "status": "proved",
   "theorems": [
    "C32_excess",
    "C32_single"
   ],
   "note": ""
  },
  {
   "property": "C33",
   "status": "proved",
   "theorems": [
    "C33_verify_iff",
    "C33_two_c",
    "C33_one_c",
    "C33_E1",
    "C33_wrong_size",
    "C33_exact"
   ],
   "note": ""
  },
  {
   "property": "C34",
   "status": "proved",
   "theorems": [
    "C34_debug",
    "C34_text",
    "C34_maximum"
   ],
   "note": ""
  },
  {
   "property": "C35",
   "status": "proved",
   "theorems": [
    "C35_history",
    "C35_other_M",
    "C35_unique_M",
    "C35_prove_breaks_verify",
    "C35_initial"
   ],
   "note": ""
  },
  {
   "property": "C36",
   "status": "proved",
   "theorems": [
    "C36_interference",
    "C36_same_power",
    "C36_with_verify",
    "C36_only_verify"
   ],
   "note": ""
  },
  {
   "property": "C37",
   "status": "proved",
   "theorems": [
    "C37_surplus"
   ],
   "note": ""
  },
  {
   "property": "C38",
   "status": "proved",
   "theorems": [
    "C38_panics",
    "C38_nonpositive"
   ],
   "note": ""
  },
  {
   "property": "C39",
   "status": "proved",
   "theorems": [
    "C39_roundtrip",
    "C39_trailing",
    "C39_encode_nil"
   ],
   "note": ""
  },
  {
   "property": "C40",
   "status": "proved",
   "theorems": [
    "C40_verifies",
    "C40_content"
   ],
   "note": ""
  },
  {
   "property": "C41",
   "status": "proved",
   "theorems": [
    "C41_alone_panics"
   ],
   "note": ""
  },
  {
   "property": "C42",
   "status": "proved",
   "theorems": [
    "C42_error_iff_ragged",
    "C42_text",
    "C42_no_keys",
    "C42_no_keys_useless"
   ],
   "note": ""
  },
  {
   "property": "C43",
   "status": "proved",
   "theorems": [
    "C43_images",
    "C43_linkable",
    "C43_unlinked"
   ],
   "note": ""
  },
  {
   "property": "C44",
   "status": "proved",
   "theorems": [
    "C44_verification_equation",
    "C44_single_row"
   ],
   "note": ""
  },
  {
   "property": "C45",
   "status": "proved",
   "theorems": [
    "C45_extract",
    "C45_extract_points"
   ],
   "note": ""
  },
  {
   "property": "C46",
   "status": "proved",
   "theorems": [
    "C46_shuffle",
    "C46_no_signer",
    "C46_every_order"
   ],
   "note": ""
  },
  {
   "property": "C47",
   "status": "proved",
   "theorems": [
    "C47_roundtrip",
    "C47_no_rows"
   ],
   "note": ""
  },
  {
   "property": "C48",
   "status": "proved",
   "theorems": [
    "C48_outcomes",
    "C48_empty",
    "C48_surplus"
   ],
   "note": ""
  },
  {
   "property": "C49",
   "status": "proved",
   "theorems": [
    "C49_zero_key",
    "C49_verifies",
    "C49_alone_panics",
    "C49_uneven_decoys",
    "C49_extra_secrets",
    "C49_second_fails"
   ],
   "note": ""
  },
  {
   "property": "C50",
   "status": "proved",
   "theorems": [
    "C50_second_column",
    "C50_shared",
    "C50_view",
    "C50_shared_short",
    "C50_caller",
    "C50_added"
   ],
   "note": ""
  },
  {
   "property": "C51",
   "status": "proved",
   "theorems": [
    "C51_sign_verifies"
   ],
   "note": ""
  },
  {
   "property": "C52",
   "status": "proved",
   "theorems": [
    "C52_content",
    "C52_signer_response",
    "C52_mixin_ignored",
    "C52_signer_visible",
    "C52_ring_contains_mixin_refuted"
   ],
   "note": ""
  },
  {
   "property": "C53",
   "status": "proved",
   "theorems": [
    "C53_verify_chain",
    "C53_verify_panics"
   ],
   "note": ""
  },
  {
   "property": "C54",
   "status": "proved",
   "theorems": [
    "C54_generate",
    "C54_unsafe_sign_verify",
    "C54_sign_verify"
   ],
   "note": ""
  },
  {
   "property": "C55",
   "status": "proved",
   "theorems": [
    "C55_multisig_verifies",
    "C55_key_order",
    "C55_sig_order",
    "C55_nil"
   ],
   "note": ""
  },
  {
   "property": "C56",
   "status": "proved",
   "theorems": [
    "C56_one_signature",
    "C56_one_key",
    "C56_zero_hash"
   ],
   "note": ""
  },
  {
   "property": "C57",
   "status": "proved",
   "theorems": [
    "C57_lengths",
    "C57_repeated_digest",
    "C57_decides",
    "C57_batch_valid",
    "C57_unsafe_batch",
    "C57_empty_panics"
   ],
   "note": ""
  },
  {
   "property": "C58",
   "status": "proved",
   "theorems": [
    "C58_surplus_unsafe_batch",
    "C58_surplus_compressed",
    "C58_missing_key_panics",
    "C58_missing_key_panics_compressed",
    "C58_compressed_decides",
    "C58_compressed_errors",
    "C58_unsafe_batch_decides"
   ],
   "note": ""
  },
  {
   "property": "C59",
   "status": "proved",
   "theorems": [
    "C59_forgery"
   ],
   "note": ""
  },
  {
   "property": "C60",
   "status": "proved",
   "theorems": [
    "C60_rogue_key",
    "C60_repeats_rejected"
   ],
   "note": ""
  },
  {
   "property": "C61",
   "status": "proved",
   "theorems": [
    "C61_public_key",
    "C61_text",
    "C61_apk",
    "C61_signature",
    "C61_unsafe_signature",
    "C61_injective"
   ],
   "note": ""
  },
  {
   "property": "C62",
   "status": "proved",
   "theorems": [
    "C62_round_trip",
    "C62_encoding",
    "C62_encoding_unique",
    "C62_decoding",
    "C62_never_panics",
    "C62_line_breaks",
    "C62_injective",
    "C62_not_injective",
    "C62_hex",
    "C62_hex_never_panics"
   ],
   "note": ""
  },
  {
   "property": "C63",
   "status": "proved",
   "theorems": [
    "C63_signatures_intact",
    "C63_aggregate_bytes",
    "C63_errors",
    "C63_keys_destroyed",
    "C63_apk_destroyed",
    "C63_text_errors"
   ],
   "note": ""
  },
  {
   "property": "C64",
   "status": "proved",
   "theorems": [
    "C64_frame",
    "C64_pure",
    "C64_unshared",
    "C64_values_persist",
    "C64_copy",
    "C64_aggregate",
    "C64_unsafe_batch"
   ],
   "note": ""
  },
  {
   "property": "C65",
   "status": "proved",
   "theorems": [
    "C65_chunking",
    "C65_faults",
    "C65_faults_to_end",
    "C65_no_panic"
   ],
   "note": ""
  },
  {
   "property": "C66",
   "status": "proved",
   "theorems": [
    "C66_prefix"
   ],
   "note": ""
  },
  {
   "property": "C67",
   "status": "proved",
   "theorems": [
    "C67_commitments",
    "C67_range_proof",
    "C67_mlsag",
    "C67_empty_rows",
    "C67_inner_product"
   ],
   "note": ""
  },
  {
   "property": "C68",
   "status": "proved",
   "theorems": [
    "C68_in_place",
    "C68_destroyed"
   ],
   "note": ""
  },
  {
   "property": "C69",
   "status": "proved",
   "theorems": [
    "C69_forgery"
   ],
   "note": ""
  },
  {
   "property": "C70",
   "status": "proved",
   "theorems": [
    "C70_extract"
   ],
   "note": ""
  },
  {
   "property": "C71",
   "status": "proved",
   "theorems": [
    "C71_accepts_iff",
    "C71_replaced_payloads",
    "C71_altered_root_hash",
    "C71_altered_merkle_root",
    "C71_node_hashes",
    "C71_calculate_node_hash"
   ],
   "note": ""
  },
  {
   "property": "C72",
   "status": "proved",
   "theorems": [
    "C72_one_shot",
    "C72_object",
    "C72_fresh",
    "C72_reuse",
    "C72_payload_only_refuted"
   ],
   "note": ""
  },
  {
   "property": "C73",
   "status": "proved",
   "theorems": [
    "C73_commitment",
    "C73_commitments",
    "C73_pubkeys",
    "C73_responses",
    "C73_mlsag",
    "C73_range_proof",
    "C73_inner_product",
    "C73_inner_product_receiver"
   ],
   "note": ""
  },
  {
   "property": "C74",
   "status": "proved",
   "theorems": [
    "C74_protocol",
    "C74_commitments",
    "C74_pad_size"
   ],
   "note": ""
  },
  {
   "property": "C75",
   "status": "proved",
   "theorems": [
    "C75_hiding"
   ],
   "note": ""
  },
  {
   "property": "C76",
   "status": "proved",
   "theorems": [
    "C76_scalars",
    "C76_outcomes"
   ],
   "note": ""
  },
  {
   "property": "C77",
   "status": "proved",
   "theorems": [
    "C77_false_statement",
    "C77_any_proof"
   ],
   "note": ""
  },
  {
   "property": "C78",
   "status": "proved",
   "theorems": [
    "C78_accepted",
    "C78_few_y",
    "C78_few_z",
    "C78_few_x",
    "C78_few_w",
    "C78_few_u",
    "C78_few_c"
   ],
   "note": ""
  },
  {
   "property": "C79",
   "status": "proved",
   "theorems": [
    "C79_honest",
    "C79_honest_round",
    "C79_bits"
   ],
   "note": ""
  },
  {
   "property": "C80",
   "status": "proved",
   "theorems": [
    "C80_setters",
    "C80_two_keys",
    "C80_last_keys",
    "C80_row",
    "C80_members",
    "C80_keys"
   ],
   "note": ""
  },
  {
   "property": "C81",
   "status": "proved",
   "theorems": [
    "C81_memory",
    "C81_prefix",
    "C81_arguments_kept_refuted"
   ],
   "note": ""
  },
  {
   "property": "C82",
   "status": "proved",
   "theorems": [
    "C82_results",
    "C82_independent",
    "C82_shared",
    "C82_split",
    "C82_split_append"
   ],
   "note": ""
  },
  {
   "property": "C83",
   "status": "proved",
   "theorems": [
    "C83_append",
    "C83_result_kept",
    "C83_clear",
    "C83_copies",
    "C83_copies_full",
    "C83_pubkeys"
   ],
   "note": ""
  },
  {
   "property": "C84",
   "status": "proved",
   "theorems": [
    "C84_commit",
    "C84_label_lost",
    "C84_late",
    "C84_more"
   ],
   "note": ""
  },
  {
   "property": "C85",
   "status": "proved",
   "theorems": [
    "C85_outcomes",
    "C85_lists",
    "C85_signature",
    "C85_commitment",
    "C85_faults",
    "C85_proof",
    "C85_proof_commitments",
    "C85_verify_keys",
    "C85_verify_responses",
    "C85_retry_keys",
    "C85_retry_signature",
    "C85_unchanged_refuted"
   ],
   "note": ""
  },
  {
   "property": "C86",
   "status": "proved",
   "theorems": [
    "C86_any_order",
    "C86_few_early",
    "C86_few_z",
    "C86_few_round",
    "C86_few_x",
    "C86_few_w"
   ],
   "note": ""
  },
  {
   "property": "C87",
   "status": "proved",
   "theorems": [
    "C87_extract",
    "C87_generic",
    "C87_verify",
    "C87_rangeproof",
    "C87_honest"
   ],
   "note": ""
  },
  {
   "property": "C88",
   "status": "proved",
   "theorems": [
    "C88_many",
    "C88_rows",
    "C88_two",
    "C88_same_string",
    "C88_signer"
   ],
   "note": ""
  },
  {
   "property": "C89",
   "status": "proved",
   "theorems": [
    "C89_accepted",
    "C89_images"
   ],
   "note": ""
  },
  {
   "property": "C90",
   "status": "proved",
   "theorems": [
    "C90_accepted",
    "C90_unknown"
   ],
   "note": ""
  },
  {
   "property": "C91",
   "status": "proved",
   "theorems": [
    "C91_many",
    "C91_same_string",
    "C91_mlsag",
    "C91_mlsag_one"
   ],
   "note": ""
  },
  {
   "property": "C92",
   "status": "proved",
   "theorems": [
    "C92_accepted",
    "C92_image"
   ],
   "note": ""
  },
  {
   "property": "C93",
   "status": "proved",
   "theorems": [
    "C93_commitment",
    "C93_spend",
    "C93_mismatch",
    "C93_amounts"
   ],
   "note": ""
  },
  {
   "property": "C94",
   "status": "proved",
   "theorems": [
    "C94_simulate",
    "C94_real",
    "C94_signer",
    "C94_blsag"
   ],
   "note": ""
  },
  {
   "property": "C95",
   "status": "proved",
   "theorems": [
    "C95_message",
    "C95_change",
    "C95_same"
   ],
   "note": ""
  },
  {
   "property": "C96",
   "status": "proved",
   "theorems": [
    "C96_mlsag",
    "C96_blsag"
   ],
   "note": ""
  },
  {
   "property": "C97",
   "status": "proved",
   "theorems": [
    "C97_relation",
    "C97_relations",
    "C97_trivial"
   ],
   "note": ""
  },
  {
   "property": "C98",
   "status": "proved",
   "theorems": [
    "C98_form",
    "C98_simulate",
    "C98_exists"
   ],
   "note": ""
  },
  {
   "property": "C99",
   "status": "proved",
   "theorems": [
    "C99_prove",
    "C99_verify"
   ],
   "note": ""
  },
  {
   "property": "C100",
   "status": "proved",
   "theorems": [
    "C100_answer",
    "C100_refused",
    "C100_accepted",
    "C100_alone",
    "C100_two"
   ],
   "note": ""
  },
  {
   "property": "C101",
   "status": "proved",
   "theorems": [
    "C101_run",
    "C101_only",
    "C101_numbers"
   ],
   "note": ""
  },
  {
   "property": "C102",
   "status": "proved",
   "theorems": [
    "C102_same_root",
    "C102_same_depth",
    "C102_deeper"
   ],
   "note": ""
  },
  {
   "property": "C103",
   "status": "proved",
   "theorems": [
    "C103_relation",
    "C103_zeros",
    "C103_seeds",
    "C103_lengths_bound_refuted"
   ],
   "note": ""
  },
  {
   "property": "C104",
   "status": "proved",
   "theorems": [
    "C104_row",
    "C104_dualkey",
    "C104_suspects",
    "C104_same_second"
   ],
   "note": ""
  },
  {
   "property": "C105",
   "status": "proved",
   "theorems": [
    "C105_scalars",
    "C105_not_canonical",
    "C105_mlsag",
    "C105_mlsag_every",
    "C105_range_every",
    "C105_inner_product_every"
   ],
   "note": ""
  },
  {
   "property": "C106",
   "status": "proved",
   "theorems": [
    "C106_total",
    "C106_no_wrap",
    "C106_pay",
    "C106_no_inflation",
    "C106_range_needed"
   ],
   "note": ""
  },
  {
   "property": "C107",
   "status": "proved",
   "theorems": [
    "C107_oracle",
    "C107_script"
   ],
   "note": ""
  },
  {
   "property": "C108",
   "status": "proved",
   "theorems": [
    "C108_extract",
    "C108_verify",
    "C108_knowledge",
    "C108_honest"
   ],
   "note": ""
  },
  {
   "property": "C109",
   "status": "proved",
   "theorems": [
    "C109_agree",
    "C109_forgery",
    "C109_unlinked",
    "C109_keys",
    "C109_images_refuted"
   ],
   "note": ""
  },
  {
   "property": "C110",
   "status": "proved",
   "theorems": [
    "C110_aggregate",
    "C110_rogue",
    "C110_relation",
    "C110_key",
    "C110_invertible",
    "C110_groups"
   ],
   "note": ""
  },
  {
   "property": "C111",
   "status": "proved",
   "theorems": [
    "C111_same_check",
    "C111_accepted",
    "C111_single_refuted",
    "C111_signed",
    "C111_proved",
    "C111_one_key",
    "C111_linked"
   ],
   "note": ""
  },
  {
   "property": "C112",
   "status": "proved",
   "theorems": [
    "C112_scalars",
    "C112_checked_later",
    "C112_bytes",
    "C112_inputs",
    "C112_largest"
   ],
   "note": ""
  },
  {
   "property": "C113",
   "status": "proved",
   "theorems": [
    "C113_blsag",
    "C113_mlsag",
    "C113_mlsag_stolen",
    "C113_range_difference",
    "C113_range_alpha"
   ],
   "note": ""
  },
  {
   "property": "C114",
   "status": "proved",
   "theorems": [
    "C114_group",
    "C114_inverse",
    "C114_batch",
    "C114_rest"
   ],
   "note": ""
  },
  {
   "property": "C115",
   "status": "proved",
   "theorems": [
    "C115_moved",
    "C115_commitment",
    "C115_same_value",
    "C115_only"
   ],
   "note": ""
  },
  {
   "property": "C116",
   "status": "proved",
   "theorems": [
    "C116_signature",
    "C116_refused",
    "C116_unmarshal",
    "C116_literal",
    "C116_literal_unmarshal",
    "C116_apk",
    "C116_convert",
    "C116_unsafe",
    "C116_rogue",
    "C116_nil"
   ],
   "note": ""
  },
  {
   "property": "C117",
   "status": "proved",
   "theorems": [
    "C117_schedule",
    "C117_check",
    "C117_one_factor",
    "C117_coef"
   ],
   "note": ""
  },
  {
   "property": "C118",
   "status": "proved",
   "theorems": [
    "C118_poly",
    "C118_eval",
    "C118_inner",
    "C118_t0",
    "C118_debug_t0",
    "C118_lxg",
    "C118_rxh",
    "C118_debug_prove"
   ],
   "note": ""
  },
  {
   "property": "C119",
   "status": "proved",
   "theorems": [
    "C119_schedule",
    "C119_accepted",
    "C119_plain"
   ],
   "note": ""
  },
  {
   "property": "C120",
   "status": "proved",
   "theorems": [
    "C120_built",
    "C120_same",
    "C120_prove"
   ],
   "note": ""
  },
  {
   "property": "C121",
   "status": "proved",
   "theorems": [
    "C121_fields",
    "C121_range_proof",
    "C121_inner_product",
    "C121_inner_product_rounds",
    "C121_range_proof_rounds"
   ],
   "note": ""
  },
  {
   "property": "C122",
   "status": "proved",
   "theorems": [
    "C122_shorter",
    "C122_longer"
   ],
   "note": ""
  }
 ]
}