# What Print Assumptions lists for each theorem

Written by `tools/assumptions.py` from the output of Coq.

| property | theorem | file | assumptions |
|---|---|---|---|
| C01 | `cbc_roundtrip_partial` | `CbcProps.v` | Closed under the global context |
| C01 | `cbc_roundtrip_refuted` | `CbcProps.v` | Closed under the global context |
| C02 | `padding_roundtrip_partial` | `CbcProps.v` | Closed under the global context |
| C02 | `padding_is_pkcs7_iff` | `CbcProps.v` | Closed under the global context |
| C02 | `padding_injective_refuted` | `CbcProps.v` | Closed under the global context |
| C02 | `padding_separate_empty_refuted` | `CbcProps.v` | Closed under the global context |
| C03 | `cbc_encrypt_conforms` | `CbcProps.v` | Closed under the global context |
| C03 | `cbc_encrypt_rejects` | `CbcProps.v` | Closed under the global context |
| C03 | `cbc_encrypt_output_length` | `CbcProps.v` | Closed under the global context |
| C04 | `cbc_decrypt_inplace_eq` | `CbcProps.v` | Closed under the global context |
| C05 | `cbc_decrypt_pieces_eq` | `CbcProps.v` | Closed under the global context |
| C06 | `cbc_encrypt_pieces_actual` | `CbcProps.v` | Closed under the global context |
| C06 | `cbc_encrypt_pieces_refuted` | `CbcProps.v` | Closed under the global context |
| C07 | `cbc_decrypt_bounds_partial` | `CbcProps.v` | Closed under the global context |
| C07 | `cbc_decrypt_bounds_refuted` | `CbcProps.v` | Closed under the global context |
| C08 | `gcm_mult_is_gf_mul` | `GcmProps.v` | Closed under the global context |
| C08 | `gf_mul_field` | `GcmAuthProps.v` | Closed under the global context |
| C09 | `gcm_conforms` | `GcmProps.v` | Closed under the global context |
| C09 | `gcm_decrypt_conforms` | `GcmProps.v` | Closed under the global context |
| C10 | `gcm_roundtrip` | `GcmProps.v` | Closed under the global context |
| C100 | `wRand32_uniform` | `WrandProps.v` | Closed under the global context |
| C100 | `wRand64_uniform` | `WrandProps.v` | Closed under the global context |
| C100 | `wRand_full_refuted` | `WrandProps.v` | Closed under the global context |
| C100 | `shuffles_follow_first_second_refuted` | `WrandProps.v` | Closed under the global context |
| C101 | `gcm_overlap` | `OverlapProps.v` | Closed under the global context |
| C101 | `wbgcm_overlap` | `OverlapProps.v` | Closed under the global context |
| C101 | `gcm_output_inside_input_iff` | `OverlapProps.v` | Closed under the global context |
| C101 | `gcm_output_inside_input_refuted` | `OverlapProps.v` | Closed under the global context |
| C101 | `cbc_encrypt_overlap` | `OverlapProps.v` | Closed under the global context |
| C101 | `cbc_decrypt_overlap_partial` | `OverlapProps.v` | Closed under the global context |
| C101 | `cbc_decrypt_one_block_before_refuted` | `OverlapProps.v` | Closed under the global context |
| C101 | `cbc_decrypt_over_iv_refuted` | `OverlapProps.v` | Closed under the global context |
| C102 | `gcm_finish_again_actual` | `GcmAgainProps.v` | Closed under the global context |
| C102 | `gcm_finish_again_refuted` | `GcmAgainProps.v` | Closed under the global context |
| C103 | `cbc_decrypt_blocks` | `CbcBlocksProps.v` | Closed under the global context |
| C103 | `cbc_decrypt_change_block` | `CbcBlocksProps.v` | Closed under the global context |
| C103 | `cbc_decrypt_change_iv` | `CbcBlocksProps.v` | Closed under the global context |
| C103 | `cbc_decrypt_suffix` | `CbcBlocksProps.v` | Closed under the global context |
| C103 | `cbc_tamper_refuted` | `CbcBlocksProps.v` | Closed under the global context |
| C104 | `cbc_encrypt_blocks` | `CbcBlocksProps.v` | Closed under the global context |
| C104 | `cbc_equal_blocks_iff` | `CbcBlocksProps.v` | Closed under the global context |
| C104 | `cbc_common_prefix_iff` | `CbcBlocksProps.v` | Closed under the global context |
| C105 | `cbc_reported_length_value` | `CbcBlocksProps.v` | Closed under the global context |
| C105 | `cbc_length_reveals_refuted` | `CbcBlocksProps.v` | Closed under the global context |
| C106 | `sm4_lookups_partial` | `TraceProps.v` | Closed under the global context |
| C106 | `sm4_key_lookups_refuted` | `TraceProps.v` | Closed under the global context |
| C106 | `sm4_encrypt_lookups_refuted` | `TraceProps.v` | Closed under the global context |
| C106 | `sm4_decrypt_lookups_refuted` | `TraceProps.v` | Closed under the global context |
| C106 | `gcm_lookups_refuted` | `TraceProps.v` | Closed under the global context |
| C107 | `sm3_extension_refuted` | `Sm3MoreProps.v` | Closed under the global context |
| C107 | `sm3_extension_same` | `Sm3MoreProps.v` | Closed under the global context |
| C108 | `sm3_collision` | `Sm3MoreProps.v` | Closed under the global context |
| C108 | `sm3_collisions_exist` | `Sm3MoreProps.v` | Closed under the global context |
| C109 | `sm3_again_actual` | `Sm3MoreProps.v` | Closed under the global context |
| C109 | `sm3_again_refuted` | `Sm3MoreProps.v` | Closed under the global context |
| C11 | `gcm_streaming_partial` | `GcmProps.v` | Closed under the global context |
| C11 | `gcm_streaming_actual` | `GcmProps.v` | Closed under the global context |
| C11 | `gcm_streaming_refuted` | `GcmProps.v` | Closed under the global context |
| C110 | `phone_tweak_actual` | `AppTweakProps.v` | Closed under the global context |
| C110 | `idcard_tweak_actual` | `AppTweakProps.v` | Closed under the global context |
| C110 | `cn_tweak_actual` | `AppTweakProps.v` | Closed under the global context |
| C110 | `phone_tweak_refuted` | `AppTweakProps.v` | Closed under the global context |
| C110 | `idcard_tweak_refuted` | `AppTweakProps.v` | Closed under the global context |
| C110 | `cn_tweak_refuted` | `AppTweakProps.v` | Closed under the global context |
| C111 | `app_terminator_refuted` | `AppTweakProps.v` | Closed under the global context |
| C112 | `ff3_related_refuted` | `AppTweakProps.v` | Closed under the global context |
| C113 | `ff3_1_actual` | `AppTweakProps.v` | Closed under the global context |
| C113 | `ff3_1_refuted` | `AppTweakProps.v` | Closed under the global context |
| C114 | `gcm_iv_reuse_xor_refuted` | `GcmReuseProps.v` | Closed under the global context |
| C114 | `gcm_iv_reuse_refuted` | `GcmReuseProps.v` | Closed under the global context |
| C115 | `gcm_malleable_refuted` | `GcmReuseProps.v` | Closed under the global context |
| C115 | `gcmfile_malleable_refuted` | `GcmReuseProps.v` | Closed under the global context |
| C116 | `wbaes_key_hidden_refuted` | `WbaesKeyProps.v` | Closed under the global context |
| C116 | `wbaes_tables_separate_keys_actual` | `WbaesKeyProps.v` | Closed under the global context |
| C117 | `wbsm4_dummy_rounds_hidden_refuted` | `Wbsm4KeyProps.v` | Closed under the global context |
| C117 | `wbsm4_round_key_hidden_refuted` | `Wbsm4KeyProps.v` | Closed under the global context |
| C117 | `wbsm4_key_hidden_refuted` | `Wbsm4KeyProps.v` | Closed under the global context |
| C118 | `sewb_round_key_hidden_refuted` | `Wbsm4KeyProps.v` | Closed under the global context |
| C118 | `sewb_key_hidden_refuted` | `Wbsm4KeyProps.v` | Closed under the global context |
| C119 | `phone_permutes` | `AppPermProps.v` | Closed under the global context |
| C119 | `idcard_permutes` | `AppPermProps.v` | Closed under the global context |
| C119 | `cn_permutes` | `AppPermProps.v` | Closed under the global context |
| C12 | `gcm_reuse_partial` | `GcmProps.v` | Closed under the global context |
| C12 | `gcm_reuse_stale` | `GcmProps.v` | Closed under the global context |
| C12 | `gcm_reuse_refuted` | `GcmProps.v` | Closed under the global context |
| C12 | `gcm_reuse_every_key_refuted` | `StaleProps.v` | Closed under the global context |
| C120 | `idcard_wellformed_refuted` | `AppPermProps.v` | Closed under the global context |
| C121 | `ff1_cmac_tag_space_refuted` | `CmacTagsProps.v` | Closed under the global context |
| C121 | `ff1_cmac_collision_refuted` | `CmacTagsProps.v` | Closed under the global context |
| C122 | `wbaes_one_way_refuted` | `OneWayProps.v` | Closed under the global context |
| C122 | `wbsm4_one_way_refuted` | `OneWayProps.v` | Closed under the global context |
| C122 | `sewb_one_way_refuted` | `OneWayProps.v` | Closed under the global context |
| C122 | `wbgcm_key_read_actual` | `OneWayProps.v` | Closed under the global context |
| C123 | `ff3_gmac_tweak_refuted` | `GmacTweakProps.v` | Closed under the global context |
| C123 | `ff3_gmac_hash_key_hidden_refuted` | `GmacTweakProps.v` | Closed under the global context |
| C124 | `wbsm4_wrong_direction_refuted` | `WrongDirProps.v` | Closed under the global context |
| C124 | `sewb_wrong_direction_refuted` | `WrongDirProps.v` | Closed under the global context |
| C124 | `wbsm4_cbc_wrong_direction_refuted` | `WrongDirProps.v` | Closed under the global context |
| C124 | `wbsm4_gcm_wrong_direction_refuted` | `WrongDirProps.v` | Closed under the global context |
| C125 | `wbsm4_keyfile_secret_refuted` | `KeyfileKeyProps.v` | Closed under the global context |
| C125 | `wbsm4_keyfile_separates_keys_actual` | `KeyfileKeyProps.v` | Closed under the global context |
| C126 | `gcmfile_again_partial` | `FileAgainProps.v` | Closed under the global context |
| C126 | `gcmfile_again_refuted` | `FileAgainProps.v` | Closed under the global context |
| C127 | `wbgcm_again_partial` | `StaleProps.v` | Closed under the global context |
| C127 | `wbgcm_again_refuted` | `StaleProps.v` | Closed under the global context |
| C128 | `ee_block_change_detected` | `WbAuthProps.v` | Closed under the global context |
| C129 | `ee_iv_reuse_refuted` | `WbAuthProps.v` | Closed under the global context |
| C129 | `mask_iv_reuse_refuted` | `WbAuthProps.v` | Closed under the global context |
| C129 | `mask_iv_reuse_xor_refuted` | `WbAuthProps.v` | Closed under the global context |
| C13 | `gcm_aad_pieces_partial` | `GcmProps.v` | Closed under the global context |
| C13 | `gcm_aad_pieces_refuted` | `GcmProps.v` | Closed under the global context |
| C13 | `gcm_aad_pieces_every_key_refuted` | `StaleProps.v` | Closed under the global context |
| C14 | `gcm_queries` | `GcmProps.v` | Closed under the global context |
| C14 | `gcm_counters_distinct` | `GcmProps.v` | Closed under the global context |
| C14 | `gcm_counter_period` | `GcmProps.v` | Closed under the global context |
| C15 | `gcm_reject_no_effect` | `GcmProps.v` | Closed under the global context |
| C15 | `gcm_accept` | `GcmProps.v` | Closed under the global context |
| C16 | `gcm_parallel_encrypt_partial` | `ParProps.v` | Closed under the global context |
| C16 | `gcm_parallel_one_block` | `ParProps.v` | Closed under the global context |
| C16 | `gcm_parallel_short_buffer` | `ParProps.v` | Closed under the global context |
| C16 | `gcm_parallel_private` | `ParProps.v` | Closed under the global context |
| C16 | `gcm_parallel_race_refuted` | `ParProps.v` | Closed under the global context |
| C16 | `gcm_parallel_empty_refuted` | `ParProps.v` | Closed under the global context |
| C17 | `gcm_parallel_decrypt_actual` | `ParProps.v` | Closed under the global context |
| C17 | `gcm_parallel_decrypt_refuted` | `ParProps.v` | Closed under the global context |
| C18 | `gcmfile_roundtrip` | `FileProps.v` | Closed under the global context |
| C18 | `gcmfile_conforms` | `FileProps.v` | Closed under the global context |
| C19 | `gcmfile_tamper_refuted` | `FileProps.v` | Closed under the global context |
| C19 | `gcmfile_tamper_witness_refuted` | `FileProps.v` | Closed under the global context |
| C20 | `gcmfile_size_check` | `FileProps.v` | Closed under the global context |
| C21 | `sm4_conforms` | `Sm4Props.v` | Closed under the global context |
| C21 | `sm4_conforms_decmode` | `Sm4Props.v` | Closed under the global context |
| C22 | `sm4_encrypt_decrypt` | `Sm4Props.v` | Closed under the global context |
| C22 | `sm4_any_context_inverts` | `Sm4Props.v` | Closed under the global context |
| C23 | `sm4_key_normalisation` | `Sm4Props.v` | Closed under the global context |
| C23 | `sm4_key_reads` | `Sm4Props.v` | Closed under the global context |
| C23 | `sm4_key_overread` | `Sm4Props.v` | Closed under the global context |
| C24 | `sm3_streaming` | `Sm3Props.v` | Closed under the global context |
| C24 | `sm3_digest_length` | `Sm3Props.v` | Closed under the global context |
| C25 | `sm3_conforms` | `Sm3Props.v` | Closed under the global context |
| C26 | `ff1_roundtrip` | `FpeProps.v` | Closed under the global context |
| C26 | `ff1_roundtrip_dec` | `FpeProps.v` | Closed under the global context |
| C27 | `ff1_format` | `FpeProps.v` | Closed under the global context |
| C27 | `ff1_output_alphabet` | `FpeProps.v` | Closed under the global context |
| C28 | `ff1_conforms` | `FpeProps.v` | Closed under the global context |
| C29 | `ff3_roundtrip` | `FpeProps.v` | Closed under the global context |
| C29 | `ff3_roundtrip_dec` | `FpeProps.v` | Closed under the global context |
| C29 | `ff3_output_alphabet` | `FpeProps.v` | Closed under the global context |
| C30 | `ff3_conforms` | `FpeProps.v` | Closed under the global context |
| C31 | `ff1_invalid_overflow_refuted` | `FpeProps.v` | Closed under the global context |
| C31 | `ff3_invalid_overflow_refuted` | `FpeProps.v` | Closed under the global context |
| C31 | `fpe_invalid_never_recovered` | `FpeProps.v` | Closed under the global context |
| C31 | `ff1_returns_iff` | `FpeCharsProps.v` | Closed under the global context |
| C31 | `ff3_returns_iff` | `FpeCharsProps.v` | Closed under the global context |
| C31 | `fpe_invalid_collides` | `FpeCharsProps.v` | Closed under the global context |
| C32 | `ff1_cmac_roundtrip` | `FpeProps.v` | Closed under the global context |
| C32 | `ff1_cmac_tag_refuted` | `FpeProps.v` | Closed under the global context |
| C32 | `ff1_cmac_tag_value` | `FpeProps.v` | Closed under the global context |
| C32 | `ff1_cmac_tag_ten_bytes` | `FpeProps.v` | Closed under the global context |
| C32 | `ff3_gmac_roundtrip` | `FpeProps.v` | Closed under the global context |
| C32 | `ff3_gmac_tag_value` | `FpeProps.v` | Closed under the global context |
| C32 | `ff3_gmac_short_tweak_undefined` | `FpeProps.v` | Closed under the global context |
| C33 | `phone_encrypt_decrypt` | `AppProps.v` | Closed under the global context |
| C33 | `phone_ff3_refuted` | `AppProps.v` | Closed under the global context |
| C34 | `idcard_encrypt_decrypt` | `AppProps.v` | Closed under the global context |
| C34 | `idcard_ff3_refuted` | `AppProps.v` | Closed under the global context |
| C35 | `cn_encrypt_decrypt` | `AppProps.v` | Closed under the global context |
| C36 | `app_overflow_refuted` | `AppProps.v` | Closed under the global context |
| C37 | `C37_generated_matrices_are_inverse` | `MatProps.v` | Closed under the global context |
| C37 | `C37_generated_affine_maps_are_inverse` | `MatProps.v` | Closed under the global context |
| C37 | `C37_generated_128_bit_matrices_are_inverse` | `Mat128Props.v` | Closed under the global context |
| C37 | `C37_generated_128_bit_affine_maps_are_inverse` | `Mat128Props.v` | Closed under the global context |
| C38 | `C38_test_accepts_exactly_the_invertible` | `MatProps.v` | Closed under the global context |
| C38 | `C38_rejected_matrices_are_singular` | `MatProps.v` | Closed under the global context |
| C38 | `C38_inverse` | `MatProps.v` | Closed under the global context |
| C38 | `C38_128_bit_test` | `Mat128Props.v` | Closed under the global context |
| C38 | `C38_128_bit_inverse` | `Mat128Props.v` | Closed under the global context |
| C39 | `C39_generated_permutations` | `MatProps.v` | Closed under the global context |
| C39 | `C39_shuffle_permutes` | `MatProps.v` | Closed under the global context |
| C40 | `C40_entries` | `MatBitsProps.v` | Closed under the global context |
| C40 | `C40_equality` | `MatBitsProps.v` | Closed under the global context |
| C40 | `C40_128_bit_vector_equality` | `MatBitsProps.v` | Closed under the global context |
| C40 | `C40_copies` | `MatBitsProps.v` | Closed under the global context |
| C40 | `C40_vector_sums` | `MatBitsProps.v` | Closed under the global context |
| C40 | `C40_128_bit_vector_sums` | `MatBitsProps.v` | Closed under the global context |
| C40 | `C40_matrix_times_vector` | `MatProps.v` | Closed under the global context |
| C40 | `C40_linear` | `MatProps.v` | Closed under the global context |
| C40 | `C40_matrix_product` | `MatProps.v` | Closed under the global context |
| C40 | `C40_product_is_composition` | `MatProps.v` | Closed under the global context |
| C40 | `C40_transpose` | `MatProps.v` | Closed under the global context |
| C40 | `C40_sum` | `MatProps.v` | Closed under the global context |
| C40 | `C40_affine_composition` | `MatProps.v` | Closed under the global context |
| C40 | `C40_parity` | `MatProps.v` | Closed under the global context |
| C40 | `C40_weight` | `MatProps.v` | Closed under the global context |
| C40 | `C40_combined_matrices_act_blockwise` | `MatProps.v` | Closed under the global context |
| C40 | `C40_combined_affine_maps_act_blockwise` | `MatProps.v` | Closed under the global context |
| C40 | `C40_combined_nibble_matrices_act_blockwise` | `MatProps.v` | Closed under the global context |
| C40 | `C40_128_bit_matrix_times_vector` | `Mat128Props.v` | Closed under the global context |
| C40 | `C40_128_bit_matrices` | `Mat128Props.v` | Closed under the global context |
| C40 | `C40_128_bit_product_is_composition` | `Mat128Props.v` | Closed under the global context |
| C40 | `C40_128_bit_affine_composition` | `Mat128Props.v` | Closed under the global context |
| C40 | `C40_128_bit_parity_and_weight` | `Mat128Props.v` | Closed under the global context |
| C40 | `C40_128_bit_entries` | `Mat128Props.v` | Closed under the global context |
| C40 | `C40_128_bit_equality` | `Mat128Props.v` | Closed under the global context |
| C40 | `C40_eight_bytes_act_blockwise` | `Mat128Props.v` | Closed under the global context |
| C40 | `C40_128_bit_combinations_act_blockwise` | `Mat128Props.v` | Closed under the global context |
| C41 | `wbsm4_conforms` | `Wbsm4Props.v` | Closed under the global context |
| C42 | `wbsm4_dummy_conforms_partial` | `Wbsm4Props.v` | Closed under the global context |
| C42 | `wbsm4_dummy_positions` | `ReachProps.v` | Closed under the global context |
| C42 | `wbsm4_one_dummy_generates` | `Wbsm4Props.v` | Closed under the global context |
| C42 | `wbsm4_one_dummy_exact` | `Wbsm4Props.v` | Closed under the global context |
| C42 | `wbsm4_dummy_conforms_refuted` | `Wbsm4Props.v` | Closed under the global context |
| C42 | `wbsm4_dummy_generates_refuted` | `Wbsm4Props.v` | Closed under the global context |
| C42 | `wbsm4_many_dummies_refuted` | `Wbsm4Props.v` | Closed under the global context |
| C43 | `wbsm4_keyfile_roundtrip` | `Wbsm4Props.v` | Closed under the global context |
| C43 | `wbsm4_keyfile_generated` | `Wbsm4Props.v` | Closed under the global context |
| C43 | `wbsm4_keyfile_truncated` | `Wbsm4Props.v` | Closed under the global context |
| C43 | `wbsm4_keyfile_header` | `Wbsm4Props.v` | Closed under the global context |
| C43 | `wbsm4_keyfile_rounds_refuted` | `Wbsm4Props.v` | Closed under the global context |
| C43 | `wbsm4_keyfile_short_refuted` | `Wbsm4Props.v` | Closed under the global context |
| C43 | `wbsm4_keyfile_missing_refuted` | `Wbsm4Props.v` | Closed under the global context |
| C44 | `se_wbsm4_conforms` | `SewbProps.v` | Closed under the global context |
| C44 | `se_wbsm4_roundtrip` | `SewbProps.v` | Closed under the global context |
| C45 | `wbaes_conforms` | `WbaesProps.v` | Closed under the global context |
| C45 | `wbaes_randomness_irrelevant` | `WbaesProps.v` | Closed under the global context |
| C46 | `ee_conforms_partial` | `WbgcmProps.v` | Closed under the global context |
| C46 | `ee_standard_partial` | `WbgcmProps.v` | Closed under the global context |
| C46 | `ee_roundtrip` | `WbgcmProps.v` | Closed under the global context |
| C46 | `ee_empty_tag` | `WbgcmProps.v` | Closed under the global context |
| C46 | `ee_empty_tag_refuted` | `WbgcmProps.v` | Closed under the global context |
| C47 | `mask_defined` | `WbgcmProps.v` | Closed under the global context |
| C47 | `mask_roundtrip` | `WbgcmProps.v` | Closed under the global context |
| C47 | `mask_tag_refuted` | `WbgcmProps.v` | Closed under the global context |
| C48 | `aes_encrypt_conforms` | `AesProps.v` | Closed under the global context |
| C48 | `aes_roundtrip_refuted` | `AesProps.v` | Closed under the global context |
| C48 | `aes_decrypt_needs_decrypt_key_partial` | `AesProps.v` | Closed under the global context |
| C49 | `keystore_roundtrip` | `KeyexProps.v` | Closed under the global context |
| C49 | `keystore_short_write_refuted` | `KeyexProps.v` | Closed under the global context |
| C49 | `keystore_short_file_refuted` | `KeyexProps.v` | Closed under the global context |
| C49 | `keystore_open_refuted` | `KeyexProps.v` | Closed under the global context |
| C50 | `udf_init_accepts` | `UdfProps.v` | Closed under the global context |
| C50 | `udf_phone` | `UdfProps.v` | Closed under the global context |
| C50 | `udf_idcard` | `UdfProps.v` | Closed under the global context |
| C50 | `udf_address` | `UdfProps.v` | Closed under the global context |
| C50 | `udf_refuses` | `UdfProps.v` | Closed under the global context |
| C50 | `udf8_sample_check` | `UdfProps.v` | Closed under the global context |
| C50 | `udf8_name_sample_refuted` | `UdfProps.v` | Closed under the global context |
| C51 | `cbc_encrypt_realloc_refuted` | `CbcProps.v` | Closed under the global context |
| C51 | `cbc_encrypt_defined_iff` | `CbcLongProps.v` | Closed under the global context |
| C52 | `gcm_large_input_refuted` | `GcmProps.v` | Closed under the global context |
| C52 | `gcm_input_wraps_refuted` | `GcmLongProps.v` | Closed under the global context |
| C52 | `gcm_input_ignored_refuted` | `GcmLongProps.v` | Closed under the global context |
| C52 | `wbgcm_input_wraps_refuted` | `GcmLongProps.v` | Closed under the global context |
| C52 | `wbgcm_input_ignored_refuted` | `GcmLongProps.v` | Closed under the global context |
| C53 | `gcmfile_open_failure_refuted` | `FileProps.v` | Closed under the global context |
| C53 | `gcmfile_defined_iff` | `FileExactProps.v` | Closed under the global context |
| C53 | `wbgcmfile_defined_iff` | `FileExactProps.v` | Closed under the global context |
| C54 | `gcmfile_in_place_refuted` | `FileProps.v` | Closed under the global context |
| C55 | `sm4_gcm_conforms` | `Sm4Props.v` | Closed under the global context |
| C55 | `sm4_gcm_roundtrip` | `Sm4Props.v` | Closed under the global context |
| C55 | `sm4_cbc_conforms` | `Sm4Props.v` | Closed under the global context |
| C55 | `sm4_cbc_roundtrip` | `Sm4Props.v` | Closed under the global context |
| C56 | `fpe_init_accepts` | `FpeProps.v` | Closed under the global context |
| C56 | `ff1_empty_tweak_refuted` | `FpeProps.v` | Closed under the global context |
| C56 | `ff1_one_char_abort` | `FpeProps.v` | Closed under the global context |
| C56 | `ff3_short_tweak_undefined` | `FpeProps.v` | Closed under the global context |
| C56 | `ff3_gmac_short_tweak_undefined` | `FpeProps.v` | Closed under the global context |
| C57 | `app_init_key` | `AppProps.v` | Closed under the global context |
| C57 | `app_init_short_key_refuted` | `AppProps.v` | Closed under the global context |
| C58 | `cn_other_kept_refuted` | `AppProps.v` | Closed under the global context |
| C58 | `cn_other_kept_partial` | `CnOtherProps.v` | Closed under the global context |
| C59 | `udf_unterminated_refuted` | `UdfProps.v` | Closed under the global context |
| C59 | `udf5_short_sample_refuted` | `UdfProps.v` | Closed under the global context |
| C59 | `udf_refuses` | `UdfProps.v` | Closed under the global context |
| C59 | `udf8_sample_check` | `UdfProps.v` | Closed under the global context |
| C60 | `C60_shuffle_reaches_every_arrangement_refuted` | `MatProps.v` | Closed under the global context |
| C60 | `C60_shuffle_reaches_exactly_partial` | `ReachProps.v` | Closed under the global context |
| C61 | `wbsm4_gcm_conforms` | `Wbsm4Props.v` | Closed under the global context |
| C61 | `wbsm4_cbc_conforms` | `Wbsm4Props.v` | Closed under the global context |
| C61 | `wbsm4_cbc_roundtrip` | `Wbsm4Props.v` | Closed under the global context |
| C62 | `stored_maps_are_self_equivalences` | `SewbProps.v` | Closed under the global context |
| C63 | `aes_short_key_refuted` | `AesProps.v` | Closed under the global context |
| C63 | `aes_keylen_ignored` | `AesProps.v` | Closed under the global context |
| C64 | `aes_gcm_conforms` | `AesProps.v` | Closed under the global context |
| C64 | `aes_cbc_conforms` | `AesProps.v` | Closed under the global context |
| C64 | `aes_cbc_roundtrip_refuted` | `AesProps.v` | Closed under the global context |
| C65 | `wbaes_short_key_refuted` | `WbaesProps.v` | Closed under the global context |
| C66 | `wbaes_gcm_conforms` | `WbaesProps.v` | Closed under the global context |
| C66 | `wbaes_cbc_conforms` | `WbaesProps.v` | Closed under the global context |
| C66 | `wbaes_gcmfile_conforms` | `WbaesProps.v` | Closed under the global context |
| C67 | `fpe_over_sm4` | `WbaesProps.v` | Closed under the global context |
| C67 | `fpe_over_wbsm4` | `WbaesProps.v` | Closed under the global context |
| C67 | `fpe_over_aes` | `WbaesProps.v` | Closed under the global context |
| C67 | `fpe_over_wbaes` | `WbaesProps.v` | Closed under the global context |
| C68 | `mask_encrypt_form` | `WbgcmProps.v` | Closed under the global context |
| C68 | `mask_decrypt_form` | `WbgcmProps.v` | Closed under the global context |
| C68 | `mask_maps_inverse` | `WbgcmProps.v` | Closed under the global context |
| C69 | `ee_file_roundtrip` | `WbgcmProps.v` | Closed under the global context |
| C69 | `mask_file_roundtrip` | `WbgcmProps.v` | Closed under the global context |
| C70 | `wbgcmfile_tamper_refuted` | `WbgcmProps.v` | Closed under the global context |
| C71 | `wbgcm_short_key_refuted` | `WbgcmProps.v` | Closed under the global context |
| C72 | `wbsm4_bytes_copy` | `KeyexProps.v` | Closed under the global context |
| C73 | `wbsm4_bytes_exchange_refuted` | `KeyexProps.v` | Closed under the global context |
| C73 | `wbsm4_bytes_independent_refuted` | `KeyexProps.v` | Closed under the global context |
| C74 | `wbsm4_use_after_free_refuted` | `KeyexProps.v` | Closed under the global context |
| C74 | `wbsm4_free_erases_refuted` | `KeyexProps.v` | Closed under the global context |
| C75 | `random_no_repeat` | `RandProps.v` | Closed under the global context |
| C75 | `random_full` | `RandProps.v` | Closed under the global context |
| C75 | `random_period` | `RandProps.v` | Closed under the global context |
| C75 | `random_seeds_differ` | `RandProps.v` | Closed under the global context |
| C76 | `wbsm4_generator_conforms` | `RandProps.v` | Closed under the global context |
| C76 | `se_wbsm4_generator_conforms` | `RandProps.v` | Closed under the global context |
| C76 | `wbaes_generator_conforms` | `RandProps.v` | Closed under the global context |
| C76 | `ee_generator_conforms_partial` | `RandProps.v` | Closed under the global context |
| C76 | `mask_generator_roundtrip` | `RandProps.v` | Closed under the global context |
| C77 | `wbsm4_tables_fresh_refuted` | `RandProps.v` | Closed under the global context |
| C77 | `se_wbsm4_tables_fresh_refuted` | `RandProps.v` | Closed under the global context |
| C77 | `wbaes_tables_fresh_refuted` | `RandProps.v` | Closed under the global context |
| C78 | `wbaes_encodings_secret_refuted` | `RandProps.v` | Closed under the global context |
| C79 | `mask_secret_refuted` | `RandProps.v` | Closed under the global context |
| C80 | `matrix_seeds_fresh` | `RandProps.v` | Closed under the global context |
| C80 | `matrix_fresh_refuted` | `RandProps.v` | Closed under the global context |
| C81 | `wbsm4_gen_erases_key_refuted` | `LifeProps.v` | Closed under the global context |
| C81 | `se_wbsm4_gen_erases_key_refuted` | `LifeProps.v` | Closed under the global context |
| C81 | `gcmfile_free_erases_subkey_refuted` | `LifeProps.v` | Closed under the global context |
| C81 | `sm4_key_copy_erased_refuted` | `LifeProps.v` | Closed under the global context |
| C81 | `context_free_erases` | `LifeProps.v` | Closed under the global context |
| C81 | `wbsm4_gen_returns` | `LifeProps.v` | Closed under the global context |
| C82 | `memory_in_use` | `LifeProps.v` | Closed under the global context |
| C82 | `release_returns_memory_refuted` | `LifeProps.v` | Closed under the global context |
| C82 | `udf_query_returns_memory_refuted` | `LifeProps.v` | Closed under the global context |
| C82 | `gcm_parallel_returns_memory_refuted` | `LifeProps.v` | Closed under the global context |
| C82 | `cbc_encrypt_returns_memory_refuted` | `LifeProps.v` | Closed under the global context |
| C82 | `mask_context_memory` | `LifeProps.v` | Closed under the global context |
| C82 | `contexts_are_fresh` | `LifeProps.v` | Closed under the global context |
| C83 | `fpe_free_null` | `LifeProps.v` | Closed under the global context |
| C83 | `free_null_refuted` | `LifeProps.v` | Closed under the global context |
| C83 | `fpe_free_once` | `LifeProps.v` | Closed under the global context |
| C83 | `wbgcm_free_twice_refuted` | `LifeProps.v` | Closed under the global context |
| C83 | `gcm_use_after_free_refuted` | `LifeProps.v` | Closed under the global context |
| C83 | `context_free_erases` | `LifeProps.v` | Closed under the global context |
| C84 | `init_reports_no_memory` | `LifeProps.v` | Closed under the global context |
| C84 | `wbsm4_init_no_memory_refuted` | `LifeProps.v` | Closed under the global context |
| C84 | `fpe_init_no_memory_refuted` | `LifeProps.v` | Closed under the global context |
| C84 | `gcmfile_init_no_memory_refuted` | `LifeProps.v` | Closed under the global context |
| C84 | `sm4_key_no_memory_refuted` | `LifeProps.v` | Closed under the global context |
| C84 | `mask_init_no_memory_refuted` | `LifeProps.v` | Closed under the global context |
| C85 | `calls_by_the_rules_are_safe` | `LifeProps.v` | Closed under the global context |
| C86 | `calls_are_local` | `LifeProps.v` | Closed under the global context |
| C87 | `fpe_small_domain_refuted` | `FpeLongProps.v` | Closed under the global context |
| C87 | `ff3_long_refuted` | `FpeLongProps.v` | Closed under the global context |
| C87 | `ff3_value` | `FpeLongProps.v` | Closed under the global context |
| C87 | `ff3_long_difference` | `FpeLongProps.v` | Closed under the global context |
| C88 | `cbc_encrypt_failure` | `FailProps.v` | Closed under the global context |
| C88 | `cbc_decrypt_failure` | `FailProps.v` | Closed under the global context |
| C88 | `gcm_failure` | `FailProps.v` | Closed under the global context |
| C88 | `cbc_failure_hides_plaintext_refuted` | `FailProps.v` | Closed under the global context |
| C88 | `gcmfile_reports_failure_refuted` | `FailProps.v` | Closed under the global context |
| C89 | `sm4_same_context_iff` | `Sm4KeyProps.v` | Closed under the global context |
| C89 | `key_padding_collision_iff` | `Sm4KeyProps.v` | Closed under the global context |
| C89 | `key_padding_zeros_value` | `Sm4KeyProps.v` | Closed under the global context |
| C89 | `sm4_distinct_keys_refuted` | `Sm4KeyProps.v` | Closed under the global context |
| C90 | `wbaes_reads_in_bounds` | `BoundsProps.v` | Closed under the global context |
| C90 | `ee_reads_in_bounds` | `BoundsProps.v` | Closed under the global context |
| C90 | `mask_reads_in_bounds` | `BoundsProps.v` | Closed under the global context |
| C90 | `wbsm4_reads_in_bounds` | `BoundsProps.v` | Closed under the global context |
| C91 | `cbc_decrypt_wraps_refuted` | `CbcLongProps.v` | Closed under the global context |
| C91 | `cbc_decrypt_one_block_refuted` | `CbcLongProps.v` | Closed under the global context |
| C91 | `cbc_decrypt_reported_length_refuted` | `CbcLongProps.v` | Closed under the global context |
| C91 | `cbc_encrypt_long_refuted` | `CbcLongProps.v` | Closed under the global context |
| C92 | `gcmfile_touches_partial` | `FileExactProps.v` | Closed under the global context |
| C92 | `wbgcmfile_touches_partial` | `FileExactProps.v` | Closed under the global context |
| C92 | `gcmfile_tmp_input_refuted` | `FileExactProps.v` | Closed under the global context |
| C92 | `wbgcmfile_tmp_input_refuted` | `FileExactProps.v` | Closed under the global context |
| C93 | `gcmfile_large_refuted` | `FileExactProps.v` | Closed under the global context |
| C93 | `wbgcmfile_large_refuted` | `FileExactProps.v` | Closed under the global context |
| C94 | `gcm_block_change_detected` | `GcmAuthProps.v` | Closed under the global context |
| C94 | `gcm_zero_hash_key_refuted` | `GcmAuthProps.v` | Closed under the global context |
| C95 | `gcm_forgery_bound` | `GcmAuthProps.v` | Closed under the global context |
| C96 | `gcm_long_iv_refuted` | `GcmAuthProps.v` | Closed under the global context |
| C96 | `gcm_setiv_actual` | `GcmAuthProps.v` | Closed under the global context |
| C97 | `gcm_iv12_disjoint` | `GcmAuthProps.v` | Closed under the global context |
| C97 | `gcm_iv_short_partial` | `GcmAuthProps.v` | Closed under the global context |
| C97 | `gcm_iv_clash_refuted` | `GcmAuthProps.v` | Closed under the global context |
| C97 | `gcm_iv_lengths_clash_refuted` | `GcmAgainProps.v` | Closed under the global context |
| C98 | `every_permutation_can_be_generated` | `ReachProps.v` | Closed under the global context |
| C98 | `every_matrix_can_be_generated` | `ReachProps.v` | Closed under the global context |
| C98 | `every_affine_map_can_be_generated` | `ReachProps.v` | Closed under the global context |
| C98 | `wbsm4_dummy_positions` | `ReachProps.v` | Closed under the global context |
| C99 | `every_matrix_generated_refuted` | `WrandProps.v` | Closed under the global context |
| C99 | `matrix_from_seed` | `WrandProps.v` | Closed under the global context |
