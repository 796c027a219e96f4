c("C08", "proved", "gcm_mult_is_gf_mul gf_mul_field", "")
c("C09", "proved", "gcm_conforms gcm_decrypt_conforms", "Hypotheses are the interface limits: 8*|iv| < 2^32, |p| <= INT_MAX, tag length <= 16. Beyond INT_MAX see C52.")
c("C10", "proved", "gcm_roundtrip", "Any cut into pieces, used identically on both sides.")
c("C11", "partial", "gcm_streaming_partial gcm_streaming_actual gcm_streaming_refuted", "False of the code for pieces that are not multiples of 16 bytes. Proved for aligned pieces; the output for any cut is characterised.")
c("C12", "partial", "gcm_reuse_partial gcm_reuse_stale gcm_reuse_refuted gcm_reuse_every_key_refuted", "False of the code: setiv keeps the AAD length of the previous message. Proved when an aad call follows setiv, and the exact difference otherwise.")
c("C13", "partial", "gcm_aad_pieces_partial gcm_aad_pieces_refuted gcm_aad_pieces_every_key_refuted", "False of the code: only the last AAD length is recorded.")
c("C14", "proved", "gcm_queries gcm_counters_distinct gcm_counter_period", "")
c("C15", "proved", "gcm_reject_no_effect gcm_accept", "")
c("C52", "partial", "gcm_large_input_refuted gcm_input_wraps_refuted gcm_input_ignored_refuted wbgcm_input_wraps_refuted wbgcm_input_ignored_refuted", "False of the code for every length above 2^31 - 1, exactly: the low 32 bits of the length count, or the whole input is ignored.")
c("C16", "partial", "gcm_parallel_encrypt_partial gcm_parallel_one_block gcm_parallel_short_buffer gcm_parallel_private gcm_parallel_race_refuted gcm_parallel_empty_refuted", "False of the code: the inner loop variable is shared between the threads. Proved for schedules in which iterations do not overlap, for inputs of at most one block under every schedule, and for every schedule of the program with a private loop variable.")
c("C17", "partial", "gcm_parallel_decrypt_actual gcm_parallel_decrypt_refuted", "False of the code: the tag is computed over the plaintext. What the function computes is proved.")
c("C18", "proved", "gcmfile_roundtrip gcmfile_conforms", "For files up to INT_MAX bytes. The upper four bytes of the size field, which the code reads from beyond a variable, are universally quantified.")
c("C19", "partial", "gcmfile_tamper_refuted gcmfile_tamper_witness_refuted", "False of the code: the tag field is read and overwritten, never compared. Proved: every body of the recorded length is accepted under every tag.")
c("C20", "proved", "gcmfile_size_check", "")
c("C53", "partial", "gcmfile_open_failure_refuted gcmfile_defined_iff wbgcmfile_defined_iff", "False of the code in every such case: fclose of a stream that was never opened.")
c("C54", "partial", "gcmfile_in_place_refuted", "False of the code: the file is truncated before it is read.")
c("C21", "proved", "sm4_conforms sm4_conforms_decmode", "")
c("C22", "proved", "sm4_encrypt_decrypt sm4_any_context_inverts", "")
c("C23", "proved", "sm4_key_normalisation sm4_key_reads sm4_key_overread", "The realloc of the 16-byte pad buffer to 16 bytes is taken not to move it.")
c("C55", "proved", "sm4_gcm_conforms sm4_gcm_roundtrip sm4_cbc_conforms sm4_cbc_roundtrip", "CBC decryption returns the message for the messages whose padding is removable (see C01).")
c("C24", "proved", "sm3_streaming sm3_digest_length", "")
c("C25", "proved", "sm3_conforms", "No length bound; beyond 2^64 bits, where the standard is silent, the length field is the bit length mod 2^64.")
c("C26", "proved", "ff1_roundtrip ff1_roundtrip_dec", "Hypotheses: the size limits of the int variables, the C library's ceil(n*log2(radix)) not below the exact value, and not the one combination on which the code aborts (C56).")
c("C27", "proved", "ff1_format ff1_output_alphabet", "")
c("C28", "proved", "ff1_conforms", "Where the C library's ceil(n*log2(radix)) is exact; the radix^minlen and tweak length limits of the standard are not needed.")
c("C29", "proved", "ff3_roundtrip ff3_roundtrip_dec ff3_output_alphabet", "")
c("C30", "proved", "ff3_conforms", "The block function given to the library plays CIPH under the reversed key.")
c("C31", "partial", "ff1_invalid_overflow_refuted ff3_invalid_overflow_refuted fpe_invalid_never_recovered ff1_returns_iff ff3_returns_iff fpe_invalid_collides", "False of the code: characters are not checked; oversized digits overflow a stack buffer, others are accepted and cannot be recovered. ff1_returns_iff and ff3_returns_iff give the exact condition, for every string; fpe_invalid_collides shows an invalid first half is silently replaced by a valid one.")
c("C32", "partial", "ff1_cmac_roundtrip ff1_cmac_tag_refuted ff1_cmac_tag_value ff1_cmac_tag_ten_bytes ff3_gmac_roundtrip ff3_gmac_tag_value ff3_gmac_short_tweak_undefined", "True of FF3-GMAC. False of FF1-CMAC when tweak and half take fewer than 16 bytes together: the tag then depends on an uninitialised array; proved otherwise. The values of both tags are stated; the FF1-CMAC tag is a sum of ten terms each taken from 256 values fixed by the key.")
c("C56", "partial", "fpe_init_accepts ff1_empty_tweak_refuted ff1_one_char_abort ff3_short_tweak_undefined ff3_gmac_short_tweak_undefined", "The radix check holds. False of the code for FF1 with an empty tweak when a half takes 15 bytes (mod 16), for one-character FF1 input, and for FF3 tweaks below 8 (GMAC: 16) bytes; normal return in all other cases is part of C26 and C29.")
c("C33", "partial", "phone_encrypt_decrypt phone_ff3_refuted", "Proved for FF1 with at least two marked positions and for FF3 with at least seven kept ones; false of the code (out-of-bounds read) for FF3 with fewer kept positions. Assumes the byte written past a local array (C36) hits nothing live.")
c("C34", "partial", "idcard_encrypt_decrypt idcard_ff3_refuted", "As C33.")
c("C35", "proved", "cn_encrypt_decrypt", "FF3 needs two kept characters (C58 for other kept characters). Assumes the byte written past a local array (C36) hits nothing live.")
c("C36", "partial", "app_overflow_refuted", "False of the code: every successful call writes one byte past the end of a local array. All other accesses are in bounds (C33-C35).")
c("C50", "partial", "udf_init_accepts udf_phone udf_idcard udf_address udf_refuses udf8_sample_check udf8_name_sample_refuted", "Proved for terminated arguments and an error array that has room for the messages; the real one has one byte. Mode name with a sample is never accepted by the MySQL 8 version.")
c("C57", "partial", "app_init_key app_init_short_key_refuted", "False of the code for keys shorter than 16 bytes: the rest is uninitialised memory.")
c("C58", "partial", "cn_other_kept_refuted cn_other_kept_partial", "False of the code.  Proved for any three-byte characters when the bytes of the uninitialised tweak array that no kept Chinese character writes are the same in both calls.")
c("C59", "partial", "udf_unterminated_refuted udf5_short_sample_refuted udf_refuses udf8_sample_check", "False of the code.")
c("C37", "proved", "C37_generated_matrices_are_inverse C37_generated_affine_maps_are_inverse C37_generated_128_bit_matrices_are_inverse C37_generated_128_bit_affine_maps_are_inverse", "All sizes: 4, 8, 16, 32 and 64 in MatModel, the two-word size 128 in Mat128Model.")
c("C38", "proved", "C38_test_accepts_exactly_the_invertible C38_rejected_matrices_are_singular C38_inverse C38_128_bit_test C38_128_bit_inverse", "All sizes, 4 to 128.")
c("C39", "proved", "C39_generated_permutations C39_shuffle_permutes", "")
c("C40", "proved", "C40_entries C40_equality C40_128_bit_vector_equality C40_copies C40_vector_sums C40_128_bit_vector_sums C40_matrix_times_vector C40_linear C40_matrix_product C40_product_is_composition C40_transpose C40_sum C40_affine_composition C40_parity C40_weight C40_combined_matrices_act_blockwise C40_combined_affine_maps_act_blockwise C40_combined_nibble_matrices_act_blockwise C40_128_bit_matrix_times_vector C40_128_bit_matrices C40_128_bit_product_is_composition C40_128_bit_affine_composition C40_128_bit_parity_and_weight C40_128_bit_entries C40_128_bit_equality C40_eight_bytes_act_blockwise C40_128_bit_combinations_act_blockwise", "All sizes, 4 to 128, and all concatenation functions.")
c("C60", "partial", "C60_shuffle_reaches_every_arrangement_refuted C60_shuffle_reaches_exactly_partial", "False of the code: the last element of the result is always the first element of the argument.")
c("C41", "proved", "wbsm4_conforms", "")
c("C42", "partial", "wbsm4_dummy_conforms_partial wbsm4_dummy_positions wbsm4_one_dummy_generates wbsm4_one_dummy_exact wbsm4_dummy_conforms_refuted wbsm4_dummy_generates_refuted wbsm4_many_dummies_refuted", "False of the code: a dummy round leaves its DD table as malloc returned it, so the result depends on uninitialised memory, and adjacent dummy rounds index arrays out of bounds. Proved where neither happens, and the condition on the memory is exact for one dummy round.")
c("C43", "partial", "wbsm4_keyfile_roundtrip wbsm4_keyfile_generated wbsm4_keyfile_truncated wbsm4_keyfile_header wbsm4_keyfile_rounds_refuted wbsm4_keyfile_short_refuted wbsm4_keyfile_missing_refuted", "Round trip, truncation and header hold. False of the code: the number of rounds in the file is not compared with the allocation, a file of 24 bytes with no rounds is accepted, and a file that cannot be opened leads to fclose(NULL). The in-memory form is C72 and C73.")
c("C61", "proved", "wbsm4_gcm_conforms wbsm4_cbc_conforms wbsm4_cbc_roundtrip", "For contexts whose tables compute SM4, which C41 gives without dummy rounds and C42 under its conditions; CBC decryption returns the message for the messages whose padding is removable (see C01).")
c("C44", "proved", "se_wbsm4_conforms se_wbsm4_roundtrip", "")
c("C62", "proved", "stored_maps_are_self_equivalences", "")
c("C48", "partial", "aes_encrypt_conforms aes_roundtrip_refuted aes_decrypt_needs_decrypt_key_partial", "False of the code: decryption is given the encryption schedule. Proved: encryption is AES-128, and with the decryption schedule the round trip would hold for every key and block. OpenSSL's functions are represented by their documented behaviour.")
c("C63", "partial", "aes_short_key_refuted aes_keylen_ignored", "False of the code: sixteen bytes are read whatever the length.")
c("C64", "partial", "aes_gcm_conforms aes_cbc_conforms aes_cbc_roundtrip_refuted", "GCM and CBC encryption proved; CBC decryption false of the code (C48).")
c("C45", "proved", "wbaes_conforms wbaes_randomness_irrelevant", "For keys of at least sixteen bytes, of which the first sixteen are used; see C65 for shorter ones.")
c("C65", "partial", "wbaes_short_key_refuted", "False of the code: sixteen bytes are read and the function is not told the length.")
c("C66", "proved", "wbaes_gcm_conforms wbaes_cbc_conforms wbaes_gcmfile_conforms", "")
c("C67", "proved", "fpe_over_sm4 fpe_over_wbsm4 fpe_over_aes fpe_over_wbaes", "Within the limits of C25 and C26 (ff1_limits, ff3_limits); the samples of NIST for FF1 and FF3 are Examples.")
c("C46", "partial", "ee_conforms_partial ee_standard_partial ee_roundtrip ee_empty_tag ee_empty_tag_refuted", "Proved for every session with additional data or a message, in any pieces. False of the code for the session with neither: the tag is then the encoded key stream block and depends on the tables; its exact value is proved.")
c("C47", "partial", "mask_defined mask_roundtrip mask_tag_refuted", "The data round trip is proved. False of the code: the two sides compute different tags (C68 gives both).")
c("C68", "proved", "mask_encrypt_form mask_decrypt_form mask_maps_inverse", "For sessions with additional data or a message, pieces but the last a multiple of 16 bytes (as C11).")
c("C69", "proved", "ee_file_roundtrip mask_file_roundtrip", "The tag of the ee variant is the standard one unless file and additional data are both empty (C46). Conditions on paths and on the four bytes after the size field as in the gcmfile properties.")
c("C70", "partial", "wbgcmfile_tamper_refuted", "False of the code: the recorded tag is never compared.")
c("C71", "partial", "wbgcm_short_key_refuted", "False of the code: sixteen bytes are read whatever the length.")

c("C49","partial","keystore_roundtrip keystore_short_write_refuted keystore_short_file_refuted keystore_open_refuted","The round trip holds when the file can be opened and the device has room. False of the code otherwise: short writes and short files are reported as success, and a file that cannot be opened leads to fclose(NULL).")
c("C72","proved","wbsm4_bytes_copy","Without dummy rounds; the pointers of the structure are one address.")
c("C73","partial","wbsm4_bytes_exchange_refuted wbsm4_bytes_independent_refuted","False of the code: the stream holds the addresses of the tables, not the tables.")
c("C74","partial","wbsm4_use_after_free_refuted wbsm4_free_erases_refuted","False of the code: only the structure is zeroed; the cleared context encrypts every block to zeros and returns 1.")

c("C75","proved","random_no_repeat random_full random_period random_seeds_differ","")
c("C76","proved","wbsm4_generator_conforms se_wbsm4_generator_conforms wbaes_generator_conforms ee_generator_conforms_partial mask_generator_roundtrip","White-box SM4 without dummy rounds; the ee variant with the exception of C46; the mask variant as C47.")
c("C77","partial","wbsm4_tables_fresh_refuted se_wbsm4_tables_fresh_refuted wbaes_tables_fresh_refuted","False of the code: tables are a function of key, randseed, the seconds read (and rand() for dummy rounds); the seeding at the start of the SM4 generators has no effect.")
c("C78","partial","wbaes_encodings_secret_refuted","False of the code: all nibble encodings are a function of one reading of the clock.")
c("C79","partial","mask_secret_refuted","False of the code: each mask is a function of one reading of the clock.")
c("C80","partial","matrix_seeds_fresh matrix_fresh_refuted","Proved for 2^32 seedings within a second. False of the code when the clock ticks: a pair of matrices can repeat.")

c("C81","partial","wbsm4_gen_erases_key_refuted se_wbsm4_gen_erases_key_refuted gcmfile_free_erases_subkey_refuted sm4_key_copy_erased_refuted context_free_erases wbsm4_gen_returns","False of table generation (round keys stay in an unreachable block), of the release of a GCM file context and of the padded key copy. True of the release functions for contexts in one block.")
c("C82","partial","memory_in_use release_returns_memory_refuted udf_query_returns_memory_refuted gcm_parallel_returns_memory_refuted cbc_encrypt_returns_memory_refuted mask_context_memory contexts_are_fresh","False of the code: most release functions return no memory. memory_in_use says exactly what stays.")
c("C83","partial","fpe_free_null free_null_refuted fpe_free_once wbgcm_free_twice_refuted gcm_use_after_free_refuted context_free_erases","NULL is accepted only by the FPE release functions; a second release is harmless only for the functions that merely clear.")
c("C84","partial","init_reports_no_memory wbsm4_init_no_memory_refuted fpe_init_no_memory_refuted gcmfile_init_no_memory_refuted sm4_key_no_memory_refuted mask_init_no_memory_refuted","True of the first request of each function, false of later ones.")
c("C85","proved","calls_by_the_rules_are_safe","The allocator has memory and resizes in place (C51 covers a realloc that moves the block); block functions return for a live key object.")
c("C86","proved","calls_are_local","")
c("C87", "partial", "fpe_small_domain_refuted ff3_long_refuted ff3_value ff3_long_difference", "False of the code: neither limit is checked. What FF3 computes for strings of every length is stated; differences in the low-order part of the first half pass through unchanged unless they carry into the twelve leading bytes.")

c("C88", "partial", "cbc_encrypt_failure cbc_decrypt_failure gcm_failure cbc_failure_hides_plaintext_refuted gcmfile_reports_failure_refuted", "CBC and GCM return 0 exactly when a call of the block function failed, with the standard's output before it and nothing after it.  False of the code: a failed CBC encryption leaves plaintext xored with known data in the output buffer; a GCM context cannot be used after a failure although finish still returns a tag; the file functions ignore the failure, return 1 and write zeros.  The FPE functions and the white-box GCM variants ignore the return value of the callback; this is not modelled.")

c("C89", "partial", "sm4_same_context_iff key_padding_collision_iff key_padding_zeros_value sm4_distinct_keys_refuted", "The key schedule is injective on 16-byte keys.  False of the code for other lengths: every key shorter than 16 bytes has a 16-byte key with the same context, and bytes past the sixteenth are ignored; exactly which keys collide is stated.")

c("C90", "proved", "wbaes_reads_in_bounds ee_reads_in_bounds mask_reads_in_bounds wbsm4_reads_in_bounds", "White-box SM4 for a number of rounds within the allocation (a context whose rounds field exceeds it is the case Undef of the model, C43).")

c("C91", "partial", "cbc_decrypt_wraps_refuted cbc_decrypt_one_block_refuted cbc_decrypt_reported_length_refuted cbc_encrypt_long_refuted", "False of the code for every length above 2^31 - 1: decryption ignores all but the low 32 bits of the length, or decrypts a single block, and returns 1; encryption overruns its allocation.  Up to 2^31 - 1 see C01, C03 - C07.")
c("C92", "partial", "gcmfile_touches_partial wbgcmfile_touches_partial gcmfile_tmp_input_refuted wbgcmfile_tmp_input_refuted", "True of decryption.  Of encryption false for one name: the file called like the output with .tmp appended is overwritten and removed; when it is the input, the input is lost and success reported.  Missing: path aliases other than equal names.")
c("C93", "partial", "gcmfile_large_refuted wbgcmfile_large_refuted", "False of the code for every file of more than 2^31 - 1 bytes.  Up to that size see C18 and C69.")
c("C94", "proved", "gcm_block_change_detected gcm_zero_hash_key_refuted", "For the full 16-byte tag and a non-zero hash key; with the zero hash key all tags of an IV are equal, which is proved too.")
c("C95", "proved", "gcm_forgery_bound", "")
c("C96", "partial", "gcm_long_iv_refuted gcm_setiv_actual", "False of the code from 2^29 bytes on: only the low 32 bits of the bit length are hashed.  Below that see C09.")
c("C97", "partial", "gcm_iv12_disjoint gcm_iv_short_partial gcm_iv_clash_refuted gcm_iv_lengths_clash_refuted", "True of 12-byte IVs and of IVs of one length up to 16 bytes (non-zero hash key).  False of 32-byte IVs for every key, and of IVs of different lengths: every IV has a 16-byte one with the same results.")
c("C98", "proved", "every_permutation_can_be_generated every_matrix_can_be_generated every_affine_map_can_be_generated wbsm4_dummy_positions", "Over all sequences of random numbers; for the sequences the library's own generator can give see C99.")
c("C99", "partial", "every_matrix_generated_refuted matrix_from_seed", "False of the code for the sizes 8 to 128: a matrix is a function of a seed of 32 bits.  Missing: size 4.")
c("C100", "partial", "wRand32_uniform wRand64_uniform wRand_full_refuted shuffles_follow_first_second_refuted", "The wide numbers are uniform when rand() gives 31 bits, but not with the least RAND_MAX the C standard allows; the shuffles of a process follow from the second of its first draw.")
c("C101", "partial", "gcm_overlap wbgcm_overlap gcm_output_inside_input_iff gcm_output_inside_input_refuted cbc_encrypt_overlap cbc_decrypt_overlap_partial cbc_decrypt_one_block_before_refuted cbc_decrypt_over_iv_refuted", "True of GCM unless the output starts inside the input, and of CBC encryption.  CBC decryption: true from two blocks before the input on; one block before it the output is zeros after the first block.  Missing: the values for the other distances, and ivec partly inside the output.")
c("C102", "partial", "gcm_finish_again_actual gcm_finish_again_refuted", "False of the code: the block of lengths is hashed again at each call.  The values of all tags are given.")
c("C103", "partial", "cbc_decrypt_blocks cbc_decrypt_change_block cbc_decrypt_change_iv cbc_decrypt_suffix cbc_tamper_refuted", "False of the code: every changed ciphertext is accepted, with exactly the stated changes of the plaintext; whoever knows the first block replaces it by any other.")
c("C104", "proved", "cbc_encrypt_blocks cbc_equal_blocks_iff cbc_common_prefix_iff", "")
c("C105", "partial", "cbc_reported_length_value cbc_length_reveals_refuted", "False of the code: with one block as the message, the reported length 15 gives the last plaintext byte of that block of any ciphertext.")
c("C106", "partial", "sm4_lookups_partial sm4_key_lookups_refuted sm4_encrypt_lookups_refuted sm4_decrypt_lookups_refuted gcm_lookups_refuted", "True of the number of lookups and the tables.  False of the entries: they determine the SM4 key and the GCM hash key.  AES is OpenSSL and not modelled; timing and cache lines are not modelled.")
c("C107", "partial", "sm3_extension_refuted sm3_extension_same", "False of the code, as of the standard: a context filled in from digest and length continues the hash.")
c("C108", "proved", "sm3_collision sm3_collisions_exist", "")
c("C109", "partial", "sm3_again_actual sm3_again_refuted", "False of the code: neither; what it is instead is proved for all messages.")
c("C110", "partial", "phone_tweak_actual idcard_tweak_actual cn_tweak_actual phone_tweak_refuted idcard_tweak_refuted cn_tweak_refuted", "True with FF1; false with FF3, where kept characters after the eighth (of a text, after the second) change nothing. The encrypted characters are proved exactly for both; with FF3 for at most 56 marked digits or 13 marked characters.")
c("C111", "partial", "app_terminator_refuted", "False of the code: no terminator is written.")
c("C112", "partial", "ff3_related_refuted", "False of FF3, hence of the code: tweaks that differ in one bit of the fourth and of the eighth byte give the same permutation up to renaming.")
c("C113", "partial", "ff3_1_actual ff3_1_refuted", "False of the code: it is FF3. Which eight-byte tweak gives FF3-1 is proved.")
c("C114", "partial", "gcm_iv_reuse_xor_refuted gcm_iv_reuse_refuted", "False of the code, and of GCM: IVs are not remembered. Two messages under one IV give away the exclusive or of the plaintexts; if they differ in their last block only, also the hash key and every tag under that IV.")
c("C115", "partial", "gcm_malleable_refuted gcmfile_malleable_refuted", "False of the code: decryption delivers the plaintext exclusive-ored with whatever mask was exclusive-ored to the ciphertext, and the file function reports success.")
c("C116", "partial", "wbaes_key_hidden_refuted wbaes_tables_separate_keys_actual", "False of the code: each byte of the key is the one value that passes a test of fewer than 2^16 comparisons on 512 entries of the context, for every key and all randomness, in all three kinds of context.")
c("C117", "partial", "wbsm4_dummy_rounds_hidden_refuted wbsm4_round_key_hidden_refuted wbsm4_key_hidden_refuted", "False of the code: dummy rounds are those whose tables are all zero, the value of each byte of a round key is the one of 256 that passes a test on four blocks, and the first four round keys give the key.")
c("C118", "partial", "sewb_round_key_hidden_refuted sewb_key_hidden_refuted", "False of the code: the value of each byte of a round key is the one of 256 that passes a test on four blocks, and the first four round keys give the key.")
c("C119", "proved", "phone_permutes idcard_permutes cn_permutes", "For one key and one sample; ID numbers with and without a final X together.")
c("C120", "partial", "idcard_wellformed_refuted", "False of the code: the digits are encrypted as a number; with SM4 and either mode a well-formed number becomes one with no month and a wrong check digit.")
c("C121", "partial", "ff1_cmac_tag_space_refuted ff1_cmac_collision_refuted", "False of the code: under one key fewer than 2^59 values are ever tags, and under every tweak two numbers of 18 digits share one.")
c("C122", "partial", "wbaes_one_way_refuted wbsm4_one_way_refuted sewb_one_way_refuted wbgcm_key_read_actual", "False of the code: an explicit function of the tables returns the key, and standard AES or SM4 with it undoes what the context does. SM4 contexts without dummy rounds.")
c("C123", "partial", "ff3_gmac_tweak_refuted ff3_gmac_hash_key_hidden_refuted", "False of the code: bytes 8 to 15 of the tweak only add a multiple of the hash key to the tag.")
c("C124", "partial", "wbsm4_wrong_direction_refuted sewb_wrong_direction_refuted wbsm4_cbc_wrong_direction_refuted wbsm4_gcm_wrong_direction_refuted", "False of the code: no function looks at the direction of the context; what each returns is proved.")
c("C125", "partial", "wbsm4_keyfile_secret_refuted wbsm4_keyfile_separates_keys_actual", "False of the code: an explicit procedure finds the key in every key file.")
c("C126", "partial", "gcmfile_again_partial gcmfile_again_refuted", "True when setiv and aad come before each file. False of the code otherwise: decryption then succeeds with other data.")
c("C127", "partial", "wbgcm_again_partial wbgcm_again_refuted", "True when aad is called after setiv. False of the code otherwise: setiv keeps the length of the previous additional data and the tag is another one.")
c("C128", "proved", "ee_block_change_detected", "Variant ee, hash key not zero, one piece of data, tags of 16 bytes. In variant mask the receiver's tag differs even without a change (C47).")
c("C129", "partial", "ee_iv_reuse_refuted mask_iv_reuse_refuted mask_iv_reuse_xor_refuted", "False of the code, and of GCM: IVs are not remembered. In ee the outputs give away the hash key and tags can be forged; in mask they show where the messages agree, and their difference through a linear map. Nothing is shown about the secrecy of the hash key in mask.")
