{
 "claims": [
  {
   "property": "C01",
   "status": "partial",
   "theorems": [
    "cbc_roundtrip_partial",
    "cbc_roundtrip_refuted"
   ],
   "note": "Full statement is false of the code: block-aligned messages ending in a byte 1..16 come back shortened. Proved: bytes always come back, reported length right iff the message is recoverable."
  },
  {
   "property": "C02",
   "status": "partial",
   "theorems": [
    "padding_roundtrip_partial",
    "padding_is_pkcs7_iff",
    "padding_injective_refuted",
    "padding_separate_empty_refuted"
   ],
   "note": "Full statement is false of the code (no pad block for aligned messages; empty string reads before the buffer). Exact characterisation proved."
  },
  {
   "property": "C03",
   "status": "proved",
   "theorems": [
    "cbc_encrypt_conforms",
    "cbc_encrypt_rejects",
    "cbc_encrypt_output_length"
   ],
   "note": "Assumes the realloc in padding.c does not move the block (see C51) and lengths within int."
  },
  {
   "property": "C04",
   "status": "proved",
   "theorems": [
    "cbc_decrypt_inplace_eq"
   ],
   "note": ""
  },
  {
   "property": "C05",
   "status": "proved",
   "theorems": [
    "cbc_decrypt_pieces_eq"
   ],
   "note": ""
  },
  {
   "property": "C06",
   "status": "partial",
   "theorems": [
    "cbc_encrypt_pieces_actual",
    "cbc_encrypt_pieces_refuted"
   ],
   "note": "False of the code: encrypt never advances ivec. The actual behaviour is proved."
  },
  {
   "property": "C07",
   "status": "partial",
   "theorems": [
    "cbc_decrypt_bounds_partial",
    "cbc_decrypt_bounds_refuted"
   ],
   "note": "False of the code for unaligned inlen and for inlen = 0 in the wrappers. Exact characterisation proved."
  },
  {
   "property": "C08",
   "status": "proved",
   "theorems": [
    "gcm_mult_is_gf_mul",
    "gf_mul_field"
   ],
   "note": ""
  },
  {
   "property": "C09",
   "status": "proved",
   "theorems": [
    "gcm_conforms",
    "gcm_decrypt_conforms"
   ],
   "note": "Hypotheses are the interface limits: 8*|iv| < 2^32, |p| <= INT_MAX, tag length <= 16. Beyond INT_MAX see C52."
  },
  {
   "property": "C10",
   "status": "proved",
   "theorems": [
    "gcm_roundtrip"
   ],
   "note": "Any cut into pieces, used identically on both sides."
  },
  {
   "property": "C100",
   "status": "partial",
   "theorems": [
    "wRand32_uniform",
    "wRand64_uniform",
    "wRand_full_refuted",
    "shuffles_follow_first_second_refuted"
   ],
   "note": "The wide numbers are uniform when rand() gives 31 bits, but not with the least RAND_MAX the C standard allows; the shuffles of a process follow from the second of its first draw."
  },
  {
   "property": "C101",
   "status": "partial",
   "theorems": [
    "gcm_overlap",
    "wbgcm_overlap",
    "gcm_output_inside_input_iff",
    "gcm_output_inside_input_refuted",
    "cbc_encrypt_overlap",
    "cbc_decrypt_overlap_partial",
    "cbc_decrypt_one_block_before_refuted",
    "cbc_decrypt_over_iv_refuted"
   ],
   "note": "True of GCM unless the output starts inside the input, and of CBC encryption.  CBC decryption: true from two blocks before the input on; one block before it the output is zeros after the first block.  Missing: the values for the other distances, and ivec partly inside the output."
  },
  {
   "property": "C102",
   "status": "partial",
   "theorems": [
    "gcm_finish_again_actual",
    "gcm_finish_again_refuted"
   ],
   "note": "False of the code: the block of lengths is hashed again at each call.  The values of all tags are given."
  },
  {
   "property": "C103",
   "status": "partial",
   "theorems": [
    "cbc_decrypt_blocks",
    "cbc_decrypt_change_block",
    "cbc_decrypt_change_iv",
    "cbc_decrypt_suffix",
    "cbc_tamper_refuted"
   ],
   "note": "False of the code: every changed ciphertext is accepted, with exactly the stated changes of the plaintext; whoever knows the first block replaces it by any other."
  },
  {
   "property": "C104",
   "status": "proved",
   "theorems": [
    "cbc_encrypt_blocks",
    "cbc_equal_blocks_iff",
    "cbc_common_prefix_iff"
   ],
   "note": ""
  },
  {
   "property": "C105",
   "status": "partial",
   "theorems": [
    "cbc_reported_length_value",
    "cbc_length_reveals_refuted"
   ],
   "note": "False of the code: with one block as the message, the reported length 15 gives the last plaintext byte of that block of any ciphertext."
  },
  {
   "property": "C106",
   "status": "partial",
   "theorems": [
    "sm4_lookups_partial",
    "sm4_key_lookups_refuted",
    "sm4_encrypt_lookups_refuted",
    "sm4_decrypt_lookups_refuted",
    "gcm_lookups_refuted"
   ],
   "note": "True of the number of lookups and the tables.  False of the entries: they determine the SM4 key and the GCM hash key.  AES is OpenSSL and not modelled; timing and cache lines are not modelled."
  },
  {
   "property": "C107",
   "status": "partial",
   "theorems": [
    "sm3_extension_refuted",
    "sm3_extension_same"
   ],
   "note": "False of the code, as of the standard: a context filled in from digest and length continues the hash."
  },
  {
   "property": "C108",
   "status": "proved",
   "theorems": [
    "sm3_collision",
    "sm3_collisions_exist"
   ],
   "note": ""
  },
  {
   "property": "C109",
   "status": "partial",
   "theorems": [
    "sm3_again_actual",
    "sm3_again_refuted"
   ],
   "note": "False of the code: neither; what it is instead is proved for all messages."
  },
  {
   "property": "C11",
   "status": "partial",
   "theorems": [
    "gcm_streaming_partial",
    "gcm_streaming_actual",
    "gcm_streaming_refuted"
   ],
   "note": "False of the code for pieces that are not multiples of 16 bytes. Proved for aligned pieces; the output for any cut is characterised."
  },
  {
   "property": "C110",
   "status": "partial",
   "theorems": [
    "phone_tweak_actual",
    "idcard_tweak_actual",
    "cn_tweak_actual",
    "phone_tweak_refuted",
    "idcard_tweak_refuted",
    "cn_tweak_refuted"
   ],
   "note": "True with FF1; false with FF3, where kept characters after the eighth (of a text, after the second) change nothing. The encrypted characters are proved exactly for both; with FF3 for at most 56 marked digits or 13 marked characters."
  },
  {
   "property": "C111",
   "status": "partial",
   "theorems": [
    "app_terminator_refuted"
   ],
   "note": "False of the code: no terminator is written."
  },
  {
   "property": "C112",
   "status": "partial",
   "theorems": [
    "ff3_related_refuted"
   ],
   "note": "False of FF3, hence of the code: tweaks that differ in one bit of the fourth and of the eighth byte give the same permutation up to renaming."
  },
  {
   "property": "C113",
   "status": "partial",
   "theorems": [
    "ff3_1_actual",
    "ff3_1_refuted"
   ],
   "note": "False of the code: it is FF3. Which eight-byte tweak gives FF3-1 is proved."
  },
  {
   "property": "C114",
   "status": "partial",
   "theorems": [
    "gcm_iv_reuse_xor_refuted",
    "gcm_iv_reuse_refuted"
   ],
   "note": "False of the code, and of GCM: IVs are not remembered. Two messages under one IV give away the exclusive or of the plaintexts; if they differ in their last block only, also the hash key and every tag under that IV."
  },
  {
   "property": "C115",
   "status": "partial",
   "theorems": [
    "gcm_malleable_refuted",
    "gcmfile_malleable_refuted"
   ],
   "note": "False of the code: decryption delivers the plaintext exclusive-ored with whatever mask was exclusive-ored to the ciphertext, and the file function reports success."
  },
  {
   "property": "C116",
   "status": "partial",
   "theorems": [
    "wbaes_key_hidden_refuted",
    "wbaes_tables_separate_keys_actual"
   ],
   "note": "False of the code: each byte of the key is the one value that passes a test of fewer than 2^16 comparisons on 512 entries of the context, for every key and all randomness, in all three kinds of context."
  },
  {
   "property": "C117",
   "status": "partial",
   "theorems": [
    "wbsm4_dummy_rounds_hidden_refuted",
    "wbsm4_round_key_hidden_refuted",
    "wbsm4_key_hidden_refuted"
   ],
   "note": "False of the code: dummy rounds are those whose tables are all zero, the value of each byte of a round key is the one of 256 that passes a test on four blocks, and the first four round keys give the key."
  },
  {
   "property": "C118",
   "status": "partial",
   "theorems": [
    "sewb_round_key_hidden_refuted",
    "sewb_key_hidden_refuted"
   ],
   "note": "False of the code: the value of each byte of a round key is the one of 256 that passes a test on four blocks, and the first four round keys give the key."
  },
  {
   "property": "C119",
   "status": "proved",
   "theorems": [
    "phone_permutes",
    "idcard_permutes",
    "cn_permutes"
   ],
   "note": "For one key and one sample; ID numbers with and without a final X together."
  },
  {
   "property": "C12",
   "status": "partial",
   "theorems": [
    "gcm_reuse_partial",
    "gcm_reuse_stale",
    "gcm_reuse_refuted",
    "gcm_reuse_every_key_refuted"
   ],
   "note": "False of the code: setiv keeps the AAD length of the previous message. Proved when an aad call follows setiv, and the exact difference otherwise."
  },
  {
   "property": "C120",
   "status": "partial",
   "theorems": [
    "idcard_wellformed_refuted"
   ],
   "note": "False of the code: the digits are encrypted as a number; with SM4 and either mode a well-formed number becomes one with no month and a wrong check digit."
  },
  {
   "property": "C121",
   "status": "partial",
   "theorems": [
    "ff1_cmac_tag_space_refuted",
    "ff1_cmac_collision_refuted"
   ],
   "note": "False of the code: under one key fewer than 2^59 values are ever tags, and under every tweak two numbers of 18 digits share one."
  },
  {
   "property": "C122",
   "status": "partial",
   "theorems": [
    "wbaes_one_way_refuted",
    "wbsm4_one_way_refuted",
    "sewb_one_way_refuted",
    "wbgcm_key_read_actual"
   ],
   "note": "False of the code: an explicit function of the tables returns the key, and standard AES or SM4 with it undoes what the context does. SM4 contexts without dummy rounds."
  },
  {
   "property": "C123",
   "status": "partial",
   "theorems": [
    "ff3_gmac_tweak_refuted",
    "ff3_gmac_hash_key_hidden_refuted"
   ],
   "note": "False of the code: bytes 8 to 15 of the tweak only add a multiple of the hash key to the tag."
  },
  {
   "property": "C124",
   "status": "partial",
   "theorems": [
    "wbsm4_wrong_direction_refuted",
    "sewb_wrong_direction_refuted",
    "wbsm4_cbc_wrong_direction_refuted",
    "wbsm4_gcm_wrong_direction_refuted"
   ],
   "note": "False of the code: no function looks at the direction of the context; what each returns is proved."
  },
  {
   "property": "C125",
   "status": "partial",
   "theorems": [
    "wbsm4_keyfile_secret_refuted",
    "wbsm4_keyfile_separates_keys_actual"
   ],
   "note": "False of the code: an explicit procedure finds the key in every key file."
  },
  {
   "property": "C126",
   "status": "partial",
   "theorems": [
    "gcmfile_again_partial",
    "gcmfile_again_refuted"
   ],
   "note": "True when setiv and aad come before each file. False of the code otherwise: decryption then succeeds with other data."
  },
  {
   "property": "C127",
   "status": "partial",
   "theorems": [
    "wbgcm_again_partial",
    "wbgcm_again_refuted"
   ],
   "note": "True when aad is called after setiv. False of the code otherwise: setiv keeps the length of the previous additional data and the tag is another one."
  },
  {
   "property": "C128",
   "status": "proved",
   "theorems": [
    "ee_block_change_detected"
   ],
   "note": "Variant ee, hash key not zero, one piece of data, tags of 16 bytes. In variant mask the receiver's tag differs even without a change (C47)."
  },
  {
   "property": "C129",
   "status": "partial",
   "theorems": [
    "ee_iv_reuse_refuted",
    "mask_iv_reuse_refuted",
    "mask_iv_reuse_xor_refuted"
   ],
   "note": "False of the code, and of GCM: IVs are not remembered. In ee the outputs give away the hash key and tags can be forged; in mask they show where the messages agree, and their difference through a linear map. Nothing is shown about the secrecy of the hash key in mask."
  },
  {
   "property": "C13",
   "status": "partial",
   "theorems": [
    "gcm_aad_pieces_partial",
    "gcm_aad_pieces_refuted",
    "gcm_aad_pieces_every_key_refuted"
   ],
   "note": "False of the code: only the last AAD length is recorded."
  },
  {
   "property": "C14",
   "status": "proved",
   "theorems": [
    "gcm_queries",
    "gcm_counters_distinct",
    "gcm_counter_period"
   ],
   "note": ""
  },
  {
   "property": "C15",
   "status": "proved",
   "theorems": [
    "gcm_reject_no_effect",
    "gcm_accept"
   ],
   "note": ""
  },
  {
   "property": "C16",
   "status": "partial",
   "theorems": [
    "gcm_parallel_encrypt_partial",
    "gcm_parallel_one_block",
    "gcm_parallel_short_buffer",
    "gcm_parallel_private",
    "gcm_parallel_race_refuted",
    "gcm_parallel_empty_refuted"
   ],
   "note": "False of the code: the inner loop variable is shared between the threads. Proved for schedules in which iterations do not overlap, for inputs of at most one block under every schedule, and for every schedule of the program with a private loop variable."
  },
  {
   "property": "C17",
   "status": "partial",
   "theorems": [
    "gcm_parallel_decrypt_actual",
    "gcm_parallel_decrypt_refuted"
   ],
   "note": "False of the code: the tag is computed over the plaintext. What the function computes is proved."
  },
  {
   "property": "C18",
   "status": "proved",
   "theorems": [
    "gcmfile_roundtrip",
    "gcmfile_conforms"
   ],
   "note": "For files up to INT_MAX bytes. The upper four bytes of the size field, which the code reads from beyond a variable, are universally quantified."
  },
  {
   "property": "C19",
   "status": "partial",
   "theorems": [
    "gcmfile_tamper_refuted",
    "gcmfile_tamper_witness_refuted"
   ],
   "note": "False of the code: the tag field is read and overwritten, never compared. Proved: every body of the recorded length is accepted under every tag."
  },
  {
   "property": "C20",
   "status": "proved",
   "theorems": [
    "gcmfile_size_check"
   ],
   "note": ""
  },
  {
   "property": "C21",
   "status": "proved",
   "theorems": [
    "sm4_conforms",
    "sm4_conforms_decmode"
   ],
   "note": ""
  },
  {
   "property": "C22",
   "status": "proved",
   "theorems": [
    "sm4_encrypt_decrypt",
    "sm4_any_context_inverts"
   ],
   "note": ""
  },
  {
   "property": "C23",
   "status": "proved",
   "theorems": [
    "sm4_key_normalisation",
    "sm4_key_reads",
    "sm4_key_overread"
   ],
   "note": "The realloc of the 16-byte pad buffer to 16 bytes is taken not to move it."
  },
  {
   "property": "C24",
   "status": "proved",
   "theorems": [
    "sm3_streaming",
    "sm3_digest_length"
   ],
   "note": ""
  },
  {
   "property": "C25",
   "status": "proved",
   "theorems": [
    "sm3_conforms"
   ],
   "note": "No length bound; beyond 2^64 bits, where the standard is silent, the length field is the bit length mod 2^64."
  },
  {
   "property": "C26",
   "status": "proved",
   "theorems": [
    "ff1_roundtrip",
    "ff1_roundtrip_dec"
   ],
   "note": "Hypotheses: the size limits of the int variables, the C library's ceil(n*log2(radix)) not below the exact value, and not the one combination on which the code aborts (C56)."
  },
  {
   "property": "C27",
   "status": "proved",
   "theorems": [
    "ff1_format",
    "ff1_output_alphabet"
   ],
   "note": ""
  },
  {
   "property": "C28",
   "status": "proved",
   "theorems": [
    "ff1_conforms"
   ],
   "note": "Where the C library's ceil(n*log2(radix)) is exact; the radix^minlen and tweak length limits of the standard are not needed."
  },
  {
   "property": "C29",
   "status": "proved",
   "theorems": [
    "ff3_roundtrip",
    "ff3_roundtrip_dec",
    "ff3_output_alphabet"
   ],
   "note": ""
  },
  {
   "property": "C30",
   "status": "proved",
   "theorems": [
    "ff3_conforms"
   ],
   "note": "The block function given to the library plays CIPH under the reversed key."
  },
  {
   "property": "C31",
   "status": "partial",
   "theorems": [
    "ff1_invalid_overflow_refuted",
    "ff3_invalid_overflow_refuted",
    "fpe_invalid_never_recovered",
    "ff1_returns_iff",
    "ff3_returns_iff",
    "fpe_invalid_collides"
   ],
   "note": "False of the code: characters are not checked; oversized digits overflow a stack buffer, others are accepted and cannot be recovered. ff1_returns_iff and ff3_returns_iff give the exact condition, for every string; fpe_invalid_collides shows an invalid first half is silently replaced by a valid one."
  },
  {
   "property": "C32",
   "status": "partial",
   "theorems": [
    "ff1_cmac_roundtrip",
    "ff1_cmac_tag_refuted",
    "ff1_cmac_tag_value",
    "ff1_cmac_tag_ten_bytes",
    "ff3_gmac_roundtrip",
    "ff3_gmac_tag_value",
    "ff3_gmac_short_tweak_undefined"
   ],
   "note": "True of FF3-GMAC. False of FF1-CMAC when tweak and half take fewer than 16 bytes together: the tag then depends on an uninitialised array; proved otherwise. The values of both tags are stated; the FF1-CMAC tag is a sum of ten terms each taken from 256 values fixed by the key."
  },
  {
   "property": "C33",
   "status": "partial",
   "theorems": [
    "phone_encrypt_decrypt",
    "phone_ff3_refuted"
   ],
   "note": "Proved for FF1 with at least two marked positions and for FF3 with at least seven kept ones; false of the code (out-of-bounds read) for FF3 with fewer kept positions. Assumes the byte written past a local array (C36) hits nothing live."
  },
  {
   "property": "C34",
   "status": "partial",
   "theorems": [
    "idcard_encrypt_decrypt",
    "idcard_ff3_refuted"
   ],
   "note": "As C33."
  },
  {
   "property": "C35",
   "status": "proved",
   "theorems": [
    "cn_encrypt_decrypt"
   ],
   "note": "FF3 needs two kept characters (C58 for other kept characters). Assumes the byte written past a local array (C36) hits nothing live."
  },
  {
   "property": "C36",
   "status": "partial",
   "theorems": [
    "app_overflow_refuted"
   ],
   "note": "False of the code: every successful call writes one byte past the end of a local array. All other accesses are in bounds (C33-C35)."
  },
  {
   "property": "C37",
   "status": "proved",
   "theorems": [
    "C37_generated_matrices_are_inverse",
    "C37_generated_affine_maps_are_inverse",
    "C37_generated_128_bit_matrices_are_inverse",
    "C37_generated_128_bit_affine_maps_are_inverse"
   ],
   "note": "All sizes: 4, 8, 16, 32 and 64 in MatModel, the two-word size 128 in Mat128Model."
  },
  {
   "property": "C38",
   "status": "proved",
   "theorems": [
    "C38_test_accepts_exactly_the_invertible",
    "C38_rejected_matrices_are_singular",
    "C38_inverse",
    "C38_128_bit_test",
    "C38_128_bit_inverse"
   ],
   "note": "All sizes, 4 to 128."
  },
  {
   "property": "C39",
   "status": "proved",
   "theorems": [
    "C39_generated_permutations",
    "C39_shuffle_permutes"
   ],
   "note": ""
  },
  {
   "property": "C40",
   "status": "proved",
   "theorems": [
    "C40_entries",
    "C40_equality",
    "C40_128_bit_vector_equality",
    "C40_copies",
    "C40_vector_sums",
    "C40_128_bit_vector_sums",
    "C40_matrix_times_vector",
    "C40_linear",
    "C40_matrix_product",
    "C40_product_is_composition",
    "C40_transpose",
    "C40_sum",
    "C40_affine_composition",
    "C40_parity",
    "C40_weight",
    "C40_combined_matrices_act_blockwise",
    "C40_combined_affine_maps_act_blockwise",
    "C40_combined_nibble_matrices_act_blockwise",
    "C40_128_bit_matrix_times_vector",
    "C40_128_bit_matrices",
    "C40_128_bit_product_is_composition",
    "C40_128_bit_affine_composition",
    "C40_128_bit_parity_and_weight",
    "C40_128_bit_entries",
    "C40_128_bit_equality",
    "C40_eight_bytes_act_blockwise",
    "C40_128_bit_combinations_act_blockwise"
   ],
   "note": "All sizes, 4 to 128, and all concatenation functions."
  },
  {
   "property": "C41",
   "status": "proved",
   "theorems": [
    "wbsm4_conforms"
   ],
   "note": ""
  },
  {
   "property": "C42",
   "status": "partial",
   "theorems": [
    "wbsm4_dummy_conforms_partial",
    "wbsm4_dummy_positions",
    "wbsm4_one_dummy_generates",
    "wbsm4_one_dummy_exact",
    "wbsm4_dummy_conforms_refuted",
    "wbsm4_dummy_generates_refuted",
    "wbsm4_many_dummies_refuted"
   ],
   "note": "False of the code: a dummy round leaves its DD table as malloc returned it, so the result depends on uninitialised memory, and adjacent dummy rounds index arrays out of bounds. Proved where neither happens, and the condition on the memory is exact for one dummy round."
  },
  {
   "property": "C43",
   "status": "partial",
   "theorems": [
    "wbsm4_keyfile_roundtrip",
    "wbsm4_keyfile_generated",
    "wbsm4_keyfile_truncated",
    "wbsm4_keyfile_header",
    "wbsm4_keyfile_rounds_refuted",
    "wbsm4_keyfile_short_refuted",
    "wbsm4_keyfile_missing_refuted"
   ],
   "note": "Round trip, truncation and header hold. False of the code: the number of rounds in the file is not compared with the allocation, a file of 24 bytes with no rounds is accepted, and a file that cannot be opened leads to fclose(NULL). The in-memory form is C72 and C73."
  },
  {
   "property": "C44",
   "status": "proved",
   "theorems": [
    "se_wbsm4_conforms",
    "se_wbsm4_roundtrip"
   ],
   "note": ""
  },
  {
   "property": "C45",
   "status": "proved",
   "theorems": [
    "wbaes_conforms",
    "wbaes_randomness_irrelevant"
   ],
   "note": "For keys of at least sixteen bytes, of which the first sixteen are used; see C65 for shorter ones."
  },
  {
   "property": "C46",
   "status": "partial",
   "theorems": [
    "ee_conforms_partial",
    "ee_standard_partial",
    "ee_roundtrip",
    "ee_empty_tag",
    "ee_empty_tag_refuted"
   ],
   "note": "Proved for every session with additional data or a message, in any pieces. False of the code for the session with neither: the tag is then the encoded key stream block and depends on the tables; its exact value is proved."
  },
  {
   "property": "C47",
   "status": "partial",
   "theorems": [
    "mask_defined",
    "mask_roundtrip",
    "mask_tag_refuted"
   ],
   "note": "The data round trip is proved. False of the code: the two sides compute different tags (C68 gives both)."
  },
  {
   "property": "C48",
   "status": "partial",
   "theorems": [
    "aes_encrypt_conforms",
    "aes_roundtrip_refuted",
    "aes_decrypt_needs_decrypt_key_partial"
   ],
   "note": "False of the code: decryption is given the encryption schedule. Proved: encryption is AES-128, and with the decryption schedule the round trip would hold for every key and block. OpenSSL's functions are represented by their documented behaviour."
  },
  {
   "property": "C49",
   "status": "partial",
   "theorems": [
    "keystore_roundtrip",
    "keystore_short_write_refuted",
    "keystore_short_file_refuted",
    "keystore_open_refuted"
   ],
   "note": "The round trip holds when the file can be opened and the device has room. False of the code otherwise: short writes and short files are reported as success, and a file that cannot be opened leads to fclose(NULL)."
  },
  {
   "property": "C50",
   "status": "partial",
   "theorems": [
    "udf_init_accepts",
    "udf_phone",
    "udf_idcard",
    "udf_address",
    "udf_refuses",
    "udf8_sample_check",
    "udf8_name_sample_refuted"
   ],
   "note": "Proved for terminated arguments and an error array that has room for the messages; the real one has one byte. Mode name with a sample is never accepted by the MySQL 8 version."
  },
  {
   "property": "C51",
   "status": "partial",
   "theorems": [
    "cbc_encrypt_realloc_refuted",
    "cbc_encrypt_defined_iff"
   ],
   "note": "False of the code: use after free whenever realloc moves the block (and the message is not empty and the output buffer large enough); that, and messages too long for an int, are exactly the undefined cases."
  },
  {
   "property": "C52",
   "status": "partial",
   "theorems": [
    "gcm_large_input_refuted",
    "gcm_input_wraps_refuted",
    "gcm_input_ignored_refuted",
    "wbgcm_input_wraps_refuted",
    "wbgcm_input_ignored_refuted"
   ],
   "note": "False of the code for every length above 2^31 - 1, exactly: the low 32 bits of the length count, or the whole input is ignored."
  },
  {
   "property": "C53",
   "status": "partial",
   "theorems": [
    "gcmfile_open_failure_refuted",
    "gcmfile_defined_iff",
    "wbgcmfile_defined_iff"
   ],
   "note": "False of the code in every such case: fclose of a stream that was never opened."
  },
  {
   "property": "C54",
   "status": "partial",
   "theorems": [
    "gcmfile_in_place_refuted"
   ],
   "note": "False of the code: the file is truncated before it is read."
  },
  {
   "property": "C55",
   "status": "proved",
   "theorems": [
    "sm4_gcm_conforms",
    "sm4_gcm_roundtrip",
    "sm4_cbc_conforms",
    "sm4_cbc_roundtrip"
   ],
   "note": "CBC decryption returns the message for the messages whose padding is removable (see C01)."
  },
  {
   "property": "C56",
   "status": "partial",
   "theorems": [
    "fpe_init_accepts",
    "ff1_empty_tweak_refuted",
    "ff1_one_char_abort",
    "ff3_short_tweak_undefined",
    "ff3_gmac_short_tweak_undefined"
   ],
   "note": "The radix check holds. False of the code for FF1 with an empty tweak when a half takes 15 bytes (mod 16), for one-character FF1 input, and for FF3 tweaks below 8 (GMAC: 16) bytes; normal return in all other cases is part of C26 and C29."
  },
  {
   "property": "C57",
   "status": "partial",
   "theorems": [
    "app_init_key",
    "app_init_short_key_refuted"
   ],
   "note": "False of the code for keys shorter than 16 bytes: the rest is uninitialised memory."
  },
  {
   "property": "C58",
   "status": "partial",
   "theorems": [
    "cn_other_kept_refuted",
    "cn_other_kept_partial"
   ],
   "note": "False of the code.  Proved for any three-byte characters when the bytes of the uninitialised tweak array that no kept Chinese character writes are the same in both calls."
  },
  {
   "property": "C59",
   "status": "partial",
   "theorems": [
    "udf_unterminated_refuted",
    "udf5_short_sample_refuted",
    "udf_refuses",
    "udf8_sample_check"
   ],
   "note": "False of the code."
  },
  {
   "property": "C60",
   "status": "partial",
   "theorems": [
    "C60_shuffle_reaches_every_arrangement_refuted",
    "C60_shuffle_reaches_exactly_partial"
   ],
   "note": "False of the code: the last element of the result is always the first element of the argument."
  },
  {
   "property": "C61",
   "status": "proved",
   "theorems": [
    "wbsm4_gcm_conforms",
    "wbsm4_cbc_conforms",
    "wbsm4_cbc_roundtrip"
   ],
   "note": "For contexts whose tables compute SM4, which C41 gives without dummy rounds and C42 under its conditions; CBC decryption returns the message for the messages whose padding is removable (see C01)."
  },
  {
   "property": "C62",
   "status": "proved",
   "theorems": [
    "stored_maps_are_self_equivalences"
   ],
   "note": ""
  },
  {
   "property": "C63",
   "status": "partial",
   "theorems": [
    "aes_short_key_refuted",
    "aes_keylen_ignored"
   ],
   "note": "False of the code: sixteen bytes are read whatever the length."
  },
  {
   "property": "C64",
   "status": "partial",
   "theorems": [
    "aes_gcm_conforms",
    "aes_cbc_conforms",
    "aes_cbc_roundtrip_refuted"
   ],
   "note": "GCM and CBC encryption proved; CBC decryption false of the code (C48)."
  },
  {
   "property": "C65",
   "status": "partial",
   "theorems": [
    "wbaes_short_key_refuted"
   ],
   "note": "False of the code: sixteen bytes are read and the function is not told the length."
  },
  {
   "property": "C66",
   "status": "proved",
   "theorems": [
    "wbaes_gcm_conforms",
    "wbaes_cbc_conforms",
    "wbaes_gcmfile_conforms"
   ],
   "note": ""
  },
  {
   "property": "C67",
   "status": "proved",
   "theorems": [
    "fpe_over_sm4",
    "fpe_over_wbsm4",
    "fpe_over_aes",
    "fpe_over_wbaes"
   ],
   "note": "Within the limits of C25 and C26 (ff1_limits, ff3_limits); the samples of NIST for FF1 and FF3 are Examples."
  },
  {
   "property": "C68",
   "status": "proved",
   "theorems": [
    "mask_encrypt_form",
    "mask_decrypt_form",
    "mask_maps_inverse"
   ],
   "note": "For sessions with additional data or a message, pieces but the last a multiple of 16 bytes (as C11)."
  },
  {
   "property": "C69",
   "status": "proved",
   "theorems": [
    "ee_file_roundtrip",
    "mask_file_roundtrip"
   ],
   "note": "The tag of the ee variant is the standard one unless file and additional data are both empty (C46). Conditions on paths and on the four bytes after the size field as in the gcmfile properties."
  },
  {
   "property": "C70",
   "status": "partial",
   "theorems": [
    "wbgcmfile_tamper_refuted"
   ],
   "note": "False of the code: the recorded tag is never compared."
  },
  {
   "property": "C71",
   "status": "partial",
   "theorems": [
    "wbgcm_short_key_refuted"
   ],
   "note": "False of the code: sixteen bytes are read whatever the length."
  },
  {
   "property": "C72",
   "status": "proved",
   "theorems": [
    "wbsm4_bytes_copy"
   ],
   "note": "Without dummy rounds; the pointers of the structure are one address."
  },
  {
   "property": "C73",
   "status": "partial",
   "theorems": [
    "wbsm4_bytes_exchange_refuted",
    "wbsm4_bytes_independent_refuted"
   ],
   "note": "False of the code: the stream holds the addresses of the tables, not the tables."
  },
  {
   "property": "C74",
   "status": "partial",
   "theorems": [
    "wbsm4_use_after_free_refuted",
    "wbsm4_free_erases_refuted"
   ],
   "note": "False of the code: only the structure is zeroed; the cleared context encrypts every block to zeros and returns 1."
  },
  {
   "property": "C75",
   "status": "proved",
   "theorems": [
    "random_no_repeat",
    "random_full",
    "random_period",
    "random_seeds_differ"
   ],
   "note": ""
  },
  {
   "property": "C76",
   "status": "proved",
   "theorems": [
    "wbsm4_generator_conforms",
    "se_wbsm4_generator_conforms",
    "wbaes_generator_conforms",
    "ee_generator_conforms_partial",
    "mask_generator_roundtrip"
   ],
   "note": "White-box SM4 without dummy rounds; the ee variant with the exception of C46; the mask variant as C47."
  },
  {
   "property": "C77",
   "status": "partial",
   "theorems": [
    "wbsm4_tables_fresh_refuted",
    "se_wbsm4_tables_fresh_refuted",
    "wbaes_tables_fresh_refuted"
   ],
   "note": "False of the code: tables are a function of key, randseed, the seconds read (and rand() for dummy rounds); the seeding at the start of the SM4 generators has no effect."
  },
  {
   "property": "C78",
   "status": "partial",
   "theorems": [
    "wbaes_encodings_secret_refuted"
   ],
   "note": "False of the code: all nibble encodings are a function of one reading of the clock."
  },
  {
   "property": "C79",
   "status": "partial",
   "theorems": [
    "mask_secret_refuted"
   ],
   "note": "False of the code: each mask is a function of one reading of the clock."
  },
  {
   "property": "C80",
   "status": "partial",
   "theorems": [
    "matrix_seeds_fresh",
    "matrix_fresh_refuted"
   ],
   "note": "Proved for 2^32 seedings within a second. False of the code when the clock ticks: a pair of matrices can repeat."
  },
  {
   "property": "C81",
   "status": "partial",
   "theorems": [
    "wbsm4_gen_erases_key_refuted",
    "se_wbsm4_gen_erases_key_refuted",
    "gcmfile_free_erases_subkey_refuted",
    "sm4_key_copy_erased_refuted",
    "context_free_erases",
    "wbsm4_gen_returns"
   ],
   "note": "False of table generation (round keys stay in an unreachable block), of the release of a GCM file context and of the padded key copy. True of the release functions for contexts in one block."
  },
  {
   "property": "C82",
   "status": "partial",
   "theorems": [
    "memory_in_use",
    "release_returns_memory_refuted",
    "udf_query_returns_memory_refuted",
    "gcm_parallel_returns_memory_refuted",
    "cbc_encrypt_returns_memory_refuted",
    "mask_context_memory",
    "contexts_are_fresh"
   ],
   "note": "False of the code: most release functions return no memory. memory_in_use says exactly what stays."
  },
  {
   "property": "C83",
   "status": "partial",
   "theorems": [
    "fpe_free_null",
    "free_null_refuted",
    "fpe_free_once",
    "wbgcm_free_twice_refuted",
    "gcm_use_after_free_refuted",
    "context_free_erases"
   ],
   "note": "NULL is accepted only by the FPE release functions; a second release is harmless only for the functions that merely clear."
  },
  {
   "property": "C84",
   "status": "partial",
   "theorems": [
    "init_reports_no_memory",
    "wbsm4_init_no_memory_refuted",
    "fpe_init_no_memory_refuted",
    "gcmfile_init_no_memory_refuted",
    "sm4_key_no_memory_refuted",
    "mask_init_no_memory_refuted"
   ],
   "note": "True of the first request of each function, false of later ones."
  },
  {
   "property": "C85",
   "status": "proved",
   "theorems": [
    "calls_by_the_rules_are_safe"
   ],
   "note": "The allocator has memory and resizes in place (C51 covers a realloc that moves the block); block functions return for a live key object."
  },
  {
   "property": "C86",
   "status": "proved",
   "theorems": [
    "calls_are_local"
   ],
   "note": ""
  },
  {
   "property": "C87",
   "status": "partial",
   "theorems": [
    "fpe_small_domain_refuted",
    "ff3_long_refuted",
    "ff3_value",
    "ff3_long_difference"
   ],
   "note": "False of the code: neither limit is checked. What FF3 computes for strings of every length is stated; differences in the low-order part of the first half pass through unchanged unless they carry into the twelve leading bytes."
  },
  {
   "property": "C88",
   "status": "partial",
   "theorems": [
    "cbc_encrypt_failure",
    "cbc_decrypt_failure",
    "gcm_failure",
    "cbc_failure_hides_plaintext_refuted",
    "gcmfile_reports_failure_refuted"
   ],
   "note": "CBC and GCM return 0 exactly when a call of the block function failed, with the standard's output before it and nothing after it.  False of the code: a failed CBC encryption leaves plaintext xored with known data in the output buffer; a GCM context cannot be used after a failure although finish still returns a tag; the file functions ignore the failure, return 1 and write zeros.  The FPE functions and the white-box GCM variants ignore the return value of the callback; this is not modelled."
  },
  {
   "property": "C89",
   "status": "partial",
   "theorems": [
    "sm4_same_context_iff",
    "key_padding_collision_iff",
    "key_padding_zeros_value",
    "sm4_distinct_keys_refuted"
   ],
   "note": "The key schedule is injective on 16-byte keys.  False of the code for other lengths: every key shorter than 16 bytes has a 16-byte key with the same context, and bytes past the sixteenth are ignored; exactly which keys collide is stated."
  },
  {
   "property": "C90",
   "status": "proved",
   "theorems": [
    "wbaes_reads_in_bounds",
    "ee_reads_in_bounds",
    "mask_reads_in_bounds",
    "wbsm4_reads_in_bounds"
   ],
   "note": "White-box SM4 for a number of rounds within the allocation (a context whose rounds field exceeds it is the case Undef of the model, C43)."
  },
  {
   "property": "C91",
   "status": "partial",
   "theorems": [
    "cbc_decrypt_wraps_refuted",
    "cbc_decrypt_one_block_refuted",
    "cbc_decrypt_reported_length_refuted",
    "cbc_encrypt_long_refuted"
   ],
   "note": "False of the code for every length above 2^31 - 1: decryption ignores all but the low 32 bits of the length, or decrypts a single block, and returns 1; encryption overruns its allocation.  Up to 2^31 - 1 see C01, C03 - C07."
  },
  {
   "property": "C92",
   "status": "partial",
   "theorems": [
    "gcmfile_touches_partial",
    "wbgcmfile_touches_partial",
    "gcmfile_tmp_input_refuted",
    "wbgcmfile_tmp_input_refuted"
   ],
   "note": "True of decryption.  Of encryption false for one name: the file called like the output with .tmp appended is overwritten and removed; when it is the input, the input is lost and success reported.  Missing: path aliases other than equal names."
  },
  {
   "property": "C93",
   "status": "partial",
   "theorems": [
    "gcmfile_large_refuted",
    "wbgcmfile_large_refuted"
   ],
   "note": "False of the code for every file of more than 2^31 - 1 bytes.  Up to that size see C18 and C69."
  },
  {
   "property": "C94",
   "status": "proved",
   "theorems": [
    "gcm_block_change_detected",
    "gcm_zero_hash_key_refuted"
   ],
   "note": "For the full 16-byte tag and a non-zero hash key; with the zero hash key all tags of an IV are equal, which is proved too."
  },
  {
   "property": "C95",
   "status": "proved",
   "theorems": [
    "gcm_forgery_bound"
   ],
   "note": ""
  },
  {
   "property": "C96",
   "status": "partial",
   "theorems": [
    "gcm_long_iv_refuted",
    "gcm_setiv_actual"
   ],
   "note": "False of the code from 2^29 bytes on: only the low 32 bits of the bit length are hashed.  Below that see C09."
  },
  {
   "property": "C97",
   "status": "partial",
   "theorems": [
    "gcm_iv12_disjoint",
    "gcm_iv_short_partial",
    "gcm_iv_clash_refuted",
    "gcm_iv_lengths_clash_refuted"
   ],
   "note": "True of 12-byte IVs and of IVs of one length up to 16 bytes (non-zero hash key).  False of 32-byte IVs for every key, and of IVs of different lengths: every IV has a 16-byte one with the same results."
  },
  {
   "property": "C98",
   "status": "proved",
   "theorems": [
    "every_permutation_can_be_generated",
    "every_matrix_can_be_generated",
    "every_affine_map_can_be_generated",
    "wbsm4_dummy_positions"
   ],
   "note": "Over all sequences of random numbers; for the sequences the library's own generator can give see C99."
  },
  {
   "property": "C99",
   "status": "partial",
   "theorems": [
    "every_matrix_generated_refuted",
    "matrix_from_seed"
   ],
   "note": "False of the code for the sizes 8 to 128: a matrix is a function of a seed of 32 bits.  Missing: size 4."
  }
 ]
}