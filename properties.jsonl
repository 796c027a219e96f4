{"id": "C01", "title": "CBC decryption inverts CBC encryption", "statement": "WBCRYPTO_cbc128_encrypt followed by WBCRYPTO_cbc128_decrypt with the same IV value and the matching block cipher pair succeeds and yields the original message, including the plaintext length that the *_cbc_decrypt wrappers report in *use_olen.", "quantifier": "every message of every length, every IV, every pair of mutually inverse 16-byte block functions, every sufficiently large output capacity", "why_tests_cant": "Message contents, lengths and keys are unbounded; the failing class (length a multiple of 16 whose last byte is 1..16) is a tiny fraction of random messages.", "anchors": ["src/modes/cbc128.c:WBCRYPTO_cbc128_encrypt", "src/modes/cbc128.c:WBCRYPTO_cbc128_decrypt", "src/utils/padding.c:WBCRYPTO_padding_pkcs7_separate_length", "src/sm4/sm4_modes.c:WBCRYPTO_sm4_cbc_decrypt"]}
{"id": "C02", "title": "PKCS#7 padding is uniquely removable", "statement": "WBCRYPTO_padding_pkcs7_separate (and _separate_length) applied to the result of WBCRYPTO_padding_pkcs7_merge gives back the message; two different messages never pad to the same byte string.", "quantifier": "every byte string", "why_tests_cant": "An injectivity claim over all pairs of byte strings.", "anchors": ["src/utils/padding.c:WBCRYPTO_padding_pkcs7_merge", "src/utils/padding.c:WBCRYPTO_padding_pkcs7_separate", "src/utils/padding.c:WBCRYPTO_padding_pkcs7_separate_length"]}
{"id": "C03", "title": "CBC encryption equals SP 800-38A CBC of the padded message and respects the output capacity", "statement": "When max_olen is at least the padded length the call returns 1, writes exactly C_1..C_n with C_i = E(P_i xor C_{i-1}), C_0 = IV, over the padded message, reports that length in *use_olen and writes nothing past it; when max_olen is smaller it returns 0 and leaves output, *use_olen and IV untouched.", "quantifier": "every message, IV, block function and capacity", "why_tests_cant": "Quantifies over all lengths and all capacities around the boundary.", "anchors": ["src/modes/cbc128.c:WBCRYPTO_cbc128_encrypt"]}
{"id": "C04", "title": "CBC decryption in place equals CBC decryption between distinct buffers", "statement": "Calling WBCRYPTO_cbc128_decrypt with in == out gives the same plaintext and leaves the same value in ivec as with disjoint buffers.", "quantifier": "every block-aligned ciphertext, IV and block function", "why_tests_cant": "The two code paths differ; agreement must hold for every number of blocks.", "anchors": ["src/modes/cbc128.c:WBCRYPTO_cbc128_decrypt"]}
{"id": "C05", "title": "CBC decryption can be continued across calls", "statement": "Decrypting a ciphertext in consecutive block-aligned pieces with the same ivec buffer gives the same plaintext and the same final ivec as one call on the whole ciphertext.", "quantifier": "every block-aligned ciphertext and every way to cut it into block-aligned pieces", "why_tests_cant": "All histories of calls on one ivec buffer.", "anchors": ["src/modes/cbc128.c:WBCRYPTO_cbc128_decrypt"]}
{"id": "C06", "title": "CBC encryption can be continued across calls", "statement": "Encrypting a block-aligned message in consecutive pieces with the same ivec buffer gives the same ciphertext as one call, as the decrypting side does.", "quantifier": "every block-aligned message and every way to cut it", "why_tests_cant": "All histories of calls on one ivec buffer.", "anchors": ["src/modes/cbc128.c:WBCRYPTO_cbc128_encrypt"]}
{"id": "C07", "title": "CBC decryption touches only the caller's buffers", "statement": "For every inlen the decrypt functions read only in[0..inlen) and write only out[0..inlen) (and the wrappers inspect only out[0..inlen)).", "quantifier": "every input length including 0 and lengths that are not a multiple of 16", "why_tests_cant": "Out-of-bounds reads are invisible to functional tests; the claim covers all lengths.", "anchors": ["src/modes/cbc128.c:WBCRYPTO_cbc128_decrypt", "src/sm4/sm4_modes.c:WBCRYPTO_sm4_cbc_decrypt"]}
{"id": "C08", "title": "The table-driven GHASH multiplication is multiplication in GF(2^128)", "statement": "For every hash key H and block X, the 4-bit table method (tables built by WBCRYPTO_gcm_init, product by gcm_mult) returns X*H in GF(2^128) as defined by SP 800-38D section 6.3.", "quantifier": "all 2^128 x 2^128 operands", "why_tests_cant": "The operand space is 2^256.", "anchors": ["src/modes/gcm128.c:gcm_mult", "src/modes/gcm128.c:WBCRYPTO_gcm_init", "include/wbcrypto/modes.h:last4"]}
{"id": "C09", "title": "GCM encryption and tag conform to SP 800-38D", "statement": "init, setiv, one aad call, one encrypt call, finish produce the ciphertext GCTR(inc32(J0), P) and the tag MSB_t(GHASH(A,C) xor E(J0)) of the standard.", "quantifier": "every block function, IV of any non-zero length, AAD, plaintext and tag length up to 16 (lengths below the 32-bit limits of the interface)", "why_tests_cant": "Unbounded data and an arbitrary block cipher.", "anchors": ["src/modes/gcm128.c:WBCRYPTO_gcm_setiv", "src/modes/gcm128.c:WBCRYPTO_gcm_aad", "src/modes/gcm128.c:WBCRYPTO_gcm_encrypt", "src/modes/gcm128.c:WBCRYPTO_gcm_finish"]}
{"id": "C10", "title": "GCM decryption inverts encryption and reproduces the tag", "statement": "Decrypting with a context prepared with the same key, IV and AAD returns the plaintext, and WBCRYPTO_gcm_finish on the decrypting side returns the same tag.", "quantifier": "every block function, IV, AAD and sequence of plaintext pieces", "why_tests_cant": "All messages and all histories of calls.", "anchors": ["src/modes/gcm128.c:WBCRYPTO_gcm_decrypt", "src/modes/gcm128.c:WBCRYPTO_gcm_finish"]}
{"id": "C11", "title": "GCM data may be fed in pieces", "statement": "Splitting the data over several WBCRYPTO_gcm_encrypt (or decrypt) calls gives the same ciphertext and tag as a single call.", "quantifier": "every message and every way to cut it into pieces", "why_tests_cant": "All cut positions of all messages; tests use a handful.", "anchors": ["src/modes/gcm128.c:WBCRYPTO_gcm_encrypt"]}
{"id": "C12", "title": "A GCM context can be reused after setiv", "statement": "After any history of calls on a context, setiv(iv) followed by further calls behaves as on a freshly initialised context with the same key.", "quantifier": "every history of calls", "why_tests_cant": "All call histories.", "anchors": ["src/modes/gcm128.c:WBCRYPTO_gcm_setiv"]}
{"id": "C13", "title": "GCM additional data may be fed in pieces", "statement": "Splitting the AAD over several WBCRYPTO_gcm_aad calls gives the same tag as a single call with the concatenation.", "quantifier": "every AAD and every way to cut it", "why_tests_cant": "All cuts of all strings.", "anchors": ["src/modes/gcm128.c:WBCRYPTO_gcm_aad"]}
{"id": "C14", "title": "GCM never reuses a counter block within a message", "statement": "Within one message of at most 2^32-2 blocks the counter blocks fed to the block function are pairwise distinct and differ from the block used for the tag; the first 12 bytes never change.", "quantifier": "every starting counter block and every message length up to 2^32-2 blocks", "why_tests_cant": "4 billion blocks per message and 2^128 start values.", "anchors": ["src/modes/gcm128.c:WBCRYPTO_gcm_encrypt"]}
{"id": "C15", "title": "Rejected GCM calls have no effect", "statement": "WBCRYPTO_gcm_encrypt/decrypt with outlen < inlen returns 0 and leaves the context and the output buffer unchanged.", "quantifier": "every context state, every input and capacity", "why_tests_cant": "All context states.", "anchors": ["src/modes/gcm128.c:WBCRYPTO_gcm_encrypt", "src/modes/gcm128.c:WBCRYPTO_gcm_decrypt"]}
{"id": "C16", "title": "Parallel GCM encryption equals sequential GCM encryption under every thread schedule", "statement": "WBCRYPTO_gcm_parallel_encrypt produces the same output, context state and return value as WBCRYPTO_gcm_encrypt whatever the interleaving of the OpenMP threads.", "quantifier": "every input, every number of blocks, every interleaving of the worker threads", "why_tests_cant": "Schedules are not controllable from a test.", "anchors": ["src/modes/gcm_parallel.c:WBCRYPTO_gcm_parallel_encrypt"]}
{"id": "C17", "title": "Parallel GCM decryption authenticates like sequential GCM decryption", "statement": "WBCRYPTO_gcm_parallel_decrypt leaves the context in the same state (hence the same tag) as WBCRYPTO_gcm_decrypt.", "quantifier": "every ciphertext", "why_tests_cant": "All inputs; the existing tests do not compare tags.", "anchors": ["src/modes/gcm_parallel.c:WBCRYPTO_gcm_parallel_decrypt"]}
{"id": "C18", "title": "GCM file encryption round-trips every file", "statement": "WBCRYPTO_gcmfile_decrypt of the file written by WBCRYPTO_gcmfile_encrypt (same key, IV, AAD) returns 1 and recreates the original file byte for byte, the temporary file is removed, and the container is tag || 8-byte length || ciphertext.", "quantifier": "every file content below 2^31 bytes, every key, IV, AAD", "why_tests_cant": "All file sizes around the 128-byte slice boundary and all contents.", "anchors": ["src/modes/gcmfile.c:WBCRYPTO_gcmfile_encrypt", "src/modes/gcmfile.c:WBCRYPTO_gcmfile_decrypt"]}
{"id": "C19", "title": "GCM file decryption rejects tampered files", "statement": "If the tag or any ciphertext byte of the container is changed, WBCRYPTO_gcmfile_decrypt returns 0.", "quantifier": "every container and every modification", "why_tests_cant": "A universally quantified rejection property.", "anchors": ["src/modes/gcmfile.c:WBCRYPTO_gcmfile_decrypt"]}
{"id": "C20", "title": "GCM file decryption detects truncation and extension", "statement": "If the number of ciphertext bytes in the container differs from the recorded length, WBCRYPTO_gcmfile_decrypt returns 0; otherwise it returns 1.", "quantifier": "every container of at least 17 bytes", "why_tests_cant": "All container sizes and recorded lengths.", "anchors": ["src/modes/gcmfile.c:WBCRYPTO_gcmfile_decrypt"]}
{"id": "C21", "title": "SM4 conforms to GM/T 0002-2012", "statement": "WBCRYPTO_sm4_init_key + WBCRYPTO_sm4_encrypt compute the 32-round SM4 function of the standard (key expansion with FK/CK, tau, L, L', reverse transform) and WBCRYPTO_sm4_decrypt the same with reversed round keys.", "quantifier": "every 128-bit key and every block", "why_tests_cant": "2^256 combinations; the implementation uses a precomputed 256x32 table and unrolled rounds.", "anchors": ["src/sm4/sm4.c"]}
{"id": "C22", "title": "SM4 decryption inverts encryption", "statement": "WBCRYPTO_sm4_decrypt(WBCRYPTO_sm4_encrypt(b)) = b and conversely, for one context.", "quantifier": "every key (any length) and every block", "why_tests_cant": "2^256 combinations.", "anchors": ["src/sm4/sm4.c:WBCRYPTO_sm4_encrypt", "src/sm4/sm4.c:WBCRYPTO_sm4_decrypt"]}
{"id": "C23", "title": "SM4 key normalisation", "statement": "A key shorter than 16 bytes is extended with bytes equal to the number of missing bytes, a longer key is truncated to its first 16 bytes; no byte beyond keylen is read and the resulting context is that of the normalised 16-byte key.", "quantifier": "every key of every length", "why_tests_cant": "All key lengths and contents.", "anchors": ["src/sm4/sm4.c:WBCRYPTO_sm4_init_key", "src/utils/padding.c:key_padding_pkcs7"]}
{"id": "C24", "title": "SM3 hashing is independent of how the message is cut", "statement": "init, any sequence of update calls, final gives the digest of the concatenation.", "quantifier": "every sequence of pieces (any number, any lengths including 0)", "why_tests_cant": "All cuts of all messages.", "anchors": ["src/sm3/sm3.c", "src/sm3/md32_common.h:HASH_UPDATE", "src/sm3/md32_common.h:HASH_FINAL"]}
{"id": "C25", "title": "SM3 conforms to GM/T 0004-2012", "statement": "The digest equals the SM3 function of the standard (padding, message expansion, compression) for messages shorter than 2^61 bytes.", "quantifier": "every message", "why_tests_cant": "Unbounded messages; the implementation unrolls and renames 64 rounds.", "anchors": ["src/sm3/sm3.c", "src/sm3/sm3_local.h", "src/sm3/md32_common.h"]}
{"id": "C26", "title": "FF1 decryption inverts encryption", "statement": "WBCRYPTO_ff1_decrypt(WBCRYPTO_ff1_encrypt(s)) = s.", "quantifier": "every radix 2..36, tweak, block function and numeral string of length >= 2 over the radix's lower-case alphabet", "why_tests_cant": "Unbounded strings, tweaks and block functions.", "anchors": ["src/fpe/ff1.c:WBCRYPTO_ff1_encrypt", "src/fpe/ff1.c:WBCRYPTO_ff1_decrypt"]}
{"id": "C27", "title": "FF1 preserves the format", "statement": "The output has the same length as the input and consists of characters of the radix's alphabet, followed by a NUL.", "quantifier": "as C26", "why_tests_cant": "Unbounded strings.", "anchors": ["src/fpe/ff1.c", "src/fpe/fpe_locl.c:inverse_map_chars"]}
{"id": "C28", "title": "FF1 conforms to SP 800-38G", "statement": "The output is FF1.Encrypt(K, T, X) of the standard for the given radix (with the block function as CIPH_K).", "quantifier": "as C26 (and radix^minlen limits ignored)", "why_tests_cant": "Unbounded strings.", "anchors": ["src/fpe/ff1.c:WBCRYPTO_ff1_encrypt"]}
{"id": "C29", "title": "FF3 decryption inverts encryption and preserves the format", "statement": "WBCRYPTO_ff3_decrypt(WBCRYPTO_ff3_encrypt(s)) = s, same length, same alphabet.", "quantifier": "every radix 2..36, tweak of at least 8 bytes, block function and non-empty numeral string", "why_tests_cant": "Unbounded strings, tweaks and block functions.", "anchors": ["src/fpe/ff3.c:WBCRYPTO_ff3_encrypt", "src/fpe/ff3.c:WBCRYPTO_ff3_decrypt"]}
{"id": "C30", "title": "FF3 conforms to SP 800-38G", "statement": "The output is FF3.Encrypt(T, X) of the standard for a 64-bit tweak, where the block function plays the role of REVB o CIPH_REVB(K) o REVB up to the key reversal, which the caller is responsible for.", "quantifier": "every radix, 8-byte tweak, and numeral string whose half fits 96 bits", "why_tests_cant": "Unbounded inputs.", "anchors": ["src/fpe/ff3.c:WBCRYPTO_ff3_encrypt"]}
{"id": "C31", "title": "FPE rejects input outside the alphabet", "statement": "Strings containing a character that is not a digit of the radix are rejected or at least do not corrupt memory.", "quantifier": "every byte string", "why_tests_cant": "Quantifies over all invalid inputs.", "anchors": ["src/fpe/fpe_locl.c:map_chars", "src/fpe/ff1.c", "src/fpe/ff3.c"]}
{"id": "C32", "title": "FF1-CMAC and FF3-GMAC encrypt like FF1/FF3 and both sides compute the same tag", "statement": "The ciphertext equals that of the plain mode; decryption returns the plaintext; the tag computed while decrypting equals the tag computed while encrypting.", "quantifier": "every radix, tweak, block function and numeral string", "why_tests_cant": "Unbounded inputs; depends on tweak length.", "anchors": ["src/fpe/ff1_cmac.c", "src/fpe/ff3_gmac.c"]}
{"id": "C33", "title": "Phone number encryption keeps the unmasked positions and round-trips", "statement": "WBCRYPTO_fpe_encrypt_phone changes only the positions marked '*' in the sample, puts decimal digits there, and WBCRYPTO_fpe_decrypt_phone with the same sample restores the number.", "quantifier": "every digit string and every sample of the same length with at least two stars", "why_tests_cant": "All numbers and all masks.", "anchors": ["src/fpe_app/phone.c"]}
{"id": "C34", "title": "ID card encryption keeps the unmasked positions, the trailing X, and round-trips", "statement": "As C33 for 18-character ID numbers with an optional trailing 'X'.", "quantifier": "every ID number and every sample", "why_tests_cant": "All numbers and all masks.", "anchors": ["src/fpe_app/idcard.c"]}
{"id": "C35", "title": "Chinese text encryption maps CJK characters to CJK characters and round-trips", "statement": "WBCRYPTO_fpe_encrypt_cn_utf8 maps 3-byte UTF-8 characters U+4E00..U+9EFF at starred positions to characters in the same range, keeps the other characters, and decryption restores the text.", "quantifier": "every string of such characters and every sample with one mark per character", "why_tests_cant": "20736^n strings.", "anchors": ["src/fpe_app/cn_utf8.c", "src/fpe_app/utf8_util.c"]}
{"id": "C36", "title": "The FPE application functions stay inside their buffers", "statement": "No call with valid arguments reads or writes outside the arrays involved.", "quantifier": "every valid number and sample", "why_tests_cant": "A one-byte stack overflow does not show up in functional tests.", "anchors": ["src/fpe_app/phone.c", "src/fpe_app/idcard.c", "src/fpe/fpe_locl.c:inverse_map_chars"]}
{"id": "C37", "title": "Generated matrix pairs are mutually inverse", "statement": "genMatpairM4, M8, M16, M32, M64 and M128 (and genaffinepairM4 to M128) return matrices (affine maps) that are inverse to each other whatever the random number generator returns, and never overrun the trail buffer.", "quantifier": "every sequence of random numbers", "why_tests_cant": "2^1024 random matrices, including all singular ones.", "anchors": ["WBMatrix/src/WBMatrix.c:genMatpairM8", "WBMatrix/src/WBMatrix.c:genMatpairM32", "WBMatrix/src/WBMatrix.c:genaffinepairM32"]}
{"id": "C38", "title": "Matrix inversion and the invertibility test are exact", "statement": "isinvertMn(A) = 1 exactly when A has an inverse over GF(2), and then invsMn returns it.", "quantifier": "every matrix, n = 4, 8, 16, 32, 64, 128", "why_tests_cant": "2^(n*n) matrices.", "anchors": ["WBMatrix/src/WBMatrix.c:isinvertM8", "WBMatrix/src/WBMatrix.c:invsM8"]}
{"id": "C39", "title": "Generated permutations are permutations with their inverses", "statement": "genPermutation4/genPermutation8 return a bijection of 0..15 / 0..255 and its inverse whatever the random numbers are; wRandomShuffleU8 only permutes its array.", "quantifier": "every sequence of random numbers", "why_tests_cant": "All random outcomes.", "anchors": ["WBMatrix/src/WBMatrix.c:genPermutation4", "WBMatrix/src/WBMatrix.c:genPermutation8", "src/utils/wrandom.c:wRandomShuffleU8"]}
{"id": "C40", "title": "Matrix algebra functions compute GF(2) algebra", "statement": "MatMulNum is linear, MatMulMat is composition, affinemix is composition of affine maps, MatrixcomM8to32/affinecomM8to32 and the other concatenations act block by block, xorU8..xorU128 compute parity.", "quantifier": "every matrix and vector", "why_tests_cant": "2^1024 matrices.", "anchors": ["WBMatrix/src/WBMatrix.c:MatMulMatM32", "WBMatrix/src/WBMatrix.c:affinemixM32", "WBMatrix/src/WBMatrix.c:affinecomM8to32"]}
{"id": "C41", "title": "White-box SM4 without dummy rounds computes SM4", "statement": "For a context made with dummyrounds = 0, WBCRYPTO_wbsm4_encrypt equals SM4 encryption (encmode 1) or decryption (encmode 0) under the key.", "quantifier": "every key, block and every outcome of the random number generator", "why_tests_cant": "All randomness (tens of thousands of random bits) times all keys and blocks.", "anchors": ["src/wbsm4/wbsm4_gen.c:WBCRYPTO_wbsm4_gen_table", "src/wbsm4/wbsm4.c:WBCRYPTO_wbsm4_encrypt"]}
{"id": "C42", "title": "White-box SM4 with dummy rounds computes SM4", "statement": "The same for every number of dummy rounds and every placement of them.", "quantifier": "every dummyrounds >= 0, key, block, random outcome and every content of freshly allocated memory", "why_tests_cant": "Depends on uninitialised heap contents and on random placement.", "anchors": ["src/wbsm4/wbsm4_gen.c:WBCRYPTO_wbsm4_gen_table", "src/wbsm4/wbsm4_gen.c:wbsm4_gen_dummyround_array"]}
{"id": "C43", "title": "White-box SM4 key files round-trip", "statement": "WBCRYPTO_wbsm4_file2key of a file written by WBCRYPTO_wbsm4_key2file into a context with the same number of rounds restores every table, so both contexts encrypt identically; a wrong header or a short file is rejected.", "quantifier": "every context, every file", "why_tests_cant": "All table contents; all truncation points.", "anchors": ["src/wbsm4/wbsm4_exkey.c"]}
{"id": "C44", "title": "Self-equivalence white-box SM4 computes SM4", "statement": "WBCRYPTO_se_wbsm4_encrypt equals SM4 encryption/decryption under the key.", "quantifier": "every key, block and every random outcome (including every choice among the 2039 stored self-equivalences)", "why_tests_cant": "All randomness.", "anchors": ["src/se_wbsm4/se_wbsm4.c", "src/se_wbsm4/se_wbsm4_local.c:SE_initial"]}
{"id": "C45", "title": "White-box AES computes AES-128", "statement": "WBCRYPTO_wbaes_encrypt with tables from WBCRYPTO_wbaes_gen_table equals AES-128 (FIPS 197) under the key.", "quantifier": "every key, block and every random outcome", "why_tests_cant": "All randomness (mixing bijections and 4-bit encodings).", "anchors": ["src/wbaes/wbaes.c", "src/wbaes/wbaes_local.c"]}
{"id": "C46", "title": "White-box AES-GCM (external encoding variant) computes AES-GCM", "statement": "wbgcm_ee init/setiv/aad/encrypt/finish equal standard AES-128-GCM, and decrypt inverts encrypt.", "quantifier": "every key, IV, AAD, message and every random outcome", "why_tests_cant": "All randomness and all messages.", "anchors": ["src/wbaes/wbaes_wbgcm_ee_init.c", "src/wbaes/wbaes_wbgcm_ee_mode.c"]}
{"id": "C47", "title": "White-box AES-GCM (masking variant) round-trips", "statement": "Data encrypted with the encryption tables is recovered with the decryption tables generated together with them, and both sides agree on the tag.", "quantifier": "every key, IV, AAD, message and every random outcome", "why_tests_cant": "All randomness and all messages.", "anchors": ["src/wbaes/wbaes_wbgcm_mask_init.c", "src/wbaes/wbaes_wbgcm_mask_mode.c"]}
{"id": "C48", "title": "AES decryption inverts AES encryption", "statement": "WBCRYPTO_aes_decrypt(WBCRYPTO_aes_encrypt(b)) = b for a context initialised with WBCRYPTO_aes_init_key.", "quantifier": "every key and block", "why_tests_cant": "2^256 combinations.", "anchors": ["src/aes/aes.c"]}
{"id": "C49", "title": "Key store files round-trip", "statement": "The key store read function returns the bytes stored by the write function.", "quantifier": "every byte string and length", "why_tests_cant": "All contents and lengths.", "anchors": ["src/utils/keystore.c"]}
{"id": "C50", "title": "The MySQL fpe() function validates and routes its arguments", "statement": "The UDF accepts only the documented modes and lengths, rejects everything else, and for accepted phone/idcard arguments returns a value of the same length.", "quantifier": "every argument tuple", "why_tests_cant": "All argument combinations.", "anchors": ["udf/mysql8.cpp"]}
{"id": "C51", "title": "CBC encryption is memory-safe whatever the allocator does", "statement": "WBCRYPTO_cbc128_encrypt never reads freed memory, whether or not realloc moves the padded copy of the message.", "quantifier": "every message and every allocator behaviour the C standard allows", "why_tests_cant": "The allocator's choice is not visible to a test and rarely exercised.", "anchors": ["src/modes/cbc128.c:WBCRYPTO_cbc128_encrypt", "src/utils/padding.c:WBCRYPTO_padding_pkcs7_merge"]}
{"id": "C52", "title": "A successful GCM call has processed all of its input", "statement": "When WBCRYPTO_gcm_encrypt/decrypt return 1, inlen bytes have been written to out.", "quantifier": "every input length a size_t can express", "why_tests_cant": "Tests do not pass multi-gigabyte buffers.", "anchors": ["src/modes/gcm128.c:WBCRYPTO_gcm_encrypt", "src/modes/gcm128.c:WBCRYPTO_gcm_decrypt"]}
{"id": "C53", "title": "GCM file functions report unopenable files", "statement": "When an input file is missing, an output file cannot be created, or the container is too short for its header, WBCRYPTO_gcmfile_encrypt/decrypt return 0.", "quantifier": "every file system state and every pair of paths", "why_tests_cant": "The failing paths are undefined behaviour that usually shows as a crash or as nothing at all.", "anchors": ["src/modes/gcmfile.c:WBCRYPTO_gcmfile_encrypt", "src/modes/gcmfile.c:WBCRYPTO_gcmfile_decrypt"]}
{"id": "C54", "title": "GCM file encryption never destroys data silently", "statement": "When WBCRYPTO_gcmfile_encrypt returns 1 the container it wrote holds the whole input, also when input and output path are the same file.", "quantifier": "every file content and every pair of paths", "why_tests_cant": "Path aliasing is a corner of the input space tests do not explore.", "anchors": ["src/modes/gcmfile.c:WBCRYPTO_gcmfile_encrypt"]}
{"id": "C55", "title": "The SM4 modes are the standard modes over SM4", "statement": "A GCM session on a context from WBCRYPTO_sm4_gcm_init computes SM4-GCM, WBCRYPTO_sm4_cbc_encrypt computes CBC-SM4 of the padded message, both under the normalised key, and each decrypts back.", "quantifier": "every key of every length, every IV, AAD and message within the interface limits", "why_tests_cant": "The message, key and IV spaces are unbounded; a vector only checks one point of the composition.", "anchors": ["src/sm4/sm4_modes.c", "src/modes/gcm128.c", "src/modes/cbc128.c", "src/sm4/sm4.c"]}
{"id": "C56", "title": "FPE contexts exist exactly for radices 2 to 36, and valid calls return", "statement": "WBCRYPTO_fpe_init returns a context iff 2 <= radix <= 36; encryption and decryption of a valid numeral string then return normally instead of aborting the process or reading outside the tweak.", "quantifier": "every radix, tweak and numeral string", "why_tests_cant": "The aborting combinations are isolated points of the (tweak length, radix, length) space.", "anchors": ["src/fpe/init.c:WBCRYPTO_fpe_init", "src/fpe/ff1.c:WBCRYPTO_ff1_encrypt", "src/fpe/ff3.c:WBCRYPTO_ff3_encrypt", "src/fpe/ff3_gmac.c:WBCRYPTO_ff3_gmac_encrypt"]}
{"id": "C57", "title": "The FPE application context is determined by the key and the names", "statement": "WBCRYPTO_fpe_app_init uses the first 16 key bytes; shorter keys give a determined key as well; unknown cipher names mean AES, unknown modes FF3.", "quantifier": "every key, key length and pair of names", "why_tests_cant": "A key completed with leftover stack contents usually works within one process run.", "anchors": ["src/fpe_app/init.c:WBCRYPTO_fpe_app_init"]}
{"id": "C58", "title": "Chinese text may contain other characters at the kept positions", "statement": "Encrypting and decrypting text restores it when the kept characters are arbitrary 3-byte UTF-8 characters.", "quantifier": "every text and sample", "why_tests_cant": "Whether uninitialised memory happens to agree between two calls depends on the run.", "anchors": ["src/fpe_app/cn_utf8.c:aux_fpe_cn", "src/fpe_app/utf8_util.c:utf8IntToCharDuodecimal"]}
{"id": "C59", "title": "The MySQL function copes with what MySQL passes", "statement": "Arguments are delimited by their lengths, not by a terminator; errors are reported without writing past the caller's arrays.", "quantifier": "every argument memory layout", "why_tests_cant": "MySQL usually passes terminated strings in tests with constants.", "anchors": ["udf/mysql8.cpp:fpe", "udf/mysql5.cpp:fpe"]}
{"id": "C60", "title": "The byte shuffle can produce every arrangement", "statement": "For every arrangement of an array of distinct bytes there are random numbers for which wRandomShuffleU8 produces it.", "quantifier": "every array and every sequence of random numbers", "why_tests_cant": "A statement about the set of reachable results over all generator outputs.", "anchors": ["src/utils/wrandom.c:wRandomShuffleU8"]}
{"id": "C61", "title": "CBC and GCM over white-box SM4 are CBC and GCM over SM4", "statement": "A GCM session or a CBC encryption keyed with white-box tables generated for encryption gives what the modes over SM4 give under the key; CBC decryption with tables generated for decryption returns the message.", "quantifier": "every key, IV, additional data, message and every outcome of the random number generator", "why_tests_cant": "All messages, keys and random outcomes of the table generation.", "anchors": ["src/wbsm4/wbsm4_modes.c", "src/wbsm4/wbsm4_gen.c:WBCRYPTO_wbsm4_gen_table"]}
{"id": "C62", "title": "The stored affine maps are self-equivalences of the SM4 S-box", "statement": "For each of the 2039 stored pairs (A, B) and every byte x, B(S(A(x))) = S(x).", "quantifier": "every stored pair and every byte", "why_tests_cant": "One wrong constant among 36,702 affects only the executions that draw its entry.", "anchors": ["src/se_wbsm4/se_wbsm4_local.c:SE_initial", "src/se_wbsm4/se_wbsm4_local.h:sm4_sbox"]}
{"id": "C63", "title": "AES keys are read within the length given", "statement": "WBCRYPTO_aes_init_key(ctx, key, keylen) reads no more than keylen bytes at key, and the schedule it sets up depends on these bytes only.", "quantifier": "every key buffer and every length", "why_tests_cant": "An over-read is undefined behaviour that usually goes unnoticed.", "anchors": ["src/aes/aes.c:WBCRYPTO_aes_init_key"]}
{"id": "C64", "title": "The AES modes are the standard modes over AES-128", "statement": "A GCM session on a context from WBCRYPTO_aes_gcm_init computes AES-128-GCM, WBCRYPTO_aes_cbc_encrypt computes CBC-AES of the padded message, and WBCRYPTO_aes_cbc_decrypt returns the message.", "quantifier": "every key, IV, additional data and message within the interface limits", "why_tests_cant": "The message, key and IV spaces are unbounded.", "anchors": ["src/aes/aes_modes.c", "src/aes/aes.c", "src/modes/gcm128.c", "src/modes/cbc128.c"]}
{"id": "C65", "title": "White-box AES keys are read within their length", "statement": "WBCRYPTO_wbaes_gen_table reads only the caller's key bytes, whatever their number.", "quantifier": "every key buffer", "why_tests_cant": "An over-read is undefined behaviour that usually goes unnoticed.", "anchors": ["src/wbaes/wbaes.c:WBCRYPTO_wbaes_gen_table", "src/wbaes/wbaes_local.c:expandKey"]}
{"id": "C66", "title": "The modes over white-box AES are the modes over AES-128", "statement": "A GCM session, a GCM file encryption or a CBC encryption keyed with white-box AES tables gives what the mode over AES-128 gives under the key.", "quantifier": "every key, IV, additional data, message and every outcome of the random number generator", "why_tests_cant": "All messages, keys and random outcomes of the table generation.", "anchors": ["src/wbaes/wbaes_modes.c", "src/wbaes/wbaes.c:WBCRYPTO_wbaes_gen_table"]}
{"id": "C67", "title": "Format-preserving encryption over each cipher is SP 800-38G over the standard cipher", "statement": "FF1 and FF3 contexts made with SM4, white-box SM4, AES or white-box AES encrypt and decrypt every numeral string as FF1 and FF3 of SP 800-38G do over standard SM4 or AES-128 under the key (FF3: under the byte-reversed key of the standard).", "quantifier": "every key, tweak, radix and numeral string, and every random outcome of the table generation", "why_tests_cant": "All strings, tweaks and keys; published samples check one point each.", "anchors": ["src/fpe/ff1.c", "src/fpe/ff3.c", "src/sm4/sm4_modes.c", "src/wbsm4/wbsm4_modes.c", "src/aes/aes_modes.c", "src/wbaes/wbaes_modes.c"]}
{"id": "C68", "title": "What the masking variant of white-box AES-GCM computes", "statement": "Ciphertext and tag of the encrypting side are those of AES-128-GCM passed byte by byte through one bijection of bytes per position in the block, the mapped ciphertext being what is hashed; the decrypting side applies the inverse bijections to ciphertext and hash before combining them with the key stream.", "quantifier": "every key, IV, AAD, message in aligned pieces, and every random outcome", "why_tests_cant": "All randomness and all messages.", "anchors": ["src/wbaes/wbaes_wbgcm_mask_init.c:WBCRYPTO_wbaes_wbgcm_mask_gen_gcm_table", "src/wbaes/wbaes_wbgcm_mask_mode.c"]}
{"id": "C69", "title": "White-box AES-GCM files round-trip", "statement": "A file written by the encrypting function of either white-box GCM variant consists of tag, size and ciphertext as gcmfile writes them, and decrypting it with the tables generated together restores the contents; the ee variant writes exactly the AES-128-GCM container. No other file is touched.", "quantifier": "every file content, key, IV, AAD, file system and random outcome", "why_tests_cant": "All contents and all states of the file system.", "anchors": ["src/wbaes/wbaes_wbgcm_ee_file.c", "src/wbaes/wbaes_wbgcm_mask_file.c"]}
{"id": "C70", "title": "White-box AES-GCM files are authenticated", "statement": "Decrypting a file whose tag does not belong to its ciphertext and additional data fails.", "quantifier": "every file, tag, key, IV and AAD", "why_tests_cant": "All forgeries.", "anchors": ["src/wbaes/wbaes_wbgcm_ee_file.c", "src/wbaes/wbaes_wbgcm_mask_file.c"]}
{"id": "C71", "title": "White-box AES-GCM key generation does not read past a short key", "statement": "gen_table of both white-box GCM variants stays within the keylen bytes it is given.", "quantifier": "every key length below sixteen", "why_tests_cant": "Reading past the end goes unnoticed in most runs.", "anchors": ["src/wbaes/wbaes_wbgcm_ee_init.c:WBCRYPTO_wbaes_wbgcm_ee_gen_table", "src/wbaes/wbaes_wbgcm_mask_init.c:WBCRYPTO_wbaes_wbgcm_mask_gen_table"]}
{"id": "C72", "title": "An exported white-box SM4 context works in the process that made it", "statement": "WBCRYPTO_wbsm4_bytes2key of the stream written by WBCRYPTO_wbsm4_key2bytes gives a context that encrypts like the original, also after the original was passed to WBCRYPTO_wbsm4_context_free.", "quantifier": "every key, mode, random numbers, memory contents and block", "why_tests_cant": "All keys and tables; the copy shares memory with the original.", "anchors": ["src/wbsm4/wbsm4_exkey.c: WBCRYPTO_wbsm4_key2bytes, WBCRYPTO_wbsm4_bytes2key", "src/wbsm4/wbsm4.c: WBCRYPTO_wbsm4_context_free"]}
{"id": "C73", "title": "An exported white-box SM4 context can be used elsewhere and is independent of the original", "statement": "The stream of WBCRYPTO_wbsm4_key2bytes holds the tables, so that it can be imported in another process, and later changes to the original do not change the copy.", "quantifier": "every key pair, random numbers, memory and block", "why_tests_cant": "A test in one process sees the shared tables still alive.", "anchors": ["src/wbsm4/wbsm4_exkey.c: WBCRYPTO_wbsm4_key2bytes, WBCRYPTO_wbsm4_bytes2key"]}
{"id": "C74", "title": "Freeing a white-box SM4 context erases its tables and makes it unusable", "statement": "After WBCRYPTO_wbsm4_context_free the tables are no longer in memory, and a later encryption with the context does not report success.", "quantifier": "every key, random numbers, memory and block", "why_tests_cant": "Tests do not look at memory that was given up.", "anchors": ["src/wbsm4/wbsm4.c: WBCRYPTO_wbsm4_context_free"]}
{"id": "C75", "title": "The random generator of the matrix library does not repeat itself", "statement": "After InitRandom, the first 2^32 values of cus_random are pairwise different and include every 32-bit number; then the sequence starts again; and different seeds give different sequences.", "quantifier": "every seed and every number of calls", "why_tests_cant": "2^32 values for each of 2^32 seeds; the proof needs that 4294967291 is a prime congruent to 3 modulo 4.", "anchors": ["WBMatrix/src/random.c: permuteQPR, InitRandom, cus_random"]}
{"id": "C76", "title": "White-box tables are correct whatever the clock and the state of the generator", "statement": "WBCRYPTO_wbsm4_gen_table, WBCRYPTO_se_wbsm4_gen_table, WBCRYPTO_wbaes_gen_table and the gen_table functions of both white-box GCM variants, run on the actual generator with its seedings from time(NULL) and randseed, always finish and the tables compute SM4 (contexts without dummy rounds), AES-128 and AES-128-GCM for any message or additional data (for the mask variant: restore what was encrypted).", "quantifier": "every sequence of clock readings, every randseed, every earlier use of the generator, every key and block", "why_tests_cant": "Tests see the seconds in which they run.", "anchors": ["WBMatrix/src/random.c", "WBMatrix/src/WBMatrix.c: genMatpairM32, genaffinepairM32, SetRandSeed", "src/wbsm4/wbsm4_gen.c", "src/wbsm4/se_wbsm4.c", "src/wbaes/wbaes.c", "src/wbaes/wbaes_wbgcm_ee_init.c", "src/wbaes/wbaes_wbgcm_mask_init.c"]}
{"id": "C77", "title": "White-box tables generated twice differ", "statement": "Generating tables again for a key, also in another process, gives tables with fresh random encodings.", "quantifier": "every pair of generations, whatever the generator drew before", "why_tests_cant": "A test that compares two generations in one process passes, as randseed has moved on.", "anchors": ["WBMatrix/src/WBMatrix.c: randM32, genMatpairM32", "src/wbsm4/wbsm4_gen.c:130", "src/wbsm4/se_wbsm4.c:34", "src/wbaes/wbaes.c:82"]}
{"id": "C78", "title": "The encodings of white-box AES cannot be told from outside", "statement": "The input and output encodings of the tables are known only to who generated them.", "quantifier": "every two contexts, keys, randseeds and clocks", "why_tests_cant": "Tests do not compare encodings of contexts for different keys.", "anchors": ["src/wbaes/wbaes.c:WBCRYPTO_wbaes_gen_table", "WBMatrix/src/random.c: InitRandom"]}
{"id": "C79", "title": "The masks of the white-box GCM mask variant cannot be told from outside", "statement": "The masks that hide the AES output inside the two key contexts are known only to who generated them.", "quantifier": "every key, clock, randseed, memory and block", "why_tests_cant": "Tests do not look at the masked values.", "anchors": ["src/wbaes/wbaes_wbgcm_mask_init.c: genRandomMask, aux_WBCRYPTO_wbaes_wbgcm_mask_encrypt"]}
{"id": "C80", "title": "Successive random matrices come from different random numbers", "statement": "No two seedings of the matrix functions give the same random sequence, so that a matrix pair generated after another is not a copy of it.", "quantifier": "every randseed, clock and pair of seedings", "why_tests_cant": "It takes a clock that ticks between two calls.", "anchors": ["WBMatrix/src/WBMatrix.c: randM32, randV32, genMatpairM32, genaffinepairM32", "WBMatrix/src/random.c: InitRandom"]}
{"id": "C81", "title": "Key material does not outlive its use", "statement": "When a function that was given a key returns, and when a context is released, no copy of the key, of its round keys or of the GCM hash subkey is left in memory that the caller cannot reach or clear.", "quantifier": "every key, heap, allocator and random table", "why_tests_cant": "Leftover copies are in blocks no test has a pointer to.", "anchors": ["src/wbsm4/wbsm4_gen.c: WBCRYPTO_wbsm4_gen_table", "src/se_wbsm4/se_wbsm4.c: WBCRYPTO_se_wbsm4_gen_table", "src/modes/gcmfile.c: WBCRYPTO_gcmfile_free", "src/sm4/sm4.c: aux_sm4_init_key"]}
{"id": "C82", "title": "A program that releases what it obtained does not grow", "statement": "After any sequence of calls the memory the library holds is that of the contexts not yet released; in particular a long MySQL query, repeated CBC encryptions or parallel GCM calls do not accumulate memory.", "quantifier": "every sequence of calls of any length on any number of objects", "why_tests_cant": "Each leak is small and invisible in one call.", "anchors": ["src/udf/mysql8.cpp: fpe", "src/modes/cbc128.c: WBCRYPTO_cbc128_encrypt", "src/modes/gcm_parallel.c", "src/aes/aes.c: WBCRYPTO_aes_context_free", "src/sm4/sm4.c: WBCRYPTO_sm4_context_free"]}
{"id": "C83", "title": "Releasing NULL, releasing twice and use after release are harmless or rejected", "statement": "Every release function accepts NULL; a second release has no effect; a context used after its release is rejected.", "quantifier": "every heap and every object of each kind", "why_tests_cant": "A test that triggers it crashes or silently corrupts memory.", "anchors": ["src/fpe/init.c: WBCRYPTO_fpe_free, WBCRYPTO_fpe_mac_free", "src/wbaes/wbaes_wbgcm_ee_mode.c: WBCRYPTO_wbaes_wbgcm_ee_free", "src/modes/gcm128.c: WBCRYPTO_gcm_free"]}
{"id": "C84", "title": "When memory runs out, an initialisation function returns NULL", "statement": "If any request for memory an initialisation or key setup makes is refused, the function reports failure.", "quantifier": "every allocator, heap and arguments", "why_tests_cant": "Tests run with enough memory.", "anchors": ["src/wbsm4/wbsm4.c: WBCRYPTO_wbsm4_context_init", "src/fpe/init.c: WBCRYPTO_fpe_init", "src/modes/gcmfile.c: WBCRYPTO_gcmfile_init", "src/sm4/sm4.c: aux_sm4_init_key", "src/wbaes/wbaes_wbgcm_mask_init.c: WBCRYPTO_wbaes_wbgcm_mask_init_table"]}
{"id": "C85", "title": "A caller that keeps to the rules never meets undefined behaviour", "statement": "Any sequence of context creations, key setups, table generations, GCM, FPE, CBC and parallel calls and releases, each on an object of the right kind that was obtained earlier and not yet released, never accesses memory that is not its own.", "quantifier": "every sequence of calls of any length on any number of objects, in any order", "why_tests_cant": "The number of interleavings of objects and calls is unbounded.", "anchors": ["src/aes/aes.c", "src/sm4/sm4.c", "src/wbsm4/wbsm4.c", "src/wbsm4/wbsm4_gen.c", "src/modes/gcm128.c", "src/modes/gcmfile.c", "src/fpe/init.c"]}
{"id": "C86", "title": "A call changes only the object it is about", "statement": "A call leaves every block of memory of every other object as it was, so that contexts can be used side by side.", "quantifier": "every sequence of calls, every further call and every other object", "why_tests_cant": "Tests use one object at a time.", "anchors": ["src/aes/aes.c", "src/sm4/sm4.c", "src/wbsm4/wbsm4.c", "src/wbsm4/wbsm4_gen.c", "src/modes/gcm128.c", "src/modes/gcmfile.c", "src/fpe/init.c"]}
{"id": "C87", "title": "Format-preserving encryption is confined to the domain of the standard", "statement": "FF1 and FF3 refuse strings for which SP 800-38G does not define them: fewer than 100 strings of the given length, or (FF3) a half of more than 96 bits. Where they do encrypt, every character of the string influences the whole ciphertext.", "quantifier": "every block function, radix, tweak and string within the size limits of the variables", "why_tests_cant": "The defect needs unusual lengths, and the ciphertexts look random when inspected one at a time; that differences pass through unchanged is a statement about all pairs of strings and all ciphers.", "anchors": ["src/fpe/ff1.c:WBCRYPTO_ff1_encrypt", "src/fpe/ff3.c:WBCRYPTO_ff3_encrypt", "src/fpe/ff3.c:WBCRYPTO_ff3_decrypt"]}
{"id": "C88", "title": "A failing block cipher is reported and stops the mode", "statement": "The mode functions take the block cipher as a callback that may fail (return 0).  If it fails on some block, the CBC, GCM and GCM file functions return 0, what was written before the failing block is what the standard prescribes, nothing after it is touched, no plaintext is left in the output of an encryption, and the call can be repeated.", "quantifier": "all block callbacks that fail on any set of blocks, all messages, buffers, IVs and reachable contexts", "why_tests_cant": "Tests use the library's own ciphers, which never fail; the failure paths of all modes are never executed, and a failure may strike at any of unboundedly many blocks.", "anchors": ["src/modes/cbc128.c:WBCRYPTO_cbc128_encrypt", "src/modes/cbc128.c:WBCRYPTO_cbc128_decrypt", "src/modes/gcm128.c:WBCRYPTO_gcm_encrypt", "src/modes/gcm128.c:WBCRYPTO_gcm_decrypt", "src/modes/gcmfile.c:WBCRYPTO_gcmfile_encrypt", "include/wbcrypto/error.h:WBCRYPTO_MPI_CHK"]}
{"id": "C89", "title": "Different keys are different keys", "statement": "Two different keys set up different SM4 contexts, whatever their lengths: no key shorter or longer than 16 bytes stands for another key, and the key schedule maps no two 16-byte keys to the same round keys.", "quantifier": "all pairs of keys of any lengths and all contexts", "why_tests_cant": "Tests set up a few keys of 16 bytes; collisions concern pairs of keys, of which there are unboundedly many.", "anchors": ["src/utils/padding.c:WBCRYPTO_key_padding_pkcs7", "src/utils/padding.c:WBCRYPTO_key_padding_zeros", "src/sm4/sm4.c:WBCRYPTO_sm4_init_key"]}
{"id": "C90", "title": "White-box encryption never reads outside its tables", "statement": "Whatever a white-box context holds - generated, read from a file, damaged or left uninitialised - encrypting a block (and running a session of a white-box GCM variant) reads table entries only inside the arrays of the context: two contexts that agree inside the declared bounds give the same results.", "quantifier": "all contexts with arbitrary contents, all blocks; for the GCM variants all IVs, additional data, lists of pieces, directions and tag lengths", "why_tests_cant": "An out-of-bounds read of a table lands in the next table and usually goes unnoticed; which entries are read depends on the table contents, of which there are far too many.", "anchors": ["src/wbaes/wbaes.c:WBCRYPTO_wbaes_encrypt", "src/wbaes/wbaes_wbgcm_ee_mode.c:WBCRYPTO_wbaes_wbgcm_ee_encrypt", "src/wbaes/wbaes_wbgcm_mask_mode.c:WBCRYPTO_wbaes_wbgcm_mask_encrypt", "src/wbsm4/wbsm4.c:WBCRYPTO_wbsm4_encrypt", "include/wbcrypto/wbaes.h:wbaes_context", "include/wbcrypto/wbsm4.h:wbsm4_context"]}
{"id": "C91", "title": "CBC processes inputs of any length whole", "statement": "CBC encryption and decryption process every byte of the input whatever its length (the length argument is a size_t), or report an error; the reported output length never exceeds the output buffer.", "quantifier": "all lengths above 2^31 - 1, all inputs, buffers, IVs and block functions, separate buffers and in place", "why_tests_cant": "Inputs of more than two gigabytes are not part of a unit test.", "anchors": ["src/modes/cbc128.c:WBCRYPTO_cbc128_encrypt", "src/modes/cbc128.c:WBCRYPTO_cbc128_decrypt", "src/utils/padding.c:WBCRYPTO_padding_pkcs7_merge", "src/utils/padding.c:WBCRYPTO_padding_pkcs7_separate_length", "src/sm4/sm4_modes.c:WBCRYPTO_sm4_cbc_decrypt"]}
{"id": "C92", "title": "File encryption and decryption change no other file", "statement": "WBCRYPTO_gcmfile_encrypt/decrypt and their white-box counterparts change no file but the output file they are given.", "quantifier": "all file systems, paths, contexts, keys, contents", "why_tests_cant": "A test directory holds only the files of the test; whether some other name is touched depends on names a test does not use.", "anchors": ["src/modes/gcmfile.c:WBCRYPTO_gcmfile_encrypt", "src/modes/gcmfile.c:WBCRYPTO_gcmfile_decrypt", "src/wbaes/wbaes_wbgcm_ee_file.c:WBCRYPTO_wbaes_wbgcmfile_ee_encrypt", "src/wbaes/wbaes_wbgcm_mask_file.c"]}
{"id": "C93", "title": "A file of any size that was encrypted with success can be decrypted", "statement": "When WBCRYPTO_gcmfile_encrypt (or its white-box counterpart) returns 1, some context decrypts the container it wrote, whatever the size of the input.", "quantifier": "all file contents of every size, all contexts and keys", "why_tests_cant": "Files of more than two gigabytes are not part of a unit test.", "anchors": ["src/modes/gcmfile.c:WBCRYPTO_gcmfile_encrypt", "src/modes/gcmfile.c:WBCRYPTO_gcmfile_decrypt", "src/wbaes/wbaes_wbgcm_ee_file.c:WBCRYPTO_wbaes_wbgcmfile_ee_encrypt", "src/wbaes/wbaes_wbgcm_mask_file.c"]}
{"id": "C94", "title": "Changing bytes of one block of an authenticated message changes the 16-byte tag", "statement": "After encrypting with GCM, changing any bytes inside one 16-byte block of the additional data or of the ciphertext makes decryption compute a different 16-byte tag, for every key whose hash key (the encryption of the zero block) is not zero.", "quantifier": "all block functions with a non-zero hash key, IVs, additional data, messages and changes within one block", "why_tests_cant": "There are 2^128 hash keys and as many changes of a block; it follows from the multiplication being that of a field.", "anchors": ["src/modes/gcm128.c:WBCRYPTO_gcm_finish", "src/modes/gcm128.c:WBCRYPTO_gcm_decrypt", "src/modes/gcm128.c:WBCRYPTO_gcm_aad", "src/modes/gcm128.c:gcm_mult"]}
{"id": "C95", "title": "A forged GCM message is accepted for few hash keys only", "statement": "For any two different messages under one IV and any change of the t-byte tag, the number of hash keys for which the second message with the changed tag is accepted is at most n * 256^(16-t), where n is one more than the number of blocks of additional data and ciphertext of the longer message.", "quantifier": "all pairs of different messages, tag changes, tag lengths and collections of block functions with distinct hash keys", "why_tests_cant": "It is a statement about all 2^128 hash keys.", "anchors": ["src/modes/gcm128.c:WBCRYPTO_gcm_finish", "src/modes/gcm128.c:WBCRYPTO_gcm_decrypt"]}
{"id": "C96", "title": "GCM treats IVs of every length as the standard prescribes", "statement": "The ciphertext is the one of SP 800-38D for IVs of any length the size_t argument can express.", "quantifier": "all keys, IVs (including those of 2^29 bytes and more), additional data and messages", "why_tests_cant": "A test would need an IV of half a gigabyte.", "anchors": ["src/modes/gcm128.c:WBCRYPTO_gcm_setiv"]}
{"id": "C97", "title": "Different IVs give different keystreams", "statement": "Two different IVs under one key never lead to the same ciphertexts and tags; for 12-byte IVs no block is ever encrypted under both.", "quantifier": "all keys, pairs of different IVs, messages", "why_tests_cant": "Colliding IVs exist but depend on the key; no test finds them by trial.", "anchors": ["src/modes/gcm128.c:WBCRYPTO_gcm_setiv", "src/modes/gcm128.c:WBCRYPTO_gcm_encrypt"]}
{"id": "C98", "title": "Every encoding can be generated", "statement": "For every permutation, every invertible matrix of the sizes 4 to 128 and every affine map with such a matrix there are random numbers from which the generating function returns it; the order of real and dummy rounds of white-box SM4 can be any that ends in a real round.", "quantifier": "all permutations, invertible matrices, affine maps and orders of rounds", "why_tests_cant": "A test samples a few outputs of a generator; which outputs are impossible cannot be sampled.", "anchors": ["WBMatrix/src/WBMatrix.c:genMatpairM32", "WBMatrix/src/WBMatrix.c:genaffinepairM32", "WBMatrix/src/WBMatrix.c:genPermutation4", "src/wbsm4/wbsm4_gen.c:wbsm4_gen_dummyround_array"]}
{"id": "C99", "title": "No matrix is excluded by the library's own generator", "statement": "Every invertible matrix is generated for some value of the seed set with SetRandSeed and some time.", "quantifier": "all sizes, matrices, seeds, clocks and histories", "why_tests_cant": "There are 2^32 seeds and more matrices than that; no test can go through them.", "anchors": ["WBMatrix/src/random.c:InitRandom", "WBMatrix/src/WBMatrix.c:genMatpairM32", "WBMatrix/src/WBMatrix.c:SetRandSeed"]}
{"id": "C100", "title": "Random numbers of the shuffle", "statement": "wRand32 and wRand64 are uniform when rand() is; two processes do not shuffle alike because they started in the same second.", "quantifier": "all results of rand(), all generators behind it, clocks and sequences of shuffles", "why_tests_cant": "Uniformity counts all preimages of every value; the dependence on the clock quantifies over whole runs.", "anchors": ["src/utils/wrandom.c:wRand32", "src/utils/wrandom.c:wRand64", "src/utils/wrandom.c:wRandomShuffleU8", "src/utils/wrandom.c:wRand31"]}
{"id": "C101", "title": "Input and output buffers may overlap", "statement": "GCM and white-box GCM in place or with the output before the input, and CBC with overlapping buffers, write what they write for separate buffers, leave all other memory alone and return the same.", "quantifier": "all memories, positions and lengths of input, output and ivec, all block functions, contexts and both directions", "why_tests_cant": "The result depends on every relative position of the buffers and on their contents; a test tries a few.", "anchors": ["src/modes/gcm128.c:WBCRYPTO_gcm_encrypt", "src/modes/gcm128.c:WBCRYPTO_gcm_decrypt", "src/modes/cbc128.c:WBCRYPTO_cbc128_encrypt", "src/modes/cbc128.c:WBCRYPTO_cbc128_decrypt", "src/wbaes/wbaes_wbgcm_ee_mode.c:WBCRYPTO_wbaes_wbgcm_ee_encrypt", "src/wbaes/wbaes_wbgcm_mask_mode.c:WBCRYPTO_wbaes_wbgcm_mask_encrypt"]}
{"id": "C102", "title": "The GCM tag can be asked for again", "statement": "Calling WBCRYPTO_gcm_finish again, for instance first for a short and then for a full tag, returns the tag of the same message.", "quantifier": "all keys, IVs, additional data, messages, directions and sequences of tag lengths", "why_tests_cant": "That the second tag differs for all but one message of one block per key and IV quantifies over keys and messages.", "anchors": ["src/modes/gcm128.c:WBCRYPTO_gcm_finish"]}
{"id": "C103", "title": "Tampered CBC ciphertexts are rejected", "statement": "WBCRYPTO_cbc128_decrypt returns 0 for a ciphertext or IV that was changed after encryption; if not, the effect of a change on the plaintext is unpredictable.", "quantifier": "all block ciphers, keys, IVs, messages, changed blocks and changed IVs, buffers of all sizes", "why_tests_cant": "That every changed ciphertext is accepted, and which plaintext bits change, quantifies over ciphers, messages and changes.", "anchors": ["src/modes/cbc128.c:WBCRYPTO_cbc128_decrypt", "src/sm4/sm4_modes.c:WBCRYPTO_sm4_cbc_decrypt"]}
{"id": "C104", "title": "CBC ciphertexts show only how far two messages agree", "statement": "Under one key, two CBC ciphertexts agree in their first n blocks exactly when IV and padded messages agree so far, and two ciphertext blocks are equal exactly when plaintext blocks and the blocks chained into them have the same sum.", "quantifier": "all block ciphers, pairs of messages and IVs, numbers of blocks, positions of blocks", "why_tests_cant": "The converse direction (equal ciphertext blocks imply equal inputs) ranges over all messages and ciphers.", "anchors": ["src/modes/cbc128.c:WBCRYPTO_cbc128_encrypt"]}
{"id": "C105", "title": "The length reported by CBC decryption reveals nothing about other messages", "statement": "Learning the output length that WBCRYPTO_sm4_cbc_decrypt or WBCRYPTO_aes_cbc_decrypt reports for chosen ciphertexts does not help to find the plaintext of another ciphertext under the same key.", "quantifier": "all block ciphers, ciphertexts, blocks of them, IVs and buffers", "why_tests_cant": "That a query reveals the last plaintext byte of any block for every key and message is not visible from examples.", "anchors": ["src/utils/padding.c:separate_pad_num", "src/sm4/sm4_modes.c:WBCRYPTO_sm4_cbc_decrypt"]}
{"id": "C106", "title": "Which table entries are read does not depend on keys", "statement": "An observer who learns which table entries the SM4 key schedule, SM4 encryption and decryption, and GHASH read, in order, learns nothing about the key.", "quantifier": "all pairs of keys, blocks, IVs, additional data of more than a block, previous contents of contexts", "why_tests_cant": "Unit tests observe results, not memory accesses, and the claim compares all pairs of keys.", "anchors": ["src/sm4/sm4.c:SM4_T_slow", "src/sm4/sm4.c:SM4_T", "src/sm4/sm4.c:WBCRYPTO_sm4_init_key", "src/modes/gcm128.c:gcm_mult"]}
{"id": "C107", "title": "An SM3 digest does not help to hash longer messages", "statement": "From the digest and the length of a message alone, nobody can compute the digest of a message that begins with it, so that the digest of a secret followed by a text authenticates the text.", "quantifier": "all messages and all bytes appended", "why_tests_cant": "That the extension works for every message, secret and suffix is not visible from test vectors.", "anchors": ["src/sm3/md32_common.h:HASH_FINAL", "src/sm3/md32_common.h:HASH_UPDATE", "src/sm3/sm3.c:WBCRYPTO_sm3"]}
{"id": "C108", "title": "SM3 collisions are collisions of the compression function", "statement": "Two different messages of fewer than 2^61 bytes with one digest yield two different pairs of chaining value and block with one compressed value, at positions found by hashing them.", "quantifier": "all pairs of messages of fewer than 2^61 bytes, of equal or different length", "why_tests_cant": "No collision is known to test with; the reduction is a statement about all pairs.", "anchors": ["src/sm3/sm3.c:sm3_block_data_order", "src/sm3/md32_common.h:HASH_FINAL"]}
{"id": "C109", "title": "An SM3 context can be used for the next message after SM3_Final", "statement": "After SM3_Final, further SM3_Update calls and SM3_Final give the digest of the bytes hashed since, or else of all bytes.", "quantifier": "all pairs of messages", "why_tests_cant": "What the second digest is the digest of, for all messages, is a statement about the whole hash chain.", "anchors": ["src/sm3/md32_common.h:HASH_FINAL", "src/sm3/sm3.c:WBCRYPTO_sm3_init"]}
{"id": "C110", "title": "Every kept character takes part in encrypting the marked ones", "statement": "The marked characters of a phone number, ID number or text are encrypted by NIST's algorithm with all characters that are kept as the tweak, so that two numbers that differ in a kept character are encrypted independently.", "quantifier": "all numbers, samples, texts, keys, ciphers and FFX names", "why_tests_cant": "Which characters reach the tweak, for samples and numbers of every length, is a statement about all pairs of numbers.", "anchors": ["src/fpe_app/phone.c:aux_fpe_phone", "src/fpe_app/idcard.c:aux_fpe_idcard", "src/fpe_app/cn_utf8.c:aux_fpe_cn", "src/fpe/ff3.c:WBCRYPTO_ff3_encrypt"]}
{"id": "C111", "title": "Encrypted numbers and texts are C strings", "statement": "The output of the phone, ID number and Chinese text functions ends with a zero byte, as their input does.", "quantifier": "all numbers, samples, texts and initial contents of the output buffer", "why_tests_cant": "A test whose buffer happens to be zeroed sees a terminator; what matters is every initial content.", "anchors": ["src/fpe_app/phone.c:aux_fpe_phone", "src/fpe_app/idcard.c:aux_fpe_idcard", "src/fpe_app/cn_utf8.c:aux_fpe_cn"]}
{"id": "C112", "title": "FF3 under different tweaks gives unrelated permutations", "statement": "What encryption under one tweak does to numeral strings says nothing about encryption under another tweak.", "quantifier": "all block functions, radixes, tweaks and numeral strings of every length", "why_tests_cant": "The relation between two whole permutations cannot be seen on samples.", "anchors": ["src/fpe/ff3.c:WBCRYPTO_ff3_encrypt", "src/fpe/ff3.c:WBCRYPTO_ff3_decrypt"]}
{"id": "C113", "title": "The FFX mode that is the default is FF3-1", "statement": "Any FFX name but ff1 selects FF3-1 of NIST SP 800-38G Revision 1, with its tweak of 56 bits.", "quantifier": "all block functions, radixes, tweaks and numeral strings", "why_tests_cant": "FF3 and FF3-1 agree on some tweaks; for which is a statement about all tweaks.", "anchors": ["src/fpe_app/phone.c:WBCRYPTO_fpe_encrypt_phone_with_sample", "src/fpe/ff3.c:WBCRYPTO_ff3_encrypt"]}
{"id": "C114", "title": "An IV used again under the same key is refused or does no harm", "statement": "Encrypting a second GCM message with an IV that was used before under the same key is refused, or at least reveals nothing about the plaintexts and does not let anyone who sees both messages compute tags.", "quantifier": "all block functions, IVs, additional data and pairs of messages", "why_tests_cant": "That one attacker procedure works against every key and pair of messages is a universally quantified algebraic fact.", "anchors": ["src/modes/gcm128.c:WBCRYPTO_gcm_setiv", "src/modes/gcm128.c:WBCRYPTO_gcm_encrypt", "src/modes/gcm128.c:WBCRYPTO_gcm_finish"]}
{"id": "C115", "title": "Whoever alters a GCM ciphertext cannot choose what it decrypts to", "statement": "An altered ciphertext or GCM file decrypts to nothing: no plaintext is delivered, or written to the output file, whose alteration the attacker chose.", "quantifier": "all block functions, IVs, additional data, messages, files and alterations", "why_tests_cant": "The statement is about every alteration of every ciphertext.", "anchors": ["src/modes/gcm128.c:WBCRYPTO_gcm_decrypt", "src/modes/gcmfile.c:WBCRYPTO_gcmfile_decrypt"]}
{"id": "C116", "title": "White-box AES tables do not give the key away", "statement": "Whoever holds the tables of a white-box AES key context, but not the key, cannot compute the key from them with practical effort.", "quantifier": "all keys, all random numbers and memory contents of the table generation, the key contexts of white-box AES and of both white-box GCM variants", "why_tests_cant": "That one test finds the key byte for every key and all randomness is a statement about all outcomes of the generator.", "anchors": ["src/wbaes/wbaes.c:WBCRYPTO_wbaes_gen_table", "src/wbaes/wbaes_wbgcm_ee_init.c:WBCRYPTO_wbaes_wbgcm_ee_gen_table", "src/wbaes/wbaes_wbgcm_mask_init.c:WBCRYPTO_wbaes_wbgcm_mask_gen_table"]}
{"id": "C117", "title": "White-box SM4 tables do not give the key away", "statement": "Whoever holds the tables of a white-box SM4 key context, but not the key, cannot compute the key from them with practical effort.", "quantifier": "all keys of any length, all random numbers and memory contents of the table generation, both directions, all numbers of dummy rounds", "why_tests_cant": "That one test finds every key byte for every key and all randomness is a statement about all outcomes of the generator.", "anchors": ["src/wbsm4/wbsm4_gen.c:WBCRYPTO_wbsm4_gen_table", "src/wbsm4/wbsm4.c:WBCRYPTO_wbsm4_encrypt"]}
{"id": "C118", "title": "SE-WBSM4 tables do not give the key away", "statement": "Whoever holds the tables of an SE-WBSM4 key context, but not the key, cannot compute the key from them with practical effort.", "quantifier": "all keys of any length, all random numbers of the table generation, both directions", "why_tests_cant": "That one test finds every key byte for every key and all randomness is a statement about all outcomes of the generator.", "anchors": ["src/se_wbsm4/se_wbsm4.c:WBCRYPTO_se_wbsm4_gen_table", "src/se_wbsm4/se_wbsm4.c:WBCRYPTO_se_wbsm4_encrypt"]}
{"id": "C119", "title": "Encrypted identifiers stay distinct", "statement": "Under one key and one sample, different phone numbers, ID numbers and Chinese texts of one length are encrypted to different strings, and every string of the format is the encryption of some input: encrypting a column of a table keeps it free of duplicates.", "quantifier": "all keys, ciphers and modes, all samples and lengths the functions accept, all pairs of inputs, all uninitialised memory", "why_tests_cant": "Injectivity quantifies over all pairs of inputs, and reaching every string over all of the format.", "anchors": ["src/fpe_app/phone.c:WBCRYPTO_fpe_encrypt_phone_with_sample", "src/fpe_app/idcard.c:WBCRYPTO_fpe_encrypt_idcard", "src/fpe_app/cn_utf8.c:WBCRYPTO_fpe_encrypt_cn_utf8_with_sample"]}
{"id": "C120", "title": "Encrypted ID numbers are ID numbers", "statement": "Encrypting a well-formed ID number gives a well-formed one: the check digit is right and the date of birth is a date.", "quantifier": "all keys and samples, all well-formed ID numbers", "why_tests_cant": "A test checks the numbers it encrypts.", "anchors": ["src/fpe_app/idcard.c:WBCRYPTO_fpe_encrypt_idcard"]}
{"id": "C121", "title": "FF1-CMAC tags are as hard to guess as their length suggests", "statement": "A tag of format-preserving encryption with CMAC has sixteen bytes, so that a guessed tag is right with a chance of about one in 2^128 and equal tags appear only after about 2^64 messages.", "quantifier": "all keys and ciphers, all numeral strings, lengths, radices and tweaks, all uninitialised memory", "why_tests_cant": "It is about the set of all tags under one key.", "anchors": ["src/fpe/ff1_cmac.c:WBCRYPTO_ff1_cmac_encrypt"]}
{"id": "C122", "title": "A white-box context made for one direction cannot be used for the other", "statement": "Handing out a white-box context for encryption does not enable anyone to decrypt, and one for decryption does not enable anyone to encrypt.", "quantifier": "all keys, all random numbers used in generation, all blocks", "why_tests_cant": "It is about every procedure that could be applied to the tables.", "anchors": ["src/wbaes/wbaes.c:WBCRYPTO_wbaes_gen_table", "src/wbsm4/wbsm4_gen.c:WBCRYPTO_wbsm4_gen_table", "src/se_wbsm4/se_wbsm4.c:WBCRYPTO_se_wbsm4_gen_table"]}
{"id": "C123", "title": "An FF3-GMAC tag vouches for the tweak", "statement": "A tag made by format-preserving encryption with GMAC is valid for the tweak it was made with: without the key nobody can turn it into a tag for another tweak, and tags do not give the hash key away.", "quantifier": "all keys and ciphers, all numeral strings and radices, all pairs of tweaks", "why_tests_cant": "It is about what can be computed from tags, for all strings and tweaks.", "anchors": ["src/fpe/ff3_gmac.c:WBCRYPTO_ff3_gmac_encrypt"]}
{"id": "C124", "title": "A white-box SM4 context made for the other direction is refused", "statement": "Decrypting with a white-box SM4 or SE-WBSM4 context that was made for encryption, or using one made for decryption with GCM, fails instead of returning wrong data.", "quantifier": "all keys, all random numbers used in generation, all blocks, messages, IVs and additional data", "why_tests_cant": "A test uses the contexts as intended, on a few messages.", "anchors": ["src/wbsm4/wbsm4.c:WBCRYPTO_wbsm4_decrypt", "src/se_wbsm4/se_wbsm4.c:WBCRYPTO_se_wbsm4_decrypt", "src/wbsm4/wbsm4_modes.c:WBCRYPTO_wbsm4_cbc_decrypt", "src/wbsm4/wbsm4_modes.c:WBCRYPTO_wbsm4_gcm_init"]}
{"id": "C125", "title": "A white-box SM4 key file does not give the key away", "statement": "The file to which a white-box SM4 context is exported can be handed out without the key becoming known.", "quantifier": "all keys, all random numbers used in generation, both directions, all numbers of dummy rounds, all uninitialised memory", "why_tests_cant": "It is about what can be computed from every such file.", "anchors": ["src/wbsm4/wbsm4_exkey.c:WBCRYPTO_wbsm4_key2file", "src/wbsm4/wbsm4_exkey.c:WBCRYPTO_wbsm4_file2key", "src/wbsm4/wbsm4_gen.c:WBCRYPTO_wbsm4_gen_table"]}
{"id": "C126", "title": "A GCM file context can be used for file after file", "statement": "One file context encrypts and decrypts any number of files, each as a new context would, and decrypts the file it has just encrypted.", "quantifier": "all block ciphers, IVs, additional data, files and sequences of earlier calls, failed ones included", "why_tests_cant": "It is about all histories of a context.", "anchors": ["src/modes/gcmfile.c:WBCRYPTO_gcmfile_encrypt", "src/modes/gcmfile.c:WBCRYPTO_gcmfile_decrypt", "src/modes/gcmfile.c:WBCRYPTO_gcmfile_setiv", "src/modes/gcmfile.c:WBCRYPTO_gcmfile_aad"]}
{"id": "C127", "title": "A white-box GCM context can be used for message after message", "statement": "After any calls on a white-box GCM context, setiv(iv) followed by further calls behaves as on a new context of the same key.", "quantifier": "both variants, all keys and tables, all histories of calls on data and files, all IVs, additional data and messages", "why_tests_cant": "It is about all histories of a context.", "anchors": ["src/wbaes/wbaes_wbgcm_ee_mode.c", "src/wbaes/wbaes_wbgcm_mask_mode.c", "src/wbaes/wbaes_wbgcm_ee_file.c", "src/wbaes/wbaes_wbgcm_mask_file.c"]}
{"id": "C128", "title": "A receiver with ee white-box tables notices every change within one block", "statement": "If a message is encrypted with white-box GCM (variant ee) and the receiver, with any ee tables of the same key, is given additional data or a ciphertext that differ from the sent ones within one block of sixteen bytes, the tag the receiver computes differs from the sent one.", "quantifier": "all keys whose hash key is not zero, all tables of sender and receiver, all IVs, additional data and messages within the limits of GCM that are not both empty, all changes within one block", "why_tests_cant": "It ranges over all keys, tables, messages and changes.", "anchors": ["src/wbaes/wbaes_wbgcm_ee_mode.c", "src/wbaes/wbaes_wbgcm_ee_init.c"]}
{"id": "C129", "title": "An IV used again with the same white-box GCM tables is refused or does no harm", "statement": "Encrypting a second message with white-box GCM under the same tables and the same IV is refused, or at least reveals nothing about the plaintexts and does not let anyone who sees both outputs compute tags.", "quantifier": "both variants, all keys and tables, all IVs, additional data and messages within the limits of GCM", "why_tests_cant": "It is about all keys, tables and pairs of messages, and about what can be computed from the outputs.", "anchors": ["src/wbaes/wbaes_wbgcm_ee_mode.c", "src/wbaes/wbaes_wbgcm_mask_mode.c"]}
