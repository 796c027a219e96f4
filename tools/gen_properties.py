#!/usr/bin/env python3
"""Writes /verif/properties.jsonl from the list below (one JSON object per line)."""
import json, os
P = []
def p(id, title, statement, quantifier, why, *anchors):
    P.append(dict(id=id, title=title, statement=statement, quantifier=quantifier,
                  why_tests_cant=why, anchors=list(anchors)))

p("C01", "CBC decryption inverts CBC encryption",
  "WBCRYPTO_cbc128_encrypt followed by WBCRYPTO_cbc128_decrypt with the same IV value and the matching block cipher "
  "pair succeeds and yields the original message, including the plaintext length that the *_cbc_decrypt wrappers report "
  "in *use_olen.",
  "every message of every length, every IV, every pair of mutually inverse 16-byte block functions, every sufficiently large output capacity",
  "Message contents, lengths and keys are unbounded; the failing class (length a multiple of 16 whose last byte is 1..16) is a tiny fraction of random messages.",
  "src/modes/cbc128.c:WBCRYPTO_cbc128_encrypt", "src/modes/cbc128.c:WBCRYPTO_cbc128_decrypt",
  "src/utils/padding.c:WBCRYPTO_padding_pkcs7_separate_length", "src/sm4/sm4_modes.c:WBCRYPTO_sm4_cbc_decrypt")
p("C02", "PKCS#7 padding is uniquely removable",
  "WBCRYPTO_padding_pkcs7_separate (and _separate_length) applied to the result of WBCRYPTO_padding_pkcs7_merge gives back the message; "
  "two different messages never pad to the same byte string.",
  "every byte string",
  "An injectivity claim over all pairs of byte strings.",
  "src/utils/padding.c:WBCRYPTO_padding_pkcs7_merge", "src/utils/padding.c:WBCRYPTO_padding_pkcs7_separate",
  "src/utils/padding.c:WBCRYPTO_padding_pkcs7_separate_length")
p("C03", "CBC encryption equals SP 800-38A CBC of the padded message and respects the output capacity",
  "When max_olen is at least the padded length the call returns 1, writes exactly C_1..C_n with C_i = E(P_i xor C_{i-1}), C_0 = IV, over the padded "
  "message, reports that length in *use_olen and writes nothing past it; when max_olen is smaller it returns 0 and leaves output, "
  "*use_olen and IV untouched.",
  "every message, IV, block function and capacity",
  "Quantifies over all lengths and all capacities around the boundary.",
  "src/modes/cbc128.c:WBCRYPTO_cbc128_encrypt")
p("C04", "CBC decryption in place equals CBC decryption between distinct buffers",
  "Calling WBCRYPTO_cbc128_decrypt with in == out gives the same plaintext and leaves the same value in ivec as with disjoint buffers.",
  "every block-aligned ciphertext, IV and block function",
  "The two code paths differ; agreement must hold for every number of blocks.",
  "src/modes/cbc128.c:WBCRYPTO_cbc128_decrypt")
p("C05", "CBC decryption can be continued across calls",
  "Decrypting a ciphertext in consecutive block-aligned pieces with the same ivec buffer gives the same plaintext and the same final ivec as one call "
  "on the whole ciphertext.",
  "every block-aligned ciphertext and every way to cut it into block-aligned pieces",
  "All histories of calls on one ivec buffer.",
  "src/modes/cbc128.c:WBCRYPTO_cbc128_decrypt")
p("C06", "CBC encryption can be continued across calls",
  "Encrypting a block-aligned message in consecutive pieces with the same ivec buffer gives the same ciphertext as one call, as the decrypting side does.",
  "every block-aligned message and every way to cut it",
  "All histories of calls on one ivec buffer.",
  "src/modes/cbc128.c:WBCRYPTO_cbc128_encrypt")
p("C07", "CBC decryption touches only the caller's buffers",
  "For every inlen the decrypt functions read only in[0..inlen) and write only out[0..inlen) (and the wrappers inspect only out[0..inlen)).",
  "every input length including 0 and lengths that are not a multiple of 16",
  "Out-of-bounds reads are invisible to functional tests; the claim covers all lengths.",
  "src/modes/cbc128.c:WBCRYPTO_cbc128_decrypt", "src/sm4/sm4_modes.c:WBCRYPTO_sm4_cbc_decrypt")
p("C08", "The table-driven GHASH multiplication is multiplication in GF(2^128)",
  "For every hash key H and block X, the 4-bit table method (tables built by WBCRYPTO_gcm_init, product by gcm_mult) returns X*H in GF(2^128) as "
  "defined by SP 800-38D section 6.3.",
  "all 2^128 x 2^128 operands",
  "The operand space is 2^256.",
  "src/modes/gcm128.c:gcm_mult", "src/modes/gcm128.c:WBCRYPTO_gcm_init", "include/wbcrypto/modes.h:last4")
p("C09", "GCM encryption and tag conform to SP 800-38D",
  "init, setiv, one aad call, one encrypt call, finish produce the ciphertext GCTR(inc32(J0), P) and the tag MSB_t(GHASH(A,C) xor E(J0)) of the standard.",
  "every block function, IV of any non-zero length, AAD, plaintext and tag length up to 16 (lengths below the 32-bit limits of the interface)",
  "Unbounded data and an arbitrary block cipher.",
  "src/modes/gcm128.c:WBCRYPTO_gcm_setiv", "src/modes/gcm128.c:WBCRYPTO_gcm_aad",
  "src/modes/gcm128.c:WBCRYPTO_gcm_encrypt", "src/modes/gcm128.c:WBCRYPTO_gcm_finish")
p("C10", "GCM decryption inverts encryption and reproduces the tag",
  "Decrypting with a context prepared with the same key, IV and AAD returns the plaintext, and WBCRYPTO_gcm_finish on the decrypting side returns the same tag.",
  "every block function, IV, AAD and sequence of plaintext pieces",
  "All messages and all histories of calls.",
  "src/modes/gcm128.c:WBCRYPTO_gcm_decrypt", "src/modes/gcm128.c:WBCRYPTO_gcm_finish")
p("C11", "GCM data may be fed in pieces",
  "Splitting the data over several WBCRYPTO_gcm_encrypt (or decrypt) calls gives the same ciphertext and tag as a single call.",
  "every message and every way to cut it into pieces",
  "All cut positions of all messages; tests use a handful.",
  "src/modes/gcm128.c:WBCRYPTO_gcm_encrypt")
p("C12", "A GCM context can be reused after setiv",
  "After any history of calls on a context, setiv(iv) followed by further calls behaves as on a freshly initialised context with the same key.",
  "every history of calls",
  "All call histories.",
  "src/modes/gcm128.c:WBCRYPTO_gcm_setiv")
p("C13", "GCM additional data may be fed in pieces",
  "Splitting the AAD over several WBCRYPTO_gcm_aad calls gives the same tag as a single call with the concatenation.",
  "every AAD and every way to cut it",
  "All cuts of all strings.",
  "src/modes/gcm128.c:WBCRYPTO_gcm_aad")
p("C14", "GCM never reuses a counter block within a message",
  "Within one message of at most 2^32-2 blocks the counter blocks fed to the block function are pairwise distinct and differ from the block used for the tag; "
  "the first 12 bytes never change.",
  "every starting counter block and every message length up to 2^32-2 blocks",
  "4 billion blocks per message and 2^128 start values.",
  "src/modes/gcm128.c:WBCRYPTO_gcm_encrypt")
p("C15", "Rejected GCM calls have no effect",
  "WBCRYPTO_gcm_encrypt/decrypt with outlen < inlen returns 0 and leaves the context and the output buffer unchanged.",
  "every context state, every input and capacity",
  "All context states.",
  "src/modes/gcm128.c:WBCRYPTO_gcm_encrypt", "src/modes/gcm128.c:WBCRYPTO_gcm_decrypt")
p("C16", "Parallel GCM encryption equals sequential GCM encryption under every thread schedule",
  "WBCRYPTO_gcm_parallel_encrypt produces the same output, context state and return value as WBCRYPTO_gcm_encrypt whatever the interleaving of the OpenMP threads.",
  "every input, every number of blocks, every interleaving of the worker threads",
  "Schedules are not controllable from a test.",
  "src/modes/gcm_parallel.c:WBCRYPTO_gcm_parallel_encrypt")
p("C17", "Parallel GCM decryption authenticates like sequential GCM decryption",
  "WBCRYPTO_gcm_parallel_decrypt leaves the context in the same state (hence the same tag) as WBCRYPTO_gcm_decrypt.",
  "every ciphertext",
  "All inputs; the existing tests do not compare tags.",
  "src/modes/gcm_parallel.c:WBCRYPTO_gcm_parallel_decrypt")
p("C18", "GCM file encryption round-trips every file",
  "WBCRYPTO_gcmfile_decrypt of the file written by WBCRYPTO_gcmfile_encrypt (same key, IV, AAD) returns 1 and recreates the original file byte for byte, "
  "the temporary file is removed, and the container is tag || 8-byte length || ciphertext.",
  "every file content below 2^31 bytes, every key, IV, AAD",
  "All file sizes around the 128-byte slice boundary and all contents.",
  "src/modes/gcmfile.c:WBCRYPTO_gcmfile_encrypt", "src/modes/gcmfile.c:WBCRYPTO_gcmfile_decrypt")
p("C19", "GCM file decryption rejects tampered files",
  "If the tag or any ciphertext byte of the container is changed, WBCRYPTO_gcmfile_decrypt returns 0.",
  "every container and every modification",
  "A universally quantified rejection property.",
  "src/modes/gcmfile.c:WBCRYPTO_gcmfile_decrypt")
p("C20", "GCM file decryption detects truncation and extension",
  "If the number of ciphertext bytes in the container differs from the recorded length, WBCRYPTO_gcmfile_decrypt returns 0; otherwise it returns 1.",
  "every container of at least 17 bytes",
  "All container sizes and recorded lengths.",
  "src/modes/gcmfile.c:WBCRYPTO_gcmfile_decrypt")
p("C21", "SM4 conforms to GM/T 0002-2012",
  "WBCRYPTO_sm4_init_key + WBCRYPTO_sm4_encrypt compute the 32-round SM4 function of the standard (key expansion with FK/CK, tau, L, L', reverse transform) and "
  "WBCRYPTO_sm4_decrypt the same with reversed round keys.",
  "every 128-bit key and every block",
  "2^256 combinations; the implementation uses a precomputed 256x32 table and unrolled rounds.",
  "src/sm4/sm4.c")
p("C22", "SM4 decryption inverts encryption",
  "WBCRYPTO_sm4_decrypt(WBCRYPTO_sm4_encrypt(b)) = b and conversely, for one context.",
  "every key (any length) and every block",
  "2^256 combinations.",
  "src/sm4/sm4.c:WBCRYPTO_sm4_encrypt", "src/sm4/sm4.c:WBCRYPTO_sm4_decrypt")
p("C23", "SM4 key normalisation",
  "A key shorter than 16 bytes is extended with bytes equal to the number of missing bytes, a longer key is truncated to its first 16 bytes; no byte beyond keylen is read and "
  "the resulting context is that of the normalised 16-byte key.",
  "every key of every length",
  "All key lengths and contents.",
  "src/sm4/sm4.c:WBCRYPTO_sm4_init_key", "src/utils/padding.c:key_padding_pkcs7")
p("C24", "SM3 hashing is independent of how the message is cut",
  "init, any sequence of update calls, final gives the digest of the concatenation.",
  "every sequence of pieces (any number, any lengths including 0)",
  "All cuts of all messages.",
  "src/sm3/sm3.c", "src/sm3/md32_common.h:HASH_UPDATE", "src/sm3/md32_common.h:HASH_FINAL")
p("C25", "SM3 conforms to GM/T 0004-2012",
  "The digest equals the SM3 function of the standard (padding, message expansion, compression) for messages shorter than 2^61 bytes.",
  "every message",
  "Unbounded messages; the implementation unrolls and renames 64 rounds.",
  "src/sm3/sm3.c", "src/sm3/sm3_local.h", "src/sm3/md32_common.h")
p("C26", "FF1 decryption inverts encryption",
  "WBCRYPTO_ff1_decrypt(WBCRYPTO_ff1_encrypt(s)) = s.",
  "every radix 2..36, tweak, block function and numeral string of length >= 2 over the radix's lower-case alphabet",
  "Unbounded strings, tweaks and block functions.",
  "src/fpe/ff1.c:WBCRYPTO_ff1_encrypt", "src/fpe/ff1.c:WBCRYPTO_ff1_decrypt")
p("C27", "FF1 preserves the format",
  "The output has the same length as the input and consists of characters of the radix's alphabet, followed by a NUL.",
  "as C26",
  "Unbounded strings.",
  "src/fpe/ff1.c", "src/fpe/fpe_locl.c:inverse_map_chars")
p("C28", "FF1 conforms to SP 800-38G",
  "The output is FF1.Encrypt(K, T, X) of the standard for the given radix (with the block function as CIPH_K).",
  "as C26 (and radix^minlen limits ignored)",
  "Unbounded strings.",
  "src/fpe/ff1.c:WBCRYPTO_ff1_encrypt")
p("C29", "FF3 decryption inverts encryption and preserves the format",
  "WBCRYPTO_ff3_decrypt(WBCRYPTO_ff3_encrypt(s)) = s, same length, same alphabet.",
  "every radix 2..36, tweak of at least 8 bytes, block function and non-empty numeral string",
  "Unbounded strings, tweaks and block functions.",
  "src/fpe/ff3.c:WBCRYPTO_ff3_encrypt", "src/fpe/ff3.c:WBCRYPTO_ff3_decrypt")
p("C30", "FF3 conforms to SP 800-38G",
  "The output is FF3.Encrypt(T, X) of the standard for a 64-bit tweak, where the block function plays the role of REVB o CIPH_REVB(K) o REVB up to the key reversal, "
  "which the caller is responsible for.",
  "every radix, 8-byte tweak, and numeral string whose half fits 96 bits",
  "Unbounded inputs.",
  "src/fpe/ff3.c:WBCRYPTO_ff3_encrypt")
p("C31", "FPE rejects input outside the alphabet",
  "Strings containing a character that is not a digit of the radix are rejected or at least do not corrupt memory.",
  "every byte string",
  "Quantifies over all invalid inputs.",
  "src/fpe/fpe_locl.c:map_chars", "src/fpe/ff1.c", "src/fpe/ff3.c")
p("C32", "FF1-CMAC and FF3-GMAC encrypt like FF1/FF3 and both sides compute the same tag",
  "The ciphertext equals that of the plain mode; decryption returns the plaintext; the tag computed while decrypting equals the tag computed while encrypting.",
  "every radix, tweak, block function and numeral string",
  "Unbounded inputs; depends on tweak length.",
  "src/fpe/ff1_cmac.c", "src/fpe/ff3_gmac.c")
p("C33", "Phone number encryption keeps the unmasked positions and round-trips",
  "WBCRYPTO_fpe_encrypt_phone changes only the positions marked '*' in the sample, puts decimal digits there, and WBCRYPTO_fpe_decrypt_phone with the same sample restores the number.",
  "every digit string and every sample of the same length with at least two stars",
  "All numbers and all masks.",
  "src/fpe_app/phone.c")
p("C34", "ID card encryption keeps the unmasked positions, the trailing X, and round-trips",
  "As C33 for 18-character ID numbers with an optional trailing 'X'.",
  "every ID number and every sample",
  "All numbers and all masks.",
  "src/fpe_app/idcard.c")
p("C35", "Chinese text encryption maps CJK characters to CJK characters and round-trips",
  "WBCRYPTO_fpe_encrypt_cn_utf8 maps 3-byte UTF-8 characters U+4E00..U+9EFF at starred positions to characters in the same range, keeps the other characters, and decryption restores the text.",
  "every string of such characters and every sample with one mark per character",
  "20736^n strings.",
  "src/fpe_app/cn_utf8.c", "src/fpe_app/utf8_util.c")
p("C36", "The FPE application functions stay inside their buffers",
  "No call with valid arguments reads or writes outside the arrays involved.",
  "every valid number and sample",
  "A one-byte stack overflow does not show up in functional tests.",
  "src/fpe_app/phone.c", "src/fpe_app/idcard.c", "src/fpe/fpe_locl.c:inverse_map_chars")
p("C37", "Generated matrix pairs are mutually inverse",
  "genMatpairM4, M8, M16, M32, M64 and M128 (and genaffinepairM4 to M128) return matrices (affine maps) that are inverse to each other whatever the random number generator returns, and never overrun the trail buffer.",
  "every sequence of random numbers",
  "2^1024 random matrices, including all singular ones.",
  "WBMatrix/src/WBMatrix.c:genMatpairM8", "WBMatrix/src/WBMatrix.c:genMatpairM32", "WBMatrix/src/WBMatrix.c:genaffinepairM32")
p("C38", "Matrix inversion and the invertibility test are exact",
  "isinvertMn(A) = 1 exactly when A has an inverse over GF(2), and then invsMn returns it.",
  "every matrix, n = 4, 8, 16, 32, 64, 128",
  "2^(n*n) matrices.",
  "WBMatrix/src/WBMatrix.c:isinvertM8", "WBMatrix/src/WBMatrix.c:invsM8")
p("C39", "Generated permutations are permutations with their inverses",
  "genPermutation4/genPermutation8 return a bijection of 0..15 / 0..255 and its inverse whatever the random numbers are; wRandomShuffleU8 only permutes its array.",
  "every sequence of random numbers",
  "All random outcomes.",
  "WBMatrix/src/WBMatrix.c:genPermutation4", "WBMatrix/src/WBMatrix.c:genPermutation8", "src/utils/wrandom.c:wRandomShuffleU8")
p("C40", "Matrix algebra functions compute GF(2) algebra",
  "MatMulNum is linear, MatMulMat is composition, affinemix is composition of affine maps, MatrixcomM8to32/affinecomM8to32 and the other concatenations act block by block, xorU8..xorU128 compute parity.",
  "every matrix and vector",
  "2^1024 matrices.",
  "WBMatrix/src/WBMatrix.c:MatMulMatM32", "WBMatrix/src/WBMatrix.c:affinemixM32", "WBMatrix/src/WBMatrix.c:affinecomM8to32")
p("C41", "White-box SM4 without dummy rounds computes SM4",
  "For a context made with dummyrounds = 0, WBCRYPTO_wbsm4_encrypt equals SM4 encryption (encmode 1) or decryption (encmode 0) under the key.",
  "every key, block and every outcome of the random number generator",
  "All randomness (tens of thousands of random bits) times all keys and blocks.",
  "src/wbsm4/wbsm4_gen.c:WBCRYPTO_wbsm4_gen_table", "src/wbsm4/wbsm4.c:WBCRYPTO_wbsm4_encrypt")
p("C42", "White-box SM4 with dummy rounds computes SM4",
  "The same for every number of dummy rounds and every placement of them.",
  "every dummyrounds >= 0, key, block, random outcome and every content of freshly allocated memory",
  "Depends on uninitialised heap contents and on random placement.",
  "src/wbsm4/wbsm4_gen.c:WBCRYPTO_wbsm4_gen_table", "src/wbsm4/wbsm4_gen.c:wbsm4_gen_dummyround_array")
p("C43", "White-box SM4 key files round-trip",
  "WBCRYPTO_wbsm4_file2key of a file written by WBCRYPTO_wbsm4_key2file into a context with the same number of rounds restores every table, so both contexts encrypt identically; a wrong header or a short file is rejected.",
  "every context, every file",
  "All table contents; all truncation points.",
  "src/wbsm4/wbsm4_exkey.c")
p("C44", "Self-equivalence white-box SM4 computes SM4",
  "WBCRYPTO_se_wbsm4_encrypt equals SM4 encryption/decryption under the key.",
  "every key, block and every random outcome (including every choice among the 2039 stored self-equivalences)",
  "All randomness.",
  "src/se_wbsm4/se_wbsm4.c", "src/se_wbsm4/se_wbsm4_local.c:SE_initial")
p("C45", "White-box AES computes AES-128",
  "WBCRYPTO_wbaes_encrypt with tables from WBCRYPTO_wbaes_gen_table equals AES-128 (FIPS 197) under the key.",
  "every key, block and every random outcome",
  "All randomness (mixing bijections and 4-bit encodings).",
  "src/wbaes/wbaes.c", "src/wbaes/wbaes_local.c")
p("C46", "White-box AES-GCM (external encoding variant) computes AES-GCM",
  "wbgcm_ee init/setiv/aad/encrypt/finish equal standard AES-128-GCM, and decrypt inverts encrypt.",
  "every key, IV, AAD, message and every random outcome",
  "All randomness and all messages.",
  "src/wbaes/wbaes_wbgcm_ee_init.c", "src/wbaes/wbaes_wbgcm_ee_mode.c")
p("C47", "White-box AES-GCM (masking variant) round-trips",
  "Data encrypted with the encryption tables is recovered with the decryption tables generated together with them, and both sides agree on the tag.",
  "every key, IV, AAD, message and every random outcome",
  "All randomness and all messages.",
  "src/wbaes/wbaes_wbgcm_mask_init.c", "src/wbaes/wbaes_wbgcm_mask_mode.c")
p("C48", "AES decryption inverts AES encryption",
  "WBCRYPTO_aes_decrypt(WBCRYPTO_aes_encrypt(b)) = b for a context initialised with WBCRYPTO_aes_init_key.",
  "every key and block",
  "2^256 combinations.",
  "src/aes/aes.c")
p("C49", "Key store files round-trip",
  "The key store read function returns the bytes stored by the write function.",
  "every byte string and length",
  "All contents and lengths.",
  "src/utils/keystore.c")
p("C50", "The MySQL fpe() function validates and routes its arguments",
  "The UDF accepts only the documented modes and lengths, rejects everything else, and for accepted phone/idcard arguments returns a value of the same length.",
  "every argument tuple",
  "All argument combinations.",
  "udf/mysql8.cpp")
p("C51", "CBC encryption is memory-safe whatever the allocator does",
  "WBCRYPTO_cbc128_encrypt never reads freed memory, whether or not realloc moves the padded copy of the message.",
  "every message and every allocator behaviour the C standard allows",
  "The allocator's choice is not visible to a test and rarely exercised.",
  "src/modes/cbc128.c:WBCRYPTO_cbc128_encrypt", "src/utils/padding.c:WBCRYPTO_padding_pkcs7_merge")
p("C52", "A successful GCM call has processed all of its input",
  "When WBCRYPTO_gcm_encrypt/decrypt return 1, inlen bytes have been written to out.",
  "every input length a size_t can express",
  "Tests do not pass multi-gigabyte buffers.",
  "src/modes/gcm128.c:WBCRYPTO_gcm_encrypt", "src/modes/gcm128.c:WBCRYPTO_gcm_decrypt")
p("C53", "GCM file functions report unopenable files",
  "When an input file is missing, an output file cannot be created, or the container is too short for its header, WBCRYPTO_gcmfile_encrypt/decrypt return 0.",
  "every file system state and every pair of paths",
  "The failing paths are undefined behaviour that usually shows as a crash or as nothing at all.",
  "src/modes/gcmfile.c:WBCRYPTO_gcmfile_encrypt", "src/modes/gcmfile.c:WBCRYPTO_gcmfile_decrypt")
p("C54", "GCM file encryption never destroys data silently",
  "When WBCRYPTO_gcmfile_encrypt returns 1 the container it wrote holds the whole input, also when input and output path are the same file.",
  "every file content and every pair of paths",
  "Path aliasing is a corner of the input space tests do not explore.",
  "src/modes/gcmfile.c:WBCRYPTO_gcmfile_encrypt")
p("C55", "The SM4 modes are the standard modes over SM4",
  "A GCM session on a context from WBCRYPTO_sm4_gcm_init computes SM4-GCM, WBCRYPTO_sm4_cbc_encrypt computes CBC-SM4 of the padded message, both under the normalised key, and each decrypts back.",
  "every key of every length, every IV, AAD and message within the interface limits",
  "The message, key and IV spaces are unbounded; a vector only checks one point of the composition.",
  "src/sm4/sm4_modes.c", "src/modes/gcm128.c", "src/modes/cbc128.c", "src/sm4/sm4.c")

p("C56", "FPE contexts exist exactly for radices 2 to 36, and valid calls return",
  "WBCRYPTO_fpe_init returns a context iff 2 <= radix <= 36; encryption and decryption of a valid numeral string then return normally instead of aborting the process or reading outside the tweak.",
  "every radix, tweak and numeral string",
  "The aborting combinations are isolated points of the (tweak length, radix, length) space.",
  "src/fpe/init.c:WBCRYPTO_fpe_init", "src/fpe/ff1.c:WBCRYPTO_ff1_encrypt", "src/fpe/ff3.c:WBCRYPTO_ff3_encrypt", "src/fpe/ff3_gmac.c:WBCRYPTO_ff3_gmac_encrypt")

p("C57", "The FPE application context is determined by the key and the names",
  "WBCRYPTO_fpe_app_init uses the first 16 key bytes; shorter keys give a determined key as well; unknown cipher names mean AES, unknown modes FF3.",
  "every key, key length and pair of names",
  "A key completed with leftover stack contents usually works within one process run.",
  "src/fpe_app/init.c:WBCRYPTO_fpe_app_init")
p("C58", "Chinese text may contain other characters at the kept positions",
  "Encrypting and decrypting text restores it when the kept characters are arbitrary 3-byte UTF-8 characters.",
  "every text and sample",
  "Whether uninitialised memory happens to agree between two calls depends on the run.",
  "src/fpe_app/cn_utf8.c:aux_fpe_cn", "src/fpe_app/utf8_util.c:utf8IntToCharDuodecimal")
p("C59", "The MySQL function copes with what MySQL passes",
  "Arguments are delimited by their lengths, not by a terminator; errors are reported without writing past the caller's arrays.",
  "every argument memory layout",
  "MySQL usually passes terminated strings in tests with constants.",
  "udf/mysql8.cpp:fpe", "udf/mysql5.cpp:fpe")

p("C60","The byte shuffle can produce every arrangement","For every arrangement of an array of distinct bytes there are random numbers for which wRandomShuffleU8 produces it.","every array and every sequence of random numbers","A statement about the set of reachable results over all generator outputs.","src/utils/wrandom.c:wRandomShuffleU8")
p("C61", "CBC and GCM over white-box SM4 are CBC and GCM over SM4",
  "A GCM session or a CBC encryption keyed with white-box tables generated for encryption gives what the modes over SM4 give under the key; CBC decryption with tables generated for decryption returns the message.",
  "every key, IV, additional data, message and every outcome of the random number generator",
  "All messages, keys and random outcomes of the table generation.",
  "src/wbsm4/wbsm4_modes.c", "src/wbsm4/wbsm4_gen.c:WBCRYPTO_wbsm4_gen_table")
p("C62", "The stored affine maps are self-equivalences of the SM4 S-box",
  "For each of the 2039 stored pairs (A, B) and every byte x, B(S(A(x))) = S(x).",
  "every stored pair and every byte",
  "One wrong constant among 36,702 affects only the executions that draw its entry.",
  "src/se_wbsm4/se_wbsm4_local.c:SE_initial", "src/se_wbsm4/se_wbsm4_local.h:sm4_sbox")
p("C63", "AES keys are read within the length given",
  "WBCRYPTO_aes_init_key(ctx, key, keylen) reads no more than keylen bytes at key, and the schedule it sets up depends on these bytes only.",
  "every key buffer and every length",
  "An over-read is undefined behaviour that usually goes unnoticed.",
  "src/aes/aes.c:WBCRYPTO_aes_init_key")
p("C64", "The AES modes are the standard modes over AES-128",
  "A GCM session on a context from WBCRYPTO_aes_gcm_init computes AES-128-GCM, WBCRYPTO_aes_cbc_encrypt computes CBC-AES of the padded message, and WBCRYPTO_aes_cbc_decrypt returns the message.",
  "every key, IV, additional data and message within the interface limits",
  "The message, key and IV spaces are unbounded.",
  "src/aes/aes_modes.c", "src/aes/aes.c", "src/modes/gcm128.c", "src/modes/cbc128.c")
p("C65", "White-box AES keys are read within their length",
  "WBCRYPTO_wbaes_gen_table reads only the caller's key bytes, whatever their number.",
  "every key buffer",
  "An over-read is undefined behaviour that usually goes unnoticed.",
  "src/wbaes/wbaes.c:WBCRYPTO_wbaes_gen_table", "src/wbaes/wbaes_local.c:expandKey")
p("C66", "The modes over white-box AES are the modes over AES-128",
  "A GCM session, a GCM file encryption or a CBC encryption keyed with white-box AES tables gives what the mode over AES-128 gives under the key.",
  "every key, IV, additional data, message and every outcome of the random number generator",
  "All messages, keys and random outcomes of the table generation.",
  "src/wbaes/wbaes_modes.c", "src/wbaes/wbaes.c:WBCRYPTO_wbaes_gen_table")
p("C67", "Format-preserving encryption over each cipher is SP 800-38G over the standard cipher",
  "FF1 and FF3 contexts made with SM4, white-box SM4, AES or white-box AES encrypt and decrypt every numeral string as FF1 and FF3 of SP 800-38G do over standard SM4 or AES-128 under the key (FF3: under the byte-reversed key of the standard).",
  "every key, tweak, radix and numeral string, and every random outcome of the table generation",
  "All strings, tweaks and keys; published samples check one point each.",
  "src/fpe/ff1.c", "src/fpe/ff3.c", "src/sm4/sm4_modes.c", "src/wbsm4/wbsm4_modes.c", "src/aes/aes_modes.c", "src/wbaes/wbaes_modes.c")
p("C68", "What the masking variant of white-box AES-GCM computes",
  "Ciphertext and tag of the encrypting side are those of AES-128-GCM passed byte by byte through one bijection of bytes per position in the block, the mapped ciphertext being what is hashed; the decrypting side applies the inverse bijections to ciphertext and hash before combining them with the key stream.",
  "every key, IV, AAD, message in aligned pieces, and every random outcome",
  "All randomness and all messages.",
  "src/wbaes/wbaes_wbgcm_mask_init.c:WBCRYPTO_wbaes_wbgcm_mask_gen_gcm_table", "src/wbaes/wbaes_wbgcm_mask_mode.c")
p("C69", "White-box AES-GCM files round-trip",
  "A file written by the encrypting function of either white-box GCM variant consists of tag, size and ciphertext as gcmfile writes them, and decrypting it with the tables generated together restores the contents; the ee variant writes exactly the AES-128-GCM container. No other file is touched.",
  "every file content, key, IV, AAD, file system and random outcome",
  "All contents and all states of the file system.",
  "src/wbaes/wbaes_wbgcm_ee_file.c", "src/wbaes/wbaes_wbgcm_mask_file.c")
p("C70", "White-box AES-GCM files are authenticated",
  "Decrypting a file whose tag does not belong to its ciphertext and additional data fails.",
  "every file, tag, key, IV and AAD",
  "All forgeries.",
  "src/wbaes/wbaes_wbgcm_ee_file.c", "src/wbaes/wbaes_wbgcm_mask_file.c")
p("C71", "White-box AES-GCM key generation does not read past a short key",
  "gen_table of both white-box GCM variants stays within the keylen bytes it is given.",
  "every key length below sixteen",
  "Reading past the end goes unnoticed in most runs.",
  "src/wbaes/wbaes_wbgcm_ee_init.c:WBCRYPTO_wbaes_wbgcm_ee_gen_table", "src/wbaes/wbaes_wbgcm_mask_init.c:WBCRYPTO_wbaes_wbgcm_mask_gen_table")
p("C72", "An exported white-box SM4 context works in the process that made it",
  "WBCRYPTO_wbsm4_bytes2key of the stream written by WBCRYPTO_wbsm4_key2bytes gives a context that encrypts like the original, also after the original was passed to WBCRYPTO_wbsm4_context_free.",
  "every key, mode, random numbers, memory contents and block",
  "All keys and tables; the copy shares memory with the original.",
  "src/wbsm4/wbsm4_exkey.c: WBCRYPTO_wbsm4_key2bytes, WBCRYPTO_wbsm4_bytes2key", "src/wbsm4/wbsm4.c: WBCRYPTO_wbsm4_context_free")
p("C73", "An exported white-box SM4 context can be used elsewhere and is independent of the original",
  "The stream of WBCRYPTO_wbsm4_key2bytes holds the tables, so that it can be imported in another process, and later changes to the original do not change the copy.",
  "every key pair, random numbers, memory and block",
  "A test in one process sees the shared tables still alive.",
  "src/wbsm4/wbsm4_exkey.c: WBCRYPTO_wbsm4_key2bytes, WBCRYPTO_wbsm4_bytes2key")
p("C74", "Freeing a white-box SM4 context erases its tables and makes it unusable",
  "After WBCRYPTO_wbsm4_context_free the tables are no longer in memory, and a later encryption with the context does not report success.",
  "every key, random numbers, memory and block",
  "Tests do not look at memory that was given up.",
  "src/wbsm4/wbsm4.c: WBCRYPTO_wbsm4_context_free")
p("C75", "The random generator of the matrix library does not repeat itself",
  "After InitRandom, the first 2^32 values of cus_random are pairwise different and include every 32-bit number; then the sequence starts again; and different seeds give different sequences.",
  "every seed and every number of calls",
  "2^32 values for each of 2^32 seeds; the proof needs that 4294967291 is a prime congruent to 3 modulo 4.",
  "WBMatrix/src/random.c: permuteQPR, InitRandom, cus_random")
p("C76", "White-box tables are correct whatever the clock and the state of the generator",
  "WBCRYPTO_wbsm4_gen_table, WBCRYPTO_se_wbsm4_gen_table, WBCRYPTO_wbaes_gen_table and the gen_table functions of both white-box GCM variants, run on the actual generator with its seedings from time(NULL) and randseed, always finish and the tables compute SM4 (contexts without dummy rounds), AES-128 and AES-128-GCM for any message or additional data (for the mask variant: restore what was encrypted).",
  "every sequence of clock readings, every randseed, every earlier use of the generator, every key and block",
  "Tests see the seconds in which they run.",
  "WBMatrix/src/random.c", "WBMatrix/src/WBMatrix.c: genMatpairM32, genaffinepairM32, SetRandSeed", "src/wbsm4/wbsm4_gen.c", "src/wbsm4/se_wbsm4.c", "src/wbaes/wbaes.c", "src/wbaes/wbaes_wbgcm_ee_init.c", "src/wbaes/wbaes_wbgcm_mask_init.c")
p("C77", "White-box tables generated twice differ",
  "Generating tables again for a key, also in another process, gives tables with fresh random encodings.",
  "every pair of generations, whatever the generator drew before",
  "A test that compares two generations in one process passes, as randseed has moved on.",
  "WBMatrix/src/WBMatrix.c: randM32, genMatpairM32", "src/wbsm4/wbsm4_gen.c:130", "src/wbsm4/se_wbsm4.c:34", "src/wbaes/wbaes.c:82")
p("C78", "The encodings of white-box AES cannot be told from outside",
  "The input and output encodings of the tables are known only to who generated them.",
  "every two contexts, keys, randseeds and clocks",
  "Tests do not compare encodings of contexts for different keys.",
  "src/wbaes/wbaes.c:WBCRYPTO_wbaes_gen_table", "WBMatrix/src/random.c: InitRandom")
p("C79", "The masks of the white-box GCM mask variant cannot be told from outside",
  "The masks that hide the AES output inside the two key contexts are known only to who generated them.",
  "every key, clock, randseed, memory and block",
  "Tests do not look at the masked values.",
  "src/wbaes/wbaes_wbgcm_mask_init.c: genRandomMask, aux_WBCRYPTO_wbaes_wbgcm_mask_encrypt")
p("C80", "Successive random matrices come from different random numbers",
  "No two seedings of the matrix functions give the same random sequence, so that a matrix pair generated after another is not a copy of it.",
  "every randseed, clock and pair of seedings",
  "It takes a clock that ticks between two calls.",
  "WBMatrix/src/WBMatrix.c: randM32, randV32, genMatpairM32, genaffinepairM32", "WBMatrix/src/random.c: InitRandom")
p("C81", "Key material does not outlive its use",
  "When a function that was given a key returns, and when a context is released, no copy of the key, of its round keys or of the GCM hash subkey is left in memory that the caller cannot reach or clear.",
  "every key, heap, allocator and random table",
  "Leftover copies are in blocks no test has a pointer to.",
  "src/wbsm4/wbsm4_gen.c: WBCRYPTO_wbsm4_gen_table", "src/se_wbsm4/se_wbsm4.c: WBCRYPTO_se_wbsm4_gen_table", "src/modes/gcmfile.c: WBCRYPTO_gcmfile_free", "src/sm4/sm4.c: aux_sm4_init_key")
p("C82", "A program that releases what it obtained does not grow",
  "After any sequence of calls the memory the library holds is that of the contexts not yet released; in particular a long MySQL query, repeated CBC encryptions or parallel GCM calls do not accumulate memory.",
  "every sequence of calls of any length on any number of objects",
  "Each leak is small and invisible in one call.",
  "src/udf/mysql8.cpp: fpe", "src/modes/cbc128.c: WBCRYPTO_cbc128_encrypt", "src/modes/gcm_parallel.c", "src/aes/aes.c: WBCRYPTO_aes_context_free", "src/sm4/sm4.c: WBCRYPTO_sm4_context_free")
p("C83", "Releasing NULL, releasing twice and use after release are harmless or rejected",
  "Every release function accepts NULL; a second release has no effect; a context used after its release is rejected.",
  "every heap and every object of each kind",
  "A test that triggers it crashes or silently corrupts memory.",
  "src/fpe/init.c: WBCRYPTO_fpe_free, WBCRYPTO_fpe_mac_free", "src/wbaes/wbaes_wbgcm_ee_mode.c: WBCRYPTO_wbaes_wbgcm_ee_free", "src/modes/gcm128.c: WBCRYPTO_gcm_free")
p("C84", "When memory runs out, an initialisation function returns NULL",
  "If any request for memory an initialisation or key setup makes is refused, the function reports failure.",
  "every allocator, heap and arguments",
  "Tests run with enough memory.",
  "src/wbsm4/wbsm4.c: WBCRYPTO_wbsm4_context_init", "src/fpe/init.c: WBCRYPTO_fpe_init", "src/modes/gcmfile.c: WBCRYPTO_gcmfile_init", "src/sm4/sm4.c: aux_sm4_init_key", "src/wbaes/wbaes_wbgcm_mask_init.c: WBCRYPTO_wbaes_wbgcm_mask_init_table")
p("C85", "A caller that keeps to the rules never meets undefined behaviour",
  "Any sequence of context creations, key setups, table generations, GCM, FPE, CBC and parallel calls and releases, each on an object of the right kind that was obtained earlier and not yet released, never accesses memory that is not its own.",
  "every sequence of calls of any length on any number of objects, in any order",
  "The number of interleavings of objects and calls is unbounded.",
  "src/aes/aes.c", "src/sm4/sm4.c", "src/wbsm4/wbsm4.c", "src/wbsm4/wbsm4_gen.c", "src/modes/gcm128.c", "src/modes/gcmfile.c", "src/fpe/init.c")
p("C86", "A call changes only the object it is about",
  "A call leaves every block of memory of every other object as it was, so that contexts can be used side by side.",
  "every sequence of calls, every further call and every other object",
  "Tests use one object at a time.",
  "src/aes/aes.c", "src/sm4/sm4.c", "src/wbsm4/wbsm4.c", "src/wbsm4/wbsm4_gen.c", "src/modes/gcm128.c", "src/modes/gcmfile.c", "src/fpe/init.c")
p("C87", "Format-preserving encryption is confined to the domain of the standard",
  "FF1 and FF3 refuse strings for which SP 800-38G does not define them: fewer than 100 strings of the given length, or (FF3) a half of more than 96 bits. Where they do encrypt, every character of the string influences the whole ciphertext.",
  "every block function, radix, tweak and string within the size limits of the variables",
  "The defect needs unusual lengths, and the ciphertexts look random when inspected one at a time; that differences pass through unchanged is a statement about all pairs of strings and all ciphers.",
  "src/fpe/ff1.c:WBCRYPTO_ff1_encrypt", "src/fpe/ff3.c:WBCRYPTO_ff3_encrypt", "src/fpe/ff3.c:WBCRYPTO_ff3_decrypt")
p("C88", "A failing block cipher is reported and stops the mode",
  "The mode functions take the block cipher as a callback that may fail (return 0).  If it fails on some block, the CBC, GCM and GCM file functions return 0, what was written before the failing block is what the standard prescribes, nothing after it is touched, no plaintext is left in the output of an encryption, and the call can be repeated.",
  "all block callbacks that fail on any set of blocks, all messages, buffers, IVs and reachable contexts",
  "Tests use the library's own ciphers, which never fail; the failure paths of all modes are never executed, and a failure may strike at any of unboundedly many blocks.",
  "src/modes/cbc128.c:WBCRYPTO_cbc128_encrypt", "src/modes/cbc128.c:WBCRYPTO_cbc128_decrypt", "src/modes/gcm128.c:WBCRYPTO_gcm_encrypt", "src/modes/gcm128.c:WBCRYPTO_gcm_decrypt", "src/modes/gcmfile.c:WBCRYPTO_gcmfile_encrypt", "include/wbcrypto/error.h:WBCRYPTO_MPI_CHK")

p("C89", "Different keys are different keys",
  "Two different keys set up different SM4 contexts, whatever their lengths: no key shorter or longer than 16 bytes stands for another key, and the key schedule maps no two 16-byte keys to the same round keys.",
  "all pairs of keys of any lengths and all contexts",
  "Tests set up a few keys of 16 bytes; collisions concern pairs of keys, of which there are unboundedly many.",
  "src/utils/padding.c:WBCRYPTO_key_padding_pkcs7", "src/utils/padding.c:WBCRYPTO_key_padding_zeros", "src/sm4/sm4.c:WBCRYPTO_sm4_init_key")

p("C90", "White-box encryption never reads outside its tables",
  "Whatever a white-box context holds - generated, read from a file, damaged or left uninitialised - encrypting a block (and running a session of a white-box GCM variant) reads table entries only inside the arrays of the context: two contexts that agree inside the declared bounds give the same results.",
  "all contexts with arbitrary contents, all blocks; for the GCM variants all IVs, additional data, lists of pieces, directions and tag lengths",
  "An out-of-bounds read of a table lands in the next table and usually goes unnoticed; which entries are read depends on the table contents, of which there are far too many.",
  "src/wbaes/wbaes.c:WBCRYPTO_wbaes_encrypt", "src/wbaes/wbaes_wbgcm_ee_mode.c:WBCRYPTO_wbaes_wbgcm_ee_encrypt", "src/wbaes/wbaes_wbgcm_mask_mode.c:WBCRYPTO_wbaes_wbgcm_mask_encrypt", "src/wbsm4/wbsm4.c:WBCRYPTO_wbsm4_encrypt", "include/wbcrypto/wbaes.h:wbaes_context", "include/wbcrypto/wbsm4.h:wbsm4_context")

p("C91", "CBC processes inputs of any length whole",
  "CBC encryption and decryption process every byte of the input whatever its length (the length argument is a size_t), or report an error; the reported output length never exceeds the output buffer.",
  "all lengths above 2^31 - 1, all inputs, buffers, IVs and block functions, separate buffers and in place",
  "Inputs of more than two gigabytes are not part of a unit test.",
  "src/modes/cbc128.c:WBCRYPTO_cbc128_encrypt", "src/modes/cbc128.c:WBCRYPTO_cbc128_decrypt", "src/utils/padding.c:WBCRYPTO_padding_pkcs7_merge", "src/utils/padding.c:WBCRYPTO_padding_pkcs7_separate_length", "src/sm4/sm4_modes.c:WBCRYPTO_sm4_cbc_decrypt")

p("C92", "File encryption and decryption change no other file",
  "WBCRYPTO_gcmfile_encrypt/decrypt and their white-box counterparts change no file but the output file they are given.",
  "all file systems, paths, contexts, keys, contents",
  "A test directory holds only the files of the test; whether some other name is touched depends on names a test does not use.",
  "src/modes/gcmfile.c:WBCRYPTO_gcmfile_encrypt", "src/modes/gcmfile.c:WBCRYPTO_gcmfile_decrypt", "src/wbaes/wbaes_wbgcm_ee_file.c:WBCRYPTO_wbaes_wbgcmfile_ee_encrypt", "src/wbaes/wbaes_wbgcm_mask_file.c")
p("C93", "A file of any size that was encrypted with success can be decrypted",
  "When WBCRYPTO_gcmfile_encrypt (or its white-box counterpart) returns 1, some context decrypts the container it wrote, whatever the size of the input.",
  "all file contents of every size, all contexts and keys",
  "Files of more than two gigabytes are not part of a unit test.",
  "src/modes/gcmfile.c:WBCRYPTO_gcmfile_encrypt", "src/modes/gcmfile.c:WBCRYPTO_gcmfile_decrypt", "src/wbaes/wbaes_wbgcm_ee_file.c:WBCRYPTO_wbaes_wbgcmfile_ee_encrypt", "src/wbaes/wbaes_wbgcm_mask_file.c")

p("C94", "Changing bytes of one block of an authenticated message changes the 16-byte tag",
  "After encrypting with GCM, changing any bytes inside one 16-byte block of the additional data or of the ciphertext makes decryption compute a different 16-byte tag, for every key whose hash key (the encryption of the zero block) is not zero.",
  "all block functions with a non-zero hash key, IVs, additional data, messages and changes within one block",
  "There are 2^128 hash keys and as many changes of a block; it follows from the multiplication being that of a field.",
  "src/modes/gcm128.c:WBCRYPTO_gcm_finish", "src/modes/gcm128.c:WBCRYPTO_gcm_decrypt", "src/modes/gcm128.c:WBCRYPTO_gcm_aad", "src/modes/gcm128.c:gcm_mult")
p("C95", "A forged GCM message is accepted for few hash keys only",
  "For any two different messages under one IV and any change of the t-byte tag, the number of hash keys for which the second message with the changed tag is accepted is at most n * 256^(16-t), where n is one more than the number of blocks of additional data and ciphertext of the longer message.",
  "all pairs of different messages, tag changes, tag lengths and collections of block functions with distinct hash keys",
  "It is a statement about all 2^128 hash keys.",
  "src/modes/gcm128.c:WBCRYPTO_gcm_finish", "src/modes/gcm128.c:WBCRYPTO_gcm_decrypt")
p("C96", "GCM treats IVs of every length as the standard prescribes",
  "The ciphertext is the one of SP 800-38D for IVs of any length the size_t argument can express.",
  "all keys, IVs (including those of 2^29 bytes and more), additional data and messages",
  "A test would need an IV of half a gigabyte.",
  "src/modes/gcm128.c:WBCRYPTO_gcm_setiv")
p("C97", "Different IVs give different keystreams",
  "Two different IVs under one key never lead to the same ciphertexts and tags; for 12-byte IVs no block is ever encrypted under both.",
  "all keys, pairs of different IVs, messages",
  "Colliding IVs exist but depend on the key; no test finds them by trial.",
  "src/modes/gcm128.c:WBCRYPTO_gcm_setiv", "src/modes/gcm128.c:WBCRYPTO_gcm_encrypt")

p("C98", "Every encoding can be generated",
  "For every permutation, every invertible matrix of the sizes 4 to 128 and every affine map with such a matrix there are random numbers from which the generating function returns it; the order of real and dummy rounds of white-box SM4 can be any that ends in a real round.",
  "all permutations, invertible matrices, affine maps and orders of rounds",
  "A test samples a few outputs of a generator; which outputs are impossible cannot be sampled.",
  "WBMatrix/src/WBMatrix.c:genMatpairM32", "WBMatrix/src/WBMatrix.c:genaffinepairM32", "WBMatrix/src/WBMatrix.c:genPermutation4", "src/wbsm4/wbsm4_gen.c:wbsm4_gen_dummyround_array")
p("C99", "No matrix is excluded by the library's own generator",
  "Every invertible matrix is generated for some value of the seed set with SetRandSeed and some time.",
  "all sizes, matrices, seeds, clocks and histories",
  "There are 2^32 seeds and more matrices than that; no test can go through them.",
  "WBMatrix/src/random.c:InitRandom", "WBMatrix/src/WBMatrix.c:genMatpairM32", "WBMatrix/src/WBMatrix.c:SetRandSeed")
p("C100", "Random numbers of the shuffle",
  "wRand32 and wRand64 are uniform when rand() is; two processes do not shuffle alike because they started in the same second.",
  "all results of rand(), all generators behind it, clocks and sequences of shuffles",
  "Uniformity counts all preimages of every value; the dependence on the clock quantifies over whole runs.",
  "src/utils/wrandom.c:wRand32", "src/utils/wrandom.c:wRand64", "src/utils/wrandom.c:wRandomShuffleU8", "src/utils/wrandom.c:wRand31")

p("C101", "Input and output buffers may overlap",
  "GCM and white-box GCM in place or with the output before the input, and CBC with overlapping buffers, write what they write for separate buffers, leave all other memory alone and return the same.",
  "all memories, positions and lengths of input, output and ivec, all block functions, contexts and both directions",
  "The result depends on every relative position of the buffers and on their contents; a test tries a few.",
  "src/modes/gcm128.c:WBCRYPTO_gcm_encrypt", "src/modes/gcm128.c:WBCRYPTO_gcm_decrypt", "src/modes/cbc128.c:WBCRYPTO_cbc128_encrypt", "src/modes/cbc128.c:WBCRYPTO_cbc128_decrypt", "src/wbaes/wbaes_wbgcm_ee_mode.c:WBCRYPTO_wbaes_wbgcm_ee_encrypt", "src/wbaes/wbaes_wbgcm_mask_mode.c:WBCRYPTO_wbaes_wbgcm_mask_encrypt")
p("C102", "The GCM tag can be asked for again",
  "Calling WBCRYPTO_gcm_finish again, for instance first for a short and then for a full tag, returns the tag of the same message.",
  "all keys, IVs, additional data, messages, directions and sequences of tag lengths",
  "That the second tag differs for all but one message of one block per key and IV quantifies over keys and messages.",
  "src/modes/gcm128.c:WBCRYPTO_gcm_finish")

p("C103", "Tampered CBC ciphertexts are rejected",
  "WBCRYPTO_cbc128_decrypt returns 0 for a ciphertext or IV that was changed after encryption; if not, the effect of a change on the plaintext is unpredictable.",
  "all block ciphers, keys, IVs, messages, changed blocks and changed IVs, buffers of all sizes",
  "That every changed ciphertext is accepted, and which plaintext bits change, quantifies over ciphers, messages and changes.",
  "src/modes/cbc128.c:WBCRYPTO_cbc128_decrypt", "src/sm4/sm4_modes.c:WBCRYPTO_sm4_cbc_decrypt")

p("C104", "CBC ciphertexts show only how far two messages agree",
  "Under one key, two CBC ciphertexts agree in their first n blocks exactly when IV and padded messages agree so far, and two ciphertext blocks are equal exactly when plaintext blocks and the blocks chained into them have the same sum.",
  "all block ciphers, pairs of messages and IVs, numbers of blocks, positions of blocks",
  "The converse direction (equal ciphertext blocks imply equal inputs) ranges over all messages and ciphers.",
  "src/modes/cbc128.c:WBCRYPTO_cbc128_encrypt")

p("C105", "The length reported by CBC decryption reveals nothing about other messages",
  "Learning the output length that WBCRYPTO_sm4_cbc_decrypt or WBCRYPTO_aes_cbc_decrypt reports for chosen ciphertexts does not help to find the plaintext of another ciphertext under the same key.",
  "all block ciphers, ciphertexts, blocks of them, IVs and buffers",
  "That a query reveals the last plaintext byte of any block for every key and message is not visible from examples.",
  "src/utils/padding.c:separate_pad_num", "src/sm4/sm4_modes.c:WBCRYPTO_sm4_cbc_decrypt")

p("C106", "Which table entries are read does not depend on keys",
  "An observer who learns which table entries the SM4 key schedule, SM4 encryption and decryption, and GHASH read, in order, learns nothing about the key.",
  "all pairs of keys, blocks, IVs, additional data of more than a block, previous contents of contexts",
  "Unit tests observe results, not memory accesses, and the claim compares all pairs of keys.",
  "src/sm4/sm4.c:SM4_T_slow", "src/sm4/sm4.c:SM4_T", "src/sm4/sm4.c:WBCRYPTO_sm4_init_key", "src/modes/gcm128.c:gcm_mult")

p("C107", "An SM3 digest does not help to hash longer messages",
  "From the digest and the length of a message alone, nobody can compute the digest of a message that begins with it, so that the digest of a secret followed by a text authenticates the text.",
  "all messages and all bytes appended",
  "That the extension works for every message, secret and suffix is not visible from test vectors.",
  "src/sm3/md32_common.h:HASH_FINAL", "src/sm3/md32_common.h:HASH_UPDATE", "src/sm3/sm3.c:WBCRYPTO_sm3")

p("C108", "SM3 collisions are collisions of the compression function",
  "Two different messages of fewer than 2^61 bytes with one digest yield two different pairs of chaining value and block with one compressed value, at positions found by hashing them.",
  "all pairs of messages of fewer than 2^61 bytes, of equal or different length",
  "No collision is known to test with; the reduction is a statement about all pairs.",
  "src/sm3/sm3.c:sm3_block_data_order", "src/sm3/md32_common.h:HASH_FINAL")

p("C109", "An SM3 context can be used for the next message after SM3_Final",
  "After SM3_Final, further SM3_Update calls and SM3_Final give the digest of the bytes hashed since, or else of all bytes.",
  "all pairs of messages",
  "What the second digest is the digest of, for all messages, is a statement about the whole hash chain.",
  "src/sm3/md32_common.h:HASH_FINAL", "src/sm3/sm3.c:WBCRYPTO_sm3_init")

p("C110", "Every kept character takes part in encrypting the marked ones",
  "The marked characters of a phone number, ID number or text are encrypted by NIST's algorithm with all characters that are kept as the tweak, so that two numbers that differ in a kept character are encrypted independently.",
  "all numbers, samples, texts, keys, ciphers and FFX names",
  "Which characters reach the tweak, for samples and numbers of every length, is a statement about all pairs of numbers.",
  "src/fpe_app/phone.c:aux_fpe_phone", "src/fpe_app/idcard.c:aux_fpe_idcard", "src/fpe_app/cn_utf8.c:aux_fpe_cn", "src/fpe/ff3.c:WBCRYPTO_ff3_encrypt")

p("C111", "Encrypted numbers and texts are C strings",
  "The output of the phone, ID number and Chinese text functions ends with a zero byte, as their input does.",
  "all numbers, samples, texts and initial contents of the output buffer",
  "A test whose buffer happens to be zeroed sees a terminator; what matters is every initial content.",
  "src/fpe_app/phone.c:aux_fpe_phone", "src/fpe_app/idcard.c:aux_fpe_idcard", "src/fpe_app/cn_utf8.c:aux_fpe_cn")

p("C112", "FF3 under different tweaks gives unrelated permutations",
  "What encryption under one tweak does to numeral strings says nothing about encryption under another tweak.",
  "all block functions, radixes, tweaks and numeral strings of every length",
  "The relation between two whole permutations cannot be seen on samples.",
  "src/fpe/ff3.c:WBCRYPTO_ff3_encrypt", "src/fpe/ff3.c:WBCRYPTO_ff3_decrypt")

p("C113", "The FFX mode that is the default is FF3-1",
  "Any FFX name but ff1 selects FF3-1 of NIST SP 800-38G Revision 1, with its tweak of 56 bits.",
  "all block functions, radixes, tweaks and numeral strings",
  "FF3 and FF3-1 agree on some tweaks; for which is a statement about all tweaks.",
  "src/fpe_app/phone.c:WBCRYPTO_fpe_encrypt_phone_with_sample", "src/fpe/ff3.c:WBCRYPTO_ff3_encrypt")

p("C114", "An IV used again under the same key is refused or does no harm",
  "Encrypting a second GCM message with an IV that was used before under the same key is refused, or at least reveals nothing about the plaintexts and does not let anyone who sees both messages compute tags.",
  "all block functions, IVs, additional data and pairs of messages",
  "That one attacker procedure works against every key and pair of messages is a universally quantified algebraic fact.",
  "src/modes/gcm128.c:WBCRYPTO_gcm_setiv", "src/modes/gcm128.c:WBCRYPTO_gcm_encrypt", "src/modes/gcm128.c:WBCRYPTO_gcm_finish")

p("C115", "Whoever alters a GCM ciphertext cannot choose what it decrypts to",
  "An altered ciphertext or GCM file decrypts to nothing: no plaintext is delivered, or written to the output file, whose alteration the attacker chose.",
  "all block functions, IVs, additional data, messages, files and alterations",
  "The statement is about every alteration of every ciphertext.",
  "src/modes/gcm128.c:WBCRYPTO_gcm_decrypt", "src/modes/gcmfile.c:WBCRYPTO_gcmfile_decrypt")

p("C116", "White-box AES tables do not give the key away",
  "Whoever holds the tables of a white-box AES key context, but not the key, cannot compute the key from them with practical effort.",
  "all keys, all random numbers and memory contents of the table generation, the key contexts of white-box AES and of both white-box GCM variants",
  "That one test finds the key byte for every key and all randomness is a statement about all outcomes of the generator.",
  "src/wbaes/wbaes.c:WBCRYPTO_wbaes_gen_table", "src/wbaes/wbaes_wbgcm_ee_init.c:WBCRYPTO_wbaes_wbgcm_ee_gen_table", "src/wbaes/wbaes_wbgcm_mask_init.c:WBCRYPTO_wbaes_wbgcm_mask_gen_table")

p("C117", "White-box SM4 tables do not give the key away",
  "Whoever holds the tables of a white-box SM4 key context, but not the key, cannot compute the key from them with practical effort.",
  "all keys of any length, all random numbers and memory contents of the table generation, both directions, all numbers of dummy rounds",
  "That one test finds every key byte for every key and all randomness is a statement about all outcomes of the generator.",
  "src/wbsm4/wbsm4_gen.c:WBCRYPTO_wbsm4_gen_table", "src/wbsm4/wbsm4.c:WBCRYPTO_wbsm4_encrypt")

p("C118", "SE-WBSM4 tables do not give the key away",
  "Whoever holds the tables of an SE-WBSM4 key context, but not the key, cannot compute the key from them with practical effort.",
  "all keys of any length, all random numbers of the table generation, both directions",
  "That one test finds every key byte for every key and all randomness is a statement about all outcomes of the generator.",
  "src/se_wbsm4/se_wbsm4.c:WBCRYPTO_se_wbsm4_gen_table", "src/se_wbsm4/se_wbsm4.c:WBCRYPTO_se_wbsm4_encrypt")

p("C119", "Encrypted identifiers stay distinct",
  "Under one key and one sample, different phone numbers, ID numbers and Chinese texts of one length are encrypted to different strings, and every string of the format is the encryption of some input: encrypting a column of a table keeps it free of duplicates.",
  "all keys, ciphers and modes, all samples and lengths the functions accept, all pairs of inputs, all uninitialised memory",
  "Injectivity quantifies over all pairs of inputs, and reaching every string over all of the format.",
  "src/fpe_app/phone.c:WBCRYPTO_fpe_encrypt_phone_with_sample", "src/fpe_app/idcard.c:WBCRYPTO_fpe_encrypt_idcard", "src/fpe_app/cn_utf8.c:WBCRYPTO_fpe_encrypt_cn_utf8_with_sample")

p("C120", "Encrypted ID numbers are ID numbers",
  "Encrypting a well-formed ID number gives a well-formed one: the check digit is right and the date of birth is a date.",
  "all keys and samples, all well-formed ID numbers",
  "A test checks the numbers it encrypts.",
  "src/fpe_app/idcard.c:WBCRYPTO_fpe_encrypt_idcard")

p("C121", "FF1-CMAC tags are as hard to guess as their length suggests",
  "A tag of format-preserving encryption with CMAC has sixteen bytes, so that a guessed tag is right with a chance of about one in 2^128 and equal tags appear only after about 2^64 messages.",
  "all keys and ciphers, all numeral strings, lengths, radices and tweaks, all uninitialised memory",
  "It is about the set of all tags under one key.",
  "src/fpe/ff1_cmac.c:WBCRYPTO_ff1_cmac_encrypt")

p("C122", "A white-box context made for one direction cannot be used for the other",
  "Handing out a white-box context for encryption does not enable anyone to decrypt, and one for decryption does not enable anyone to encrypt.",
  "all keys, all random numbers used in generation, all blocks",
  "It is about every procedure that could be applied to the tables.",
  "src/wbaes/wbaes.c:WBCRYPTO_wbaes_gen_table", "src/wbsm4/wbsm4_gen.c:WBCRYPTO_wbsm4_gen_table", "src/se_wbsm4/se_wbsm4.c:WBCRYPTO_se_wbsm4_gen_table")

p("C123", "An FF3-GMAC tag vouches for the tweak",
  "A tag made by format-preserving encryption with GMAC is valid for the tweak it was made with: without the key nobody can turn it into a tag for another tweak, and tags do not give the hash key away.",
  "all keys and ciphers, all numeral strings and radices, all pairs of tweaks",
  "It is about what can be computed from tags, for all strings and tweaks.",
  "src/fpe/ff3_gmac.c:WBCRYPTO_ff3_gmac_encrypt")

p("C124", "A white-box SM4 context made for the other direction is refused",
  "Decrypting with a white-box SM4 or SE-WBSM4 context that was made for encryption, or using one made for decryption with GCM, fails instead of returning wrong data.",
  "all keys, all random numbers used in generation, all blocks, messages, IVs and additional data",
  "A test uses the contexts as intended, on a few messages.",
  "src/wbsm4/wbsm4.c:WBCRYPTO_wbsm4_decrypt", "src/se_wbsm4/se_wbsm4.c:WBCRYPTO_se_wbsm4_decrypt", "src/wbsm4/wbsm4_modes.c:WBCRYPTO_wbsm4_cbc_decrypt", "src/wbsm4/wbsm4_modes.c:WBCRYPTO_wbsm4_gcm_init")

p("C125", "A white-box SM4 key file does not give the key away",
  "The file to which a white-box SM4 context is exported can be handed out without the key becoming known.",
  "all keys, all random numbers used in generation, both directions, all numbers of dummy rounds, all uninitialised memory",
  "It is about what can be computed from every such file.",
  "src/wbsm4/wbsm4_exkey.c:WBCRYPTO_wbsm4_key2file", "src/wbsm4/wbsm4_exkey.c:WBCRYPTO_wbsm4_file2key", "src/wbsm4/wbsm4_gen.c:WBCRYPTO_wbsm4_gen_table")

p("C126", "A GCM file context can be used for file after file",
  "One file context encrypts and decrypts any number of files, each as a new context would, and decrypts the file it has just encrypted.",
  "all block ciphers, IVs, additional data, files and sequences of earlier calls, failed ones included",
  "It is about all histories of a context.",
  "src/modes/gcmfile.c:WBCRYPTO_gcmfile_encrypt", "src/modes/gcmfile.c:WBCRYPTO_gcmfile_decrypt", "src/modes/gcmfile.c:WBCRYPTO_gcmfile_setiv", "src/modes/gcmfile.c:WBCRYPTO_gcmfile_aad")

p("C127", "A white-box GCM context can be used for message after message",
  "After any calls on a white-box GCM context, setiv(iv) followed by further calls behaves as on a new context of the same key.",
  "both variants, all keys and tables, all histories of calls on data and files, all IVs, additional data and messages",
  "It is about all histories of a context.",
  "src/wbaes/wbaes_wbgcm_ee_mode.c", "src/wbaes/wbaes_wbgcm_mask_mode.c", "src/wbaes/wbaes_wbgcm_ee_file.c", "src/wbaes/wbaes_wbgcm_mask_file.c")

p("C128", "A receiver with ee white-box tables notices every change within one block",
  "If a message is encrypted with white-box GCM (variant ee) and the receiver, with any ee tables of the same key, is given additional data or a ciphertext that differ from the sent ones within one block of sixteen bytes, the tag the receiver computes differs from the sent one.",
  "all keys whose hash key is not zero, all tables of sender and receiver, all IVs, additional data and messages within the limits of GCM that are not both empty, all changes within one block",
  "It ranges over all keys, tables, messages and changes.",
  "src/wbaes/wbaes_wbgcm_ee_mode.c", "src/wbaes/wbaes_wbgcm_ee_init.c")
p("C129", "An IV used again with the same white-box GCM tables is refused or does no harm",
  "Encrypting a second message with white-box GCM under the same tables and the same IV is refused, or at least reveals nothing about the plaintexts and does not let anyone who sees both outputs compute tags.",
  "both variants, all keys and tables, all IVs, additional data and messages within the limits of GCM",
  "It is about all keys, tables and pairs of messages, and about what can be computed from the outputs.",
  "src/wbaes/wbaes_wbgcm_ee_mode.c", "src/wbaes/wbaes_wbgcm_mask_mode.c")

out = os.path.join(os.path.dirname(__file__), "..", "properties.jsonl")
with open(out, "w") as f:
    for x in P:
        f.write(json.dumps(x) + "\n")
print(len(P))
