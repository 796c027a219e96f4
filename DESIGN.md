# Formal model of nanshenjiang/wbcrypto-mode

Rocq (Coq 8.16.1), standard library only.  Sources are in `rocq/theories`, one group of files per component:

* `*Model.v`  executable Gallina transcription of the C code, every definition cites `file:lines`;
* `*Spec.v`   small independent specification (the standard, or the mathematical object);
* `*Proofs.v` lemmas;
* `*Props.v`  only the property theorems (`exact lemma.` + `Print Assumptions`) and the `Example`s showing that
  their hypotheses are met by concrete cases.

## Conventions of the model

* Bytes and machine words are `N` with the C wrap written out (`mod 2^8/32/64`, masks); byte buffers are `list N`.
  Theorems carry the hypothesis "every element is < 256" where it matters.  Lengths are `nat` (or `N` when they
  can be large).
* A function writing through a pointer returns the new value.  A C call that can fail returns `option` or an explicit
  result record.  An out-of-bounds access, the use of an indeterminate pointer or a call of `fclose(NULL)` is the
  distinct outcome `Undef`, a failed `assert` is `Abort` (`outcome` in FpeModel; some early models use a local type),
  never a silently defaulted value.
* The block cipher passed as a function pointer is a universally quantified function on 16-byte lists.  The files
  `CipherExt`, `FpeExt` and the wrapper sections of `Sm4Props`, `WbaesProps`, `AesProps` instantiate it with the models
  of the ciphers of the repository.
* The random number generator is a universally quantified stream of numbers, so "for all randomness" is literally
  `forall`.  `RandModel` models the real generator (a counter passed through quadratic residues modulo a prime, seeded
  from the clock) and `RandRefine`/`RandTables` show that the streams it produces are instances, so the table theorems hold over it too.
* `malloc` succeeds, except in `LifeModel`, where every request may fail.  Fresh memory has arbitrary contents (a
  universally quantified function) where the code reads it before writing it.
* OpenSSL BIGNUM arithmetic is modelled by exact `N` arithmetic; OpenSSL AES (`AES_set_encrypt_key`, `AES_encrypt`,
  `AES_decrypt`) by FIPS-197.  OpenSSL is not part of /repo.
* The `double` computation `ceil(v*log2(radix))` of FF1/FF3 is a universally quantified function `clog`.  Theorems say what
  they need of it: not below the exact ceiling for round trip and format, equal to it for conformity to the standard.
* Files are byte lists in a finite map from paths; opening may fail, devices may be full (KeyexModel).
* OpenMP is modelled by interleaving the steps of the threads in every order, with the shared variables of the code
  shared (ParModel).  Weak memory effects are not modelled; they could only add behaviours to those refuted by C16.
* The heap of `LifeModel` is a finite list of blocks with their bytes, a set of released blocks and a set of blocks
  that no variable reaches any more; contents that matter only as values are symbolic cells.

## Per property: what is modelled and how it is proved

`refuted` means: the statement is false of the code; a theorem `..._refuted` proves the negation, from a concrete witness or
(where possible) for every input of a class, and the strongest true part is proved beside it.

| id | model | method |
|----|-------|--------|
| C01 | padding.c, cbc128.c, sm4_modes.c wrappers | round-trip by induction over blocks; exact characterisation of when it holds, refuted outside |
| C02 | padding.c | exact characterisation; refuted |
| C03 | cbc128.c | equality with the SP 800-38A recursion on lists of blocks |
| C04 | cbc128.c both branches over one memory | induction over blocks |
| C05 | cbc128.c | append lemma, induction on pieces |
| C06 | cbc128.c | refuted (ivec is not written by encrypt) |
| C07 | cbc128.c with bounds-checked reads | in bounds exactly when inlen mod 16 = 0; refuted otherwise |
| C08 | gcm128.c tables | linearity over GF(2), small sweep for the reduction table, polynomial spec on bit lists |
| C09-C15, C52 | gcm128.c | refinement to SP 800-38D; invariants over lists of calls; refuted for misaligned pieces, stale AAD length, split AAD, lengths beyond INT_MAX |
| C16, C17 | gcm_parallel.c | small-step interleaving with the shared `j`; confluence for schedules without overlap, refuted in general |
| C18-C20, C53, C54 | gcmfile.c over an abstract file system | round trip by induction over 128-byte slices; tamper detection refuted |
| C21-C23, C55 | sm4.c, sm4_modes.c | equality with GM/T 0002; table checked by sweep; Feistel involution |
| C24, C25 | sm3.c, md32_common.h | buffer invariant over update lists; unrolled rounds = loop of the standard |
| C26-C32, C56, C67 | fpe/*.c and the FPE wrappers | Feistel round trip over `N`, digit conversions; conformity to SP 800-38G; NIST samples as Examples |
| C33-C36, C57, C58 | fpe_app/*.c | positions and round trip; bounds model for the one-byte overflow |
| C37-C40, C60 | WBMatrix.c | generic-width GF(2) matrices; invariant of the elimination trail over an arbitrary random stream; size 128 (two words per row) reduced to the same algebra by an abstraction function |
| C41-C43, C61 | wbsm4*.c | affine encodings cancel for all randomness; key file codec round trip |
| C44, C62 | se_wbsm4*.c | the 2039 self-equivalences imported and checked by `vm_compute`, then as C41 |
| C45, C65, C66 | wbaes*.c | table network = AES round by round |
| C46, C47, C68-C71 | wbaes_wbgcm_*.c | encoded GHASH = GHASH under the external encoding; both tags of the mask variant |
| C48, C63, C64 | aes.c, aes_modes.c over FIPS-197 | refuted for decryption; proved for encryption |
| C49, C72-C74 | keystore.c, wbsm4.c copies of structures | file round trip; a structure written as bytes carries addresses |
| C50, C59 | udf/mysql8.cpp, udf/mysql5.cpp | decision table; refuted for what MySQL passes |
| C51 | cbc128.c over an allocator that moves blocks | refuted for every such allocator |
| C75-C80 | random.c, seeding in all generators | order of the state map; determinism: what is a function of the clock |
| C81-C86 | creation and release of all contexts | heap model; invariant over arbitrary lists of calls |
| C87 | fpe/ff1.c, fpe/ff3.c against the limits of SP 800-38G | refuted: no domain check; the value FF3 computes on long strings, for every cipher |
| C88 | block callbacks that may fail, in cbc128.c, gcm128.c, gcmfile.c | modes up to the first failure, by induction over blocks; refuted where the failure is lost |
| C89 | padding of keys, key schedule of sm4.c | the schedule is injective (its steps are undone from the last four round keys); which keys padding makes equal |
| C90 | table lookups of wbaes.c, the GCM variants and wbsm4.c | contexts that agree inside the declared bounds give the same results; by congruence through rounds and pieces |
| C91 | the int length of cbc128.c and padding.c | refuted: what each length above 2^31 - 1 leads to |
| C92 | gcmfile.c and the wbgcm file functions over any file system | frame theorem; refuted for the name with .tmp appended |
| C93 | the int size field of the container | refuted for every file above 2^31 - 1 bytes |
| C94, C95 | gcm128.c via SP 800-38D | GF(2^128) is a field (commutativity and associativity by linearity; inverses from x^(2^128) = x and an explicit left inverse of z^2 + z); GHASH as a polynomial in the hash key, counting of roots |
| C96, C97 | WBCRYPTO_gcm_setiv | exact pre-counter block for IVs of every length; refuted by the field |
| C98 | genPermutation, genMatpairM4..M128, genaffinepair, wRandomShuffleU8, wbsm4_gen_dummyround_array | every target is reached by explicitly constructed random numbers; exact set for the shuffle |
| C99 | the same with InitRandom and cus_random | refuted: pigeonhole, 2^32 seeds against 2^32 + 1 invertible matrices |
| C100 | wRand31, wRand32, wRand64, wRandomList | bijections; rand(), srand() and time() quantified |
| C101 | gcm and wbgcm crypt loops, cbc encrypt and decrypt loops, on one array of bytes with input, output and ivec at addresses | every access in the order of the code; induction over the blocks; memcpy(ivec, ivec, 16) is taken as a no-op; the block functions read their input before they write |
| C102 | gcm_finish | induction over the calls; the second tag as an equation in the field |
| C103 | cbc128_decrypt | decryption block by block, as an equation for every block; change of one block or the IV |
| C104 | cbc128_encrypt | encryption block by block; induction over the blocks with injectivity of the cipher |
| C105 | separate_pad_num, the CBC wrappers | the reported length as a function of length and last byte; one query per value of the last IV byte |
| C106 | TraceModel: sm4.c and gcm_mult, gcm_aad with the table entries they read | erasure to the models; injectivity of the lookups in the rounds' inputs; cancellation in the field |
| C107 | the SM3 context and its functions | the invariant of C24 with an independent byte count, from a context filled in by the caller |
| C108 | SM3 | induction over the blocks from the last one; the length fields; existence by counting |
| C109 | SM3_Final's effect on the context | the same invariant after SM3_Final |
| C110 | src/fpe_app with the FPE models | the split of a number by a sample as filtered positions; conformance of FF1 and FF3 (C28, C30) |
| C111 | the output buffer of src/fpe_app | the round-trip theorems of C33 to C35 and the bytes of each output character |
| C112 | FF3 | the two halves of the rounds change places under the other tweak |
| C113 | FF3 and FF3-1 from the standard | conformance to FF3; a witness |
| C114 | GCM sessions | conformance (C09); the tag difference solved for the hash key in GF(2^128) by inverses and 127 squarings |
| C115 | GCM sessions and the file functions | counter mode commutes with exclusive or; runs of the file functions (C18, C19) |
| C116 | key contexts of white-box AES and GCM | round one of a byte is an encoded linear map of the S-box output; no derivative of the S-box shifted by a wrong key byte is hidden from a nonzero linear map (sweep of 255 * 31 ranks); a linear map to four bits hides one of 31 differences |
| C117 | white-box SM4 tables | dummy rounds have tables of zeros, real rounds do not; without them, the words held after round r are bijective encodings of SM4's state; a difference in one byte of X1 cancels one in X0 exactly if the key byte is right; differences of the S-box at 1 and 2 tell all 256 key bytes apart (sweep) |
| C118 | SE-WBSM4 tables | the same argument over the words SE-WBSM4 holds after round r |
| C119 | src/fpe_app | round trips in both orders: decrypting after encrypting gives injectivity, encrypting after decrypting reaches every string |
| C120 | src/fpe_app/idcard.c | evaluated counterexamples, against GB 11643's check digit |
| C121 | src/fpe/ff1_cmac.c | a tag is the sum of ten blocks each given by one byte (C32); the multisets of ten bytes are counted by recurrence |
| C122 | src/wbaes, src/wbsm4, src/se_wbsm4 | the tests of C116-C118 as functions of the tables; conformance to the standard cipher and its round trip |
| C123 | src/fpe/ff3_gmac.c | the tag is linear in the first 16 bytes of the tweak while the rest depends on its first 8; GF(2^128) has no zero divisors |
| C124 | src/wbsm4, src/se_wbsm4 | conformance (C41, C44) in the given direction, and the mode theorems over any block function |
| C125 | src/wbsm4/wbsm4_exkey.c | the file holds all table entries the reader of C117 looks at (C43) |
| C126 | src/modes/gcmfile.c | the tables are all that setiv and aad leave, and every call keeps them; without setiv the counter goes on and counters are distinct (C14) |
| C127 | src/wbaes/wbaes_wbgcm_ee_mode.c, wbaes_wbgcm_mask_mode.c and the file functions | every call keeps the tables, setiv and aad set the rest; without aad the blocks of lengths differ and multiplication by a non-zero hash key is injective, as are the byte functions of both variants. The same argument shows for plain GCM that C12 and C13 fail for every key with a non-zero hash key |
| C128 | src/wbaes/wbaes_wbgcm_ee_mode.c, wbaes_wbgcm_ee_init.c | a session of variant ee with any tables is the GCM session over AES-128 (C46), whose tag is a polynomial in the hash key; a change in one block changes one coefficient |
| C129 | src/wbaes/wbaes_wbgcm_ee_mode.c, wbaes_wbgcm_mask_mode.c | ee: as C114, through the equality with GCM over AES-128; mask: the output is GCM's key stream xor message through a bijection per position, so equal output bytes are equal message bytes; the bijections are multiplications by matrices, hence linear |

## Trusted base

* Coq 8.16.1's kernel, including its `vm_compute` machine (the checker `coqchk` re-checks without it).
* Print Assumptions: every theorem of the manifest is "Closed under the global context": no axiom, not even of the
  standard library.  `ASSUMPTIONS.md` lists the output for each theorem (written by `tools/assumptions.py`).
* The reading of the C sources recorded in the comments of the `*Model.v` files.  There is no extraction and no
  translation tool: the model was written by hand from the text.  `tools/coverage.py` lists the functions of /repo that no
  comment of the model cites.  `tools/check_sewb_tables.py` compares the
  lists of SewbTables.v with the C arrays entry by entry.
* The transcription of the standards in the `*Spec.v` files: SP 800-38A/D/G, FIPS-197, GM/T 0002, GM/T 0004.  Published
  test vectors are Examples beside them.
* For the C language: `int` is 32 bits, `size_t` and pointers 64, little-endian, two's complement; ASCII.

## Modelled and not modelled

Modelled: all of `src/` (`aes`, `fpe`, `fpe_app`, `modes`, `se_wbsm4`, `sm3`, `sm4`, `utils`, `wbaes`, `wbsm4`), `udf/` and
`WBMatrix/src` with the following exceptions and simplifications.

* `printM*`, `printV*` and other printing functions; tests, performance programs, CMake files and documents.
* The inline byte-order macros (`load_u32_be`, `GETU32`, ...) are written out where used.
* `-DNDEBUG` is not assumed: `assert` aborts.
* `identityAff32` of wbsm4_gen.c and `wRandFuncVersion` of wrandom.c (a constant string) are not called by the library
  and are not modelled.
* se_wbsm4_local.h defines the arrays A and B (without initialiser) and is included by two source files.  The program
  links only if the compiler merges such definitions (`-fcommon`, not the default since GCC 10).  The model takes one copy.
* The behaviour of the machine after undefined behaviour is not modelled: the outcome is `Undef` and that is all.
  Two places are exceptions, because the library could not be used at all otherwise: the byte written past a local array in
  fpe_app (C36) and the size field read beyond a variable in gcmfile.c (C18, four universally quantified bytes).
* Timing, caches and other side channels, except the table entries read by SM4 and GHASH (TraceModel, C106).
* The strength of the ciphers.  Statements about secrecy are about determinism and dependence (C75-C81), or exhibit a
  procedure that finds the secret and is short by inspection (C114, C116-C118, C122, C123, C125); none bounds the cost of attacks from below.

## Testing the theorems

`seeded/round*.json` list edits to definitions of the model, each a plausible programming error (or, for a refuted
property, the repair).  `tools/seed.py` applies each to a scratch copy, rebuilds everything that depends on it, and records in
`seeded/LOG.jsonl` which theorems stopped holding.  A survivor led to a sharper theorem, recorded as `theorems_tightened`.
