{"id": "C01", "title": "Decryption inverts encryption", "statement": "In each of the four reference builds (A-128, A-128A, K-128, K-128A), passing the mlen+16 bytes produced by crypto_aead_encrypt(key, nonce, ad, m) to crypto_aead_decrypt with the same key, nonce and ad returns 0, writes exactly the original message bytes into the output buffer and sets *mlen to the original length.", "quantifier": "every 16-byte key, every 16-byte nonce, every associated data and every message of any length (mlen+16 < 2^64), all four instances", "why_tests_cant": "KAT files sample lengths 0..32 with one key and one nonce; the round trip must hold for unbounded many keys, nonces and lengths, including every residue of the length modulo the rate.", "anchors": ["crypto_aead/isapxv20/ref/crypto_aead.c: crypto_aead_encrypt, crypto_aead_decrypt", "crypto_aead/isapxv20/ref/isap.c: isap_rk, isap_mac, isap_enc"]}
{"id": "C02", "title": "Encryption computes exactly the ISAP v2.0 ciphertext and tag", "statement": "The bytes written by the reference crypto_aead_encrypt equal C||T of the ISAP v2.0 specification: blockwise 10* padding of AD and ciphertext, the two-phase suffix MAC with re-keying, the bit-serial re-keying function and the stream encryption, computed with a permutation specified bit by bit.", "quantifier": "every key, nonce, ad and message, all four instances", "why_tests_cant": "The reference code absorbs byte by byte with lazily/eagerly triggered permutations; equality with the blockwise specification at every length (in particular at exact multiples of the rate) needs induction, not samples.", "anchors": ["crypto_aead/isapxv20/ref/crypto_aead.c: crypto_aead_encrypt, crypto_aead_decrypt", "crypto_aead/isapxv20/ref/isap.c: isap_rk, isap_mac, isap_enc", "crypto_aead/isapxv20/ref/lib/Ascon-reference/Ascon-reference.c: Ascon_Permute_Nrounds", "crypto_aead/isapxv20/ref/lib/KeccakP-400-reference/KeccakP-400-reference.c: KeccakP400_Permute_Nrounds"]}
{"id": "C03", "title": "Decryption accepts exactly the ciphertexts whose tag is the MAC", "statement": "For every ciphertext buffer of clen >= 16 bytes crypto_aead_decrypt returns 0 if and only if the last 16 bytes equal the specification MAC of (key, nonce, ad, first clen-16 bytes); otherwise it returns -1. When it returns 0 the output buffer holds the specification decryption of the first clen-16 bytes.", "quantifier": "every key, nonce, ad and every byte string of length >= 16 offered as ciphertext (not only ones produced by encryption)", "why_tests_cant": "The set of rejected ciphertexts is astronomically large; the equal-byte counter must reach 16 exactly when all bytes match.", "anchors": ["crypto_aead/isapxv20/ref/crypto_aead.c: crypto_aead_encrypt, crypto_aead_decrypt", "crypto_aead/isapxv20/ref/isap.c: isap_rk, isap_mac, isap_enc"]}
{"id": "C04", "title": "No unverified plaintext is released", "statement": "Whenever crypto_aead_decrypt returns -1, no byte of the caller's plaintext buffer (nor of any other caller memory except the *mlen cell) has been written.", "quantifier": "every input on which the tag comparison fails, every prior memory content", "why_tests_cant": "Requires that no execution path writes the plaintext buffer before the tag decision, for all lengths and contents.", "anchors": ["crypto_aead/isapxv20/ref/crypto_aead.c: crypto_aead_encrypt, crypto_aead_decrypt", "crypto_aead/isapxv20/ref/isap.c: isap_rk, isap_mac, isap_enc"]}
{"id": "C05", "title": "Any change to the tag of a genuine ciphertext is rejected", "statement": "If the ciphertext came from crypto_aead_encrypt and its 16 tag bytes are replaced by any different 16 bytes while key, nonce, ad and body stay the same, crypto_aead_decrypt returns -1.", "quantifier": "every key, nonce, ad, message and every one of the 2^128-1 wrong tags", "why_tests_cant": "2^128-1 wrong tags per input cannot be enumerated.", "anchors": ["crypto_aead/isapxv20/ref/crypto_aead.c: crypto_aead_encrypt, crypto_aead_decrypt", "crypto_aead/isapxv20/ref/isap.c: isap_rk, isap_mac, isap_enc"]}
{"id": "C06", "title": "Reference encryption and decryption have no undefined behaviour on valid arguments", "statement": "With readable key, nonce, ad, message buffers of the declared sizes and a writable (possibly uninitialised) output buffer, crypto_aead_encrypt and (clen >= 16) crypto_aead_decrypt finish without an out-of-bounds access, a read of an uninitialised byte, or a failed assertion of the permutation library.", "quantifier": "every placement of the buffers in memory (any alignment), every content, every length", "why_tests_cant": "Sanitised tests only see the lengths and contents they run; state-offset arithmetic must stay in bounds for every length.", "anchors": ["crypto_aead/isapxv20/ref/crypto_aead.c: crypto_aead_encrypt, crypto_aead_decrypt", "crypto_aead/isapxv20/ref/isap.c: isap_rk, isap_mac, isap_enc", "crypto_aead/isapxv20/ref/lib/Ascon-reference/Ascon-reference.c: Ascon_AddBytes, Ascon_OverwriteBytes, Ascon_ExtractBytes", "crypto_aead/isapxv20/ref/lib/KeccakP-400-reference/KeccakP-400-reference.c: KeccakP400_AddBytes, KeccakP400_OverwriteBytes, KeccakP400_ExtractBytes"]}
{"id": "C07", "title": "Only the declared outputs are written", "statement": "crypto_aead_encrypt changes only the bytes c[0..mlen+16) and *clen; crypto_aead_decrypt changes only m[0..clen-16) and *mlen. Every other byte of memory, including key, nonce, ad and the input text, is unchanged after the call.", "quantifier": "every initial memory and every valid argument tuple", "why_tests_cant": "A frame condition quantifies over all memory locations and all executions.", "anchors": ["crypto_aead/isapxv20/ref/crypto_aead.c: crypto_aead_encrypt, crypto_aead_decrypt", "crypto_aead/isapxv20/ref/isap.c: isap_rk, isap_mac, isap_enc"]}
{"id": "C08", "title": "In-place operation", "statement": "Encrypting with the output buffer equal to the message buffer, and decrypting with the plaintext buffer equal to the ciphertext buffer, produce the same bytes as with disjoint buffers.", "quantifier": "every key, nonce, ad, message, all four instances", "why_tests_cant": "The KAT generators never alias buffers; correctness under aliasing depends on the read/write order at every byte.", "anchors": ["crypto_aead/isapxv20/ref/crypto_aead.c: crypto_aead_encrypt, crypto_aead_decrypt", "crypto_aead/isapxv20/ref/isap.c: isap_rk, isap_mac, isap_enc"]}
{"id": "C09", "title": "Ciphertexts shorter than the tag are rejected safely", "statement": "crypto_aead_decrypt with clen < 16 returns a nonzero value without undefined behaviour.", "quantifier": "every clen in 0..15, every buffer content, every implementation", "why_tests_cant": "No test in the repository calls decrypt with clen < 16; the length computation clen-16 wraps around modulo 2^64. (The code violates this property: see the refutation.)", "anchors": ["crypto_aead/isapxv20/ref/crypto_aead.c: crypto_aead_encrypt, crypto_aead_decrypt", "crypto_aead/isapxv20/ref/isap.c: isap_rk, isap_mac, isap_enc", "crypto_aead/*/*/crypto_aead.c: crypto_aead_decrypt (identical text in all variants)"]}
{"id": "C10", "title": "Results depend only on key, nonce, ad and text", "statement": "The bytes written and the value returned by encrypt/decrypt do not depend on nsec, on the previous contents of the output buffers, on any other memory contents, or on which calls were made before.", "quantifier": "every pair of initial memories and call histories that agree on key, nonce, ad and input text", "why_tests_cant": "A two-run (hyper)property over all memories and all histories.", "anchors": ["crypto_aead/isapxv20/ref/crypto_aead.c: crypto_aead_encrypt, crypto_aead_decrypt", "crypto_aead/isapxv20/ref/isap.c: isap_rk, isap_mac, isap_enc"]}
{"id": "C11", "title": "Reported lengths", "statement": "crypto_aead_encrypt sets *clen to mlen+16 and returns 0; crypto_aead_decrypt sets *mlen to clen-16 both when it accepts and when it rejects.", "quantifier": "every message length with mlen+16 < 2^64 and every clen >= 16", "why_tests_cant": "Length arithmetic is modulo 2^64 and tests only use lengths up to 32.", "anchors": ["crypto_aead/isapxv20/ref/crypto_aead.c: crypto_aead_encrypt, crypto_aead_decrypt", "crypto_aead/isapxv20/ref/isap.c: isap_rk, isap_mac, isap_enc"]}
{"id": "C12", "title": "Empty message and empty associated data never dereference their pointers", "statement": "With mlen = 0 (respectively adlen = 0) encryption and decryption work and give the specified tag for any value of the message (respectively ad) pointer, including NULL or dangling pointers.", "quantifier": "every pointer value, key, nonce", "why_tests_cant": "Absence of any dereference is a property of all paths.", "anchors": ["crypto_aead/isapxv20/ref/crypto_aead.c: crypto_aead_encrypt, crypto_aead_decrypt", "crypto_aead/isapxv20/ref/isap.c: isap_rk, isap_mac, isap_enc"]}
{"id": "C13", "title": "Ciphertext body is the message XOR a keystream fixed by key and nonce", "statement": "Byte i of the ciphertext body is m[i] XOR ks[i] where ks depends only on (key, nonce) and the instance: not on the message, its length or the associated data. Hence the encryption of a prefix is the prefix of the encryption, and two messages under one key and nonce satisfy C xor C' = M xor M'.", "quantifier": "every key, nonce, pair of messages and pair of associated data", "why_tests_cant": "Independence of the keystream from length and ad is a relation between arbitrarily many runs.", "anchors": ["crypto_aead/isapxv20/ref/crypto_aead.c: crypto_aead_encrypt, crypto_aead_decrypt", "crypto_aead/isapxv20/ref/isap.c: isap_rk, isap_mac, isap_enc"]}
{"id": "C14", "title": "Encryption is injective", "statement": "For a fixed key and nonce two different messages never yield the same ciphertext, whatever the associated data.", "quantifier": "every key, nonce, pair of distinct messages, pair of associated data", "why_tests_cant": "Universal over pairs of messages.", "anchors": ["crypto_aead/isapxv20/ref/crypto_aead.c: crypto_aead_encrypt, crypto_aead_decrypt", "crypto_aead/isapxv20/ref/isap.c: isap_rk, isap_mac, isap_enc"]}
{"id": "C15", "title": "The MAC input framing is unambiguous", "statement": "The tag is a function of (key, nonce) and the sequence of rate-size blocks, with the AD/ciphertext boundary marker, that is fed to the sponge; two different (ad, ciphertext) pairs never give the same sequence. In particular moving bytes between ad and ciphertext, appending zero bytes or the padding byte always changes the sequence.", "quantifier": "every pair of (ad, ciphertext) pairs of arbitrary lengths, all rates", "why_tests_cant": "Padding injectivity is a statement about all pairs of byte strings.", "anchors": ["crypto_aead/isapxv20/ref/crypto_aead.c: crypto_aead_encrypt, crypto_aead_decrypt", "crypto_aead/isapxv20/ref/isap.c: isap_rk, isap_mac, isap_enc"]}
{"id": "C16", "title": "Encryption control flow and memory addresses do not depend on secrets", "statement": "The sequence of memory addresses read and written and of branch decisions taken by crypto_aead_encrypt is the same for any two calls with the same pointers and lengths, whatever the key, nonce, message and associated data bytes are.", "quantifier": "every pair of memories with the same layout, all lengths, every implementation except bi_32_armv7m", "why_tests_cant": "A two-run property over all pairs of secrets.", "anchors": ["crypto_aead/isapxv20/ref/crypto_aead.c: crypto_aead_encrypt, crypto_aead_decrypt", "crypto_aead/isapxv20/ref/isap.c: isap_rk, isap_mac, isap_enc", "crypto_aead/*/*/isap.c: isap_rk, isap_mac, isap_enc"]}
{"id": "C17", "title": "Decryption control flow and memory addresses depend only on lengths and the verdict", "statement": "Two crypto_aead_decrypt calls with the same pointers and lengths and the same verdict (accept/reject) access the same addresses and take the same branches; up to the final accept/reject branch the traces are equal unconditionally, so the position of the first wrong tag byte is not revealed.", "quantifier": "every pair of memories with the same layout, all lengths, every implementation except bi_32_armv7m", "why_tests_cant": "A two-run property over all pairs of secrets and tags.", "anchors": ["crypto_aead/isapxv20/ref/crypto_aead.c: crypto_aead_encrypt, crypto_aead_decrypt", "crypto_aead/isapxv20/ref/isap.c: isap_rk, isap_mac, isap_enc", "crypto_aead/*/*/crypto_aead.c: crypto_aead_decrypt"]}
{"id": "C18", "title": "Amount of permutation work is a fixed function of the lengths", "statement": "The number of permutation invocations (and of rounds) performed by encryption and decryption is given by a closed formula in mlen, adlen and (for decryption) the verdict, so processing always terminates with work linear in the lengths.", "quantifier": "every input, every implementation except bi_32_armv7m", "why_tests_cant": "Termination and exact work for all lengths.", "anchors": ["crypto_aead/*/*/isap.c: isap_rk, isap_mac, isap_enc", "crypto_aead/isapxv20/ref/crypto_aead.c: crypto_aead_encrypt, crypto_aead_decrypt", "crypto_aead/isapxv20/ref/isap.c: isap_rk, isap_mac, isap_enc"]}
{"id": "C19", "title": "Ascon permutation of the reference library is the specified Ascon-p and is a bijection", "statement": "For every number of rounds 0..12, Ascon_Permute_Nrounds maps the 40-byte state exactly as Ascon-p (5-bit S-box table on columns, per-lane rotations, round constants of the last rounds) and two different states are never mapped to the same state.", "quantifier": "all 2^320 states, all round counts 0..12", "why_tests_cant": "2^320 states.", "anchors": ["crypto_aead/isapxv20/ref/lib/Ascon-reference/Ascon-reference.c: Ascon_Permute_Nrounds"]}
{"id": "C20", "title": "Keccak-p[400] permutation of the reference library is the specified one and is a bijection", "statement": "For every number of rounds 0..20, KeccakP400_Permute_Nrounds maps the 50-byte state as the composition of theta, rho, pi, chi, iota given by their (x,y,z) bit equations with the last round constants, and two different states are never mapped to the same state.", "quantifier": "all 2^400 states, all round counts 0..20", "why_tests_cant": "2^400 states.", "anchors": ["crypto_aead/isapxv20/ref/lib/KeccakP-400-reference/KeccakP-400-reference.c: KeccakP400_Permute_Nrounds"]}
{"id": "C21", "title": "State access functions of the reference permutation libraries", "statement": "AddBytes, OverwriteBytes, ExtractBytes (and AddByte, OverwriteWithZeroes, ExtractAndAddBytes for Keccak) change/read exactly the state bytes [offset, offset+length) as documented and leave all others alone, for every in-range offset and length, and every out-of-range call is caught by the assertions.", "quantifier": "every offset, length, state and data", "why_tests_cant": "All offsets, lengths and contents.", "anchors": ["crypto_aead/isapxv20/ref/lib/Ascon-reference/Ascon-reference.c", "crypto_aead/isapxv20/ref/lib/KeccakP-400-reference/KeccakP-400-reference.c"]}
{"id": "C22", "title": "isapa128av20/opt_64 agrees with the reference on all inputs", "statement": "crypto_aead_encrypt and crypto_aead_decrypt of the 64-bit optimised implementation write the same bytes and return the same value as the ISAP-A-128A reference.", "quantifier": "every key, nonce, ad, text, every length (machine that permits unaligned access)", "why_tests_cant": "Lane-wise processing with separate code for full and partial lanes must agree for every length; the KAT compares 1089 fixed points.", "anchors": ["crypto_aead/isapa128av20/opt_64/isap.c: ABSORB_LANES, isap_rk, isap_mac, isap_enc (same text in all isapa128av20 variants)", "crypto_aead/isapa128av20/opt_64/asconp.h"]}
{"id": "C23", "title": "isapa128av20/opt_32 family agrees with the reference on all inputs", "statement": "The opt_32, opt_32_compact and opt_32_tiny implementations (in-place S-box, shift-based rotations, fall-through or counter-loop round schedule) write the same bytes and return the same value as the ISAP-A-128A reference.", "quantifier": "every key, nonce, ad, text", "why_tests_cant": "2^320 permutation inputs and unbounded lengths.", "anchors": ["crypto_aead/isapa128av20/opt_64/isap.c: ABSORB_LANES, isap_rk, isap_mac, isap_enc (same text in all isapa128av20 variants)", "crypto_aead/isapa128av20/opt_32/asconp.h", "crypto_aead/isapa128av20/opt_32_compact/asconp.h", "crypto_aead/isapa128av20/opt_32_tiny/asconp.h"]}
{"id": "C24", "title": "isapa128av20/bi_32 family (bit-interleaved) agrees with the reference on all inputs", "statement": "The bi_32, bi_32_compact, bi_32_armv6, bi_32_armv6m and bi_32_armv6m_compact implementations, which keep the state bit-interleaved and use interleaved round constants (C or inline assembly), write the same bytes and return the same value as the ISAP-A-128A reference. bi_32_armv7m does not: the inline assembly of its ROUND leaves the new lanes x0,x1,x2,x3,x4 in the registers bound to x2,x3,x4,x0,x1, so it produces other ciphertexts and rejects genuine ones.", "quantifier": "every key, nonce, ad, text; for bi_32_armv7m a concrete counterexample", "why_tests_cant": "The ARM variants are not run by the repository's tests at all; the interleaved representation must be consistent for all 2^320 states.", "anchors": ["crypto_aead/isapa128av20/opt_64/isap.c: ABSORB_LANES, isap_rk, isap_mac, isap_enc (same text in all isapa128av20 variants)", "crypto_aead/isapa128av20/bi_32/asconp.h", "crypto_aead/isapa128av20/bi_32_compact/asconp.h", "crypto_aead/isapa128av20/bi_32_armv6/asconp.h", "crypto_aead/isapa128av20/bi_32_armv7m/asconp.h", "crypto_aead/isapa128av20/bi_32_armv6m/asconp.h", "crypto_aead/isapa128av20/bi_32_armv6m_compact/asconp.h"]}
{"id": "C25", "title": "isapa128av20/bi_8 and opt_8 families agree with the reference on all inputs", "statement": "The byte-sliced bi_8, opt_8 and opt_8_tiny implementations write the same bytes and return the same value as the ISAP-A-128A reference.", "quantifier": "every key, nonce, ad, text", "why_tests_cant": "2^320 permutation inputs and unbounded lengths.", "anchors": ["crypto_aead/isapa128av20/opt_64/isap.c: ABSORB_LANES, isap_rk, isap_mac, isap_enc (same text in all isapa128av20 variants)", "crypto_aead/isapa128av20/bi_8/asconp.h", "crypto_aead/isapa128av20/opt_8/asconp.h", "crypto_aead/isapa128av20/opt_8_tiny/asconp.h"]}
{"id": "C26", "title": "Bit interleaving conversions are inverse bijections that commute with the permutation", "statement": "For each interleaved representation, converting into and out of it is the identity on all 64-bit words, byte order conversion is an involution, and permuting in the interleaved domain equals permuting in the plain domain.", "quantifier": "all 2^64 words, all states, all round counts used", "why_tests_cant": "2^64 words.", "anchors": ["crypto_aead/isapa128av20/bi_32/asconp.h", "crypto_aead/isapa128av20/bi_8/asconp.h"]}
{"id": "C27", "title": "isapa128v20 optimised implementations agree with the reference on all inputs", "statement": "isapa128v20/opt_64, opt_32 and opt_32_armv67m write the same bytes and return the same value as the ISAP-A-128 reference whenever lengths fit the platform's unsigned long.", "quantifier": "every key, nonce, ad, text", "why_tests_cant": "Lane-wise code with separate remainder handling; 2^320 permutation inputs.", "anchors": ["crypto_aead/isapa128v20/opt_64/isap.c", "crypto_aead/isapa128v20/opt_32/isap.c", "crypto_aead/isapa128v20/opt_32/asconp.h", "crypto_aead/isapa128v20/opt_32_armv67m/isap.c", "crypto_aead/isapa128v20/opt_32_armv67m/asconp.h"]}
{"id": "C28", "title": "Associated data of any length is fully authenticated by isapa128v20/opt_64", "statement": "On every platform (any width of unsigned long) two calls of isapa128v20/opt_64 that differ only in associated data bytes present in one and missing in the other absorb different data.", "quantifier": "every associated-data length below 2^64 and unsigned long width 32 or 64", "why_tests_cant": "Lengths of 2^32 and more are never tested; the length is stored in an unsigned long. (Refuted for 32-bit unsigned long.)", "anchors": ["crypto_aead/isapa128v20/opt_64/isap.c: ABSORB_MAC, typedef unsigned long u32"]}
{"id": "C29", "title": "isapk opt_64 implementations agree with the reference on all inputs", "statement": "isapk128av20/opt_64 and isapk128v20/opt_64 (unrolled Keccak-p[400] with two alternating state copies) write the same bytes and return the same value as the K-128A / K-128 references.", "quantifier": "every key, nonce, ad, text", "why_tests_cant": "2^400 permutation inputs, unbounded lengths.", "anchors": ["crypto_aead/isapk128av20/opt_64/isap.c", "crypto_aead/isapk128av20/opt_64/KeccakP-400-64.macros", "crypto_aead/isapk128av20/opt_64/KeccakP-400-unrolling.macros", "crypto_aead/isapk128v20/opt_64/isap.c"]}
{"id": "C30", "title": "isapk opt_64 reads only the associated data it was given", "statement": "isapk128av20/opt_64 and isapk128v20/opt_64 never read outside ad[0..adlen).", "quantifier": "every associated-data length and buffer placement", "why_tests_cant": "The over-read does not change the output, so value-comparing tests cannot see it. (Refuted: 8 bytes are loaded where 2 are needed.)", "anchors": ["crypto_aead/isapk128av20/opt_64/isap.c: ABSORB_MAC", "crypto_aead/isapk128v20/opt_64/isap.c: ABSORB_MAC"]}
{"id": "C31", "title": "isapa128av20/avx_512 interleaved encryption agrees with the reference", "statement": "The AVX-512 implementation, which computes ciphertext blocks and the MAC over earlier ciphertext blocks in the two halves of one vector, writes the same bytes and returns the same value as the ISAP-A-128A reference.", "quantifier": "every key, nonce, ad, message of every length", "why_tests_cant": "The lag between encryption and authentication and the drain loop must be right for every length; AVX-512 is not exercised by the repository's test script.", "anchors": ["crypto_aead/isapa128av20/avx_512/isap.c: isap_mac_enc, ROUNDAVX", "crypto_aead/isapa128av20/avx_512/crypto_aead.c"]}
{"id": "C32", "title": "isapk128av20/avx512 agrees with the reference", "statement": "The AVX-512 Keccak implementation writes the same bytes and returns the same value as the K-128A reference; in particular the unused, uninitialised vector lanes never influence the result and masked loads stay inside the buffers.", "quantifier": "every key, nonce, ad, text, every content of the unused lanes", "why_tests_cant": "2^400 states; garbage in unused lanes is not controllable by tests.", "anchors": ["crypto_aead/isapk128av20/avx512/isap.c", "crypto_aead/isapk128av20/avx512/KeccakP-400-64.macros", "crypto_aead/isapk128av20/avx512/KeccakP-400-unrolling.macros"]}
{"id": "C33", "title": "isapk ARM assembly implementations agree with the reference", "statement": "The ARMv6-M and ARMv7-M assembly Keccak-p[400] together with its C wrapper writes the same bytes and returns the same value as the K-128A / K-128 references.", "quantifier": "every key, nonce, ad, text; every round count used", "why_tests_cant": "Not run by the repository's tests; 2^400 states.", "anchors": ["crypto_aead/isapk128av20/opt_32_armv7m/KeccakP-400-armv7m-le-gcc.s", "crypto_aead/isapk128av20/opt_32_armv6m/KeccakP-400-armv6m-le-gcc.s", "crypto_aead/isapk128av20/opt_32_armv6m/isap.c"]}
{"id": "C34", "title": "STP variants accept every genuine ciphertext (sequential use)", "statement": "In opt_32_stp, bi_32_stp and bi_32_armv6m_stp, decryption of what encryption produced with the same key, nonce and ad returns 0 and the original message, after any sequential history of earlier calls.", "quantifier": "every key, nonce, ad, message, every previous content of the global variables", "why_tests_cant": "Universal over inputs and histories of the hidden global state.", "anchors": ["crypto_aead/isapa128av20/opt_32_stp/isap.c: isap_mac, pvp, s0, s1", "crypto_aead/isapa128av20/opt_32_stp/crypto_aead.c", "crypto_aead/isapa128av20/bi_32_stp", "crypto_aead/isapa128av20/bi_32_armv6m_stp"]}
{"id": "C35", "title": "STP variants: exact acceptance condition", "statement": "In the STP variants decryption returns 0 exactly when the 7-round permuted images of received and computed tag (each followed by two words of the MAC state) agree in their first 128 bits; it never accepts on fewer than 128 agreeing bits, and ciphertext/tag bytes produced by encryption equal the reference's.", "quantifier": "every input", "why_tests_cant": "Universal over all ciphertexts.", "anchors": ["crypto_aead/isapa128av20/opt_32_stp/isap.c: isap_mac, pvp, s0, s1", "crypto_aead/isapa128av20/opt_32_stp/crypto_aead.c", "crypto_aead/isapa128av20/bi_32_stp", "crypto_aead/isapa128av20/bi_32_armv6m_stp"]}
{"id": "C36", "title": "STP variants may be called concurrently", "statement": "Concurrent calls of the STP variants on disjoint buffers return what the same calls return when run one after another.", "quantifier": "every interleaving of two calls in different threads", "why_tests_cant": "The failing schedule is a race of a few instructions on global variables. (Refuted: a concurrent call can make a genuine ciphertext be rejected.)", "anchors": ["crypto_aead/isapa128av20/opt_32_stp/isap.c: isap_mac, pvp, s0, s1", "crypto_aead/isapa128av20/opt_32_stp/crypto_aead.c", "crypto_aead/isapa128av20/bi_32_stp", "crypto_aead/isapa128av20/bi_32_armv6m_stp"]}
{"id": "C37", "title": "crypto_hash is Ascon-Hash and writes exactly 32 bytes", "statement": "crypto_hash(out, in, inlen) of the crypto_aead_hash variants (all but bi_32_armv7m) writes exactly the 32-byte Ascon-Hash v1.2 digest of in[0..inlen) (specified blockwise with 10* padding), returns 0, and changes no other byte; all these variants produce the same digest. bi_32_armv7m writes a different digest (same defect as in C24).", "quantifier": "every input of every length", "why_tests_cant": "The KAT covers lengths 0..1024 of one byte pattern.", "anchors": ["crypto_aead_hash/isapa128av20/opt_64/isap.c: crypto_hash", "crypto_aead_hash/isapa128av20/*/config.h"]}
{"id": "C38", "title": "crypto_hash padding is injective", "statement": "Two different inputs are never presented to the hash sponge as the same block sequence.", "quantifier": "every pair of inputs", "why_tests_cant": "Universal over pairs.", "anchors": ["crypto_aead_hash/isapa128av20/opt_64/isap.c: crypto_hash", "crypto_aead_hash/isapa128av20/*/config.h"]}
{"id": "C39", "title": "Which implementations tolerate buffers at any address", "statement": "On a machine that traps misaligned multi-byte accesses the reference works for key, nonce, ad and text buffers at any address. The optimised isapa128av20 implementations do not: they load key, nonce and ad through lane_t* and message/ciphertext through uint64_t*, so an odd buffer address traps; with all buffers 8-byte aligned they work.", "quantifier": "every buffer address, every length (reference and aligned case); a concrete counterexample for the optimised family", "why_tests_cant": "x86 tests never trap on misaligned accesses, and test buffers are usually aligned anyway; the claim is about every address on machines that do trap.", "anchors": ["crypto_aead/isapa128av20/opt_64/isap.c: ABSORB_LANES, isap_rk, isap_mac, isap_enc (same text in all isapa128av20 variants)", "crypto_aead/isapxv20/ref/crypto_aead.c: crypto_aead_encrypt, crypto_aead_decrypt", "crypto_aead/isapxv20/ref/isap.c: isap_rk, isap_mac, isap_enc"]}
{"id": "C40", "title": "Implementations of one instance interoperate", "statement": "A ciphertext produced by any modelled implementation of an instance is decrypted to the original message by any other modelled implementation of the same instance (the STP directories included, in both roles); two non-STP implementations write the same bytes and return the same value on every input, so what one rejects all reject; what an STP directory rejects all reject.", "quantifier": "every ordered pair of implementations of an instance, every input", "why_tests_cant": "Universal over inputs and pairs.", "anchors": ["crypto_aead/isapa128av20/opt_64/isap.c: ABSORB_LANES, isap_rk, isap_mac, isap_enc (same text in all isapa128av20 variants)", "crypto_aead/*/*"]}
{"id": "C41", "title": "Domain separation of the three permutation uses and of the instances", "statement": "The three initial values used by an instance (authentication, MAC re-keying, encryption re-keying) are pairwise different, each differs from every initial value of every other instance, and consequently the initial sponge states of MAC, re-keying for MAC and re-keying for encryption differ whatever key and nonce are.", "quantifier": "every key, nonce and pair of uses/instances", "why_tests_cant": "Universal over keys and nonces.", "anchors": ["crypto_aead/isapxv20/ref/isap.h", "crypto_aead/isapxv20/ref/isap.c: ISAP_IV_A, ISAP_IV_KA, ISAP_IV_KE"]}
{"id": "C42", "title": "Different nonces never give the same keystream state", "statement": "For one key, two encryptions under different nonces never reach the same keystream generator state at the same block index.", "quantifier": "every key, every pair of distinct nonces, every block index", "why_tests_cant": "Universal over nonces and block indices; needs bijectivity of the permutation.", "anchors": ["crypto_aead/isapxv20/ref/crypto_aead.c: crypto_aead_encrypt, crypto_aead_decrypt", "crypto_aead/isapxv20/ref/isap.c: isap_rk, isap_mac, isap_enc", "crypto_aead/isapxv20/ref/lib/Ascon-reference/Ascon-reference.c: Ascon_Permute_Nrounds", "crypto_aead/isapxv20/ref/lib/KeccakP-400-reference/KeccakP-400-reference.c: KeccakP400_Permute_Nrounds"]}
{"id": "C43", "title": "Associated data of any length is fully authenticated by isapa128av20/avx_512", "statement": "The AVX-512 implementation of ISAP-A-128A authenticates every byte of the associated data, whatever its length. (False where unsigned long has 32 bits, as on 64-bit Windows: appending 2^32 bytes of associated data changes neither the ciphertext nor the decision of the decryption.)", "quantifier": "every key, nonce, associated data, text, memory and width of unsigned long", "why_tests_cant": "Needs associated data of 4 GiB and a platform with a 32-bit unsigned long.", "anchors": ["crypto_aead/isapa128av20/avx_512/isap.c: typedef unsigned long u32, isap_mac, isap_mac_enc", "crypto_aead/isapa128av20/avx_512/crypto_aead.c: crypto_aead_encrypt, crypto_aead_decrypt"]}
{"id": "C44", "title": "The whole ciphertext body is authenticated by isapa128v20/opt_64 and isapa128av20/avx_512", "statement": "Decryption accepts only if the tag is the MAC of the whole ciphertext body, whatever its length. (False where unsigned long has 32 bits: the MAC covers the length of the body modulo 2^32 only, so any 2^32 bytes can be inserted between the body and the tag of a genuine ciphertext and are accepted.)", "quantifier": "every key, nonce, associated data, ciphertext, inserted bytes, memory and width of unsigned long", "why_tests_cant": "Needs texts of more than 4 GiB and a platform with a 32-bit unsigned long.", "anchors": ["crypto_aead/isapa128v20/opt_64/isap.c: typedef unsigned long u32, ABSORB_MAC, isap_mac", "crypto_aead/isapa128av20/avx_512/isap.c: typedef unsigned long u32, isap_mac", "crypto_aead/isapa128v20/opt_64/crypto_aead.c: crypto_aead_encrypt, crypto_aead_decrypt"]}
{"id": "C45", "title": "isapa128v20/opt_64 and isapa128av20/avx_512 encrypt every byte of the text", "statement": "Encryption writes every byte of the ciphertext, so that encrypting in place leaves no byte of the text, whatever its length. (False where unsigned long has 32 bits: isapa128v20/opt_64 never writes the last bytes of texts of 2^32 bytes or more whose length is no multiple of 8; isapa128av20/avx_512 never writes any byte from position 2^32 on. In place these bytes stay in clear.)", "quantifier": "every key, nonce, associated data, text, memory and width of unsigned long", "why_tests_cant": "Needs texts of more than 4 GiB and a platform with a 32-bit unsigned long.", "anchors": ["crypto_aead/isapa128v20/opt_64/isap.c: typedef unsigned long u32, isap_enc", "crypto_aead/isapa128av20/avx_512/isap.c: typedef unsigned long u32, idx8_enc in isap_mac_enc"]}
{"id": "C46", "title": "Every implementation passes the known-answer test program", "statement": "tests/genkat_aead.c linked with an implementation of an instance runs without undefined behaviour, returns 0, reports no error and writes exactly the file determined by the ISAP specification of that instance (1089 entries in order, upper-case hexadecimal); so every implementation of an instance writes the same file. tests/demo.c prints the last entry with count 1 and returns 0; tests/bulk.c returns 0.", "quantifier": "every implementation (bi_32_armv7m excepted), every initial memory, every placement of the local arrays that meets the implementation's alignment condition, every content of uninitialised variables", "why_tests_cant": "The program is itself the test: running it says nothing about its own buffer sizes, about other placements of its arrays, or about platforms on which it has not been run; test_all.sh runs it for one instance and the non-ARM directories only.", "anchors": ["tests/genkat_aead.c: main, generate_test_vectors, fprint_bstr, init_buffer", "crypto_aead/isapxv20/ref/genkat_aead.c: generate_test_vectors", "tests/demo.c: main, generate_test_vectors", "tests/bulk.c: main"]}
{"id": "C47", "title": "Every crypto_hash passes the known-answer test program", "statement": "tests/genkat_hash.c linked with crypto_hash of a directory runs without undefined behaviour, returns 0, reports no error and writes exactly the file determined by the specification of Ascon-Hash (1025 entries).", "quantifier": "every directory of crypto_aead_hash (bi_32_armv7m excepted), every initial memory and placement of the local arrays", "why_tests_cant": "As C46; the test script runs the program for part of the directories only.", "anchors": ["tests/genkat_hash.c: main, generate_test_vectors, fprint_bstr, init_buffer", "crypto_aead_hash/isapa128av20/opt_64/crypto_hash.c: crypto_hash"]}
{"id": "C48", "title": "isapa128av20/bi_32_armv7m is consistent with itself, which is why the test program accepts it", "statement": "bi_32_armv7m (shown in C24 not to be ISAP-A-128A) computes exactly the scheme obtained from ISAP-A-128A, and the hash obtained from Ascon-Hash, when the five lanes of the state are rotated by three places after every round of Ascon-p. Hence it decrypts what it encrypts, accepts exactly its own ciphertexts, has no undefined behaviour on valid calls and the same secret-independent traces as the other implementations; genkat_aead.c and genkat_hash.c linked with it return 0 and report no error although the files they write differ from the published ones.", "quantifier": "every state; every valid call with aligned pointers, all lengths; every initial memory of the test programs", "why_tests_cant": "The test program checks only that decryption inverts encryption; comparing its output file needs the target hardware, and says nothing about what is computed instead.", "anchors": ["crypto_aead_hash/isapa128av20/bi_32_armv7m/asconp.h: ROUND, PROUNDS", "crypto_aead_hash/isapa128av20/bi_32_armv7m/isap.c: isap_rk, isap_mac, isap_enc", "crypto_aead_hash/isapa128av20/bi_32_armv7m/crypto_aead.c: crypto_aead_encrypt, crypto_aead_decrypt", "tests/genkat_aead.c: generate_test_vectors", "tests/genkat_hash.c: generate_test_vectors"]}
{"id": "C49", "title": "Aligned buffers suffice on machines that require alignment", "statement": "On a machine that traps misaligned accesses, crypto_aead_encrypt and crypto_aead_decrypt are defined and compute ISAP when all buffers, constants and local arrays are at multiples of 8, for all lengths. (False: the optimised ISAP-A-128 implementations store the tag with 8-byte accesses right behind the ciphertext, so encryption works only for texts whose length is a multiple of 8, while decryption works for all; opt_64 of ISAP-K reads 8 bytes at multiples of 18, so only calls with fewer than 36 bytes of text and of associated data work, and encryption only for even lengths.)", "quantifier": "every placement of the buffers, every valid call, all lengths", "why_tests_cant": "The implementations are tested on machines that tolerate misaligned accesses, with whatever alignment the compiler gives the buffers; the failures depend on the length of the text.", "anchors": ["crypto_aead/isapa128v20/opt_64/isap.c: isap_mac (239-241)", "crypto_aead/isapa128v20/opt_32/isap.c: isap_mac", "crypto_aead/isapa128v20/opt_32_armv67m/isap.c: isap_mac", "crypto_aead/isapk128v20/opt_64/isap.c: ABSORB_MAC, isap_mac, isap_enc", "crypto_aead/isapk128av20/opt_64/isap.c: ABSORB_MAC, isap_mac, isap_enc"]}
{"id": "C50", "title": "The ARM assembler files compute Keccak-p[400] on the machine: registers, stack, addresses and branches", "statement": "Every function of KeccakP-400-armv7m-le-gcc.s and KeccakP-400-armv6m-le-gcc.s, run instruction by instruction, never faults, returns to the address in lr, keeps r4-r11 and sp, accesses only the state, its arguments, the constants and its stack frame, changes nothing else, makes the same accesses and branches for all data, and has the intended effect: the last n rounds of Keccak-p[400] on the 50 bytes of the state (any 0 < n <= 20), or the exact byte operation. (False in one respect: the armv7m permutation loads words at addresses 2 mod 4 on every call, so on a core that traps unaligned words every call ends in a fault, even with an aligned state. The armv6m file never does.)", "quantifier": "every contents of registers, flags and memory; every placement of state, buffers, stack and constants; every number of rounds, offset and length", "why_tests_cant": "The files run only on the target hardware. A clobbered callee-saved register, a write below the stack frame or an address depending on data shows up only in particular callers, interrupt handlers or measurements.", "anchors": ["crypto_aead/isapk128av20/opt_32_armv7m/KeccakP-400-armv7m-le-gcc.s: KeccakP400_Permute_Nrounds, KeccakP400_Permute_20rounds, KeccakP400_OverwriteWithZeroes, KeccakP400_AddBytes, KeccakP400_ExtractAndAddBytes", "crypto_aead/isapk128av20/opt_32_armv6m/KeccakP-400-armv6m-le-gcc.s: KeccakP400_Permute_Nrounds, KeccakP400_Permute_20rounds, KeccakP400_OverwriteWithZeroes", "crypto_aead/isapk128v20/opt_32_armv7m/KeccakP-400-armv7m-le-gcc.s: same text", "crypto_aead/isapk128v20/opt_32_armv6m/KeccakP-400-armv6m-le-gcc.s: same text"]}
{"id": "C51", "title": "The inline assembly is correct under every register assignment its constraints permit", "statement": "Whatever registers (or immediates) a compiler picks for the operands of an asm statement within its constraints, the statement computes one Ascon round (the rotated round of C48 for bi_32_armv7m, the round without constant for opt_32_armv67m) on the bit-interleaved state in its operands, changes no register that is not an output, and leaves the flags as they were unless \"cc\" is declared. (Holds for bi_32_armv6, bi_32_armv7m and opt_32_armv67m. False for bi_32_armv6m, bi_32_armv6m_compact and bi_32_armv6m_stp: the inputs are \"ri\", the temporaries \"=l\" without early-clobber mark, and C_o is read after the temporaries are written, so an assignment in which C_o shares the register of a temporary is permitted and gives a wrong round; also movs changes the flags and \"cc\" is not declared. The exact safe case is proved: C_o immediate, in a register of its own, or in that of x4_o.)", "quantifier": "every assignment of operands to places permitted by the constraints, every register contents and flags, every state and round constant", "why_tests_cant": "A test sees the one assignment that one compiler version chose at one optimisation level (with the constants propagated, always immediates). The assignment that breaks the round appears when a compiler keeps the constant in a register.", "anchors": ["crypto_aead/isapa128av20/bi_32_armv6/asconp.h: ROUND (98-164)", "crypto_aead/isapa128av20/bi_32_armv7m/asconp.h: ROUND (101-161)", "crypto_aead/isapa128av20/bi_32_armv6m/asconp.h: ROUND (98-243)", "crypto_aead/isapa128av20/bi_32_armv6m_compact/asconp.h: ROUND (98-243)", "crypto_aead/isapa128av20/bi_32_armv6m_stp/asconp.h: ROUND (99-244)", "crypto_aead/isapa128v20/opt_32_armv67m/asconp.h: ROUND (69-134)"]}
{"id": "C52", "title": "test_all.sh reports PASS only for what was compiled and wrote the reference file", "statement": "tests/test_all.sh prints PASS below a directory only if the sources of that directory compiled and the program made from them wrote a file equal to the reference file, and its exit status tells whether everything passed. (True when every compilation succeeds and every output file can be opened; with the package's sources the script then says PASS everywhere exactly when the two reference files are those that ISAP-A-128A and Ascon-Hash determine. False otherwise: if nothing compiles in a fresh checkout every line says PASS, because diff reports the missing file on stderr only; after an earlier run the old executable and the old files are compared; the exit status is 0 also when every line says FAIL.)", "quantifier": "every outcome of every compilation, every program compiled, every contents of the directory before the run, every diff that prints nothing exactly for equal files", "why_tests_cant": "The script is the test. Its runs on a machine with a working compiler look right; that a failed build counts as PASS shows only when something else is broken, and then nobody is told.", "anchors": ["tests/test_all.sh: first loop (12-43)", "tests/test_all.sh: second loop (48-84)", "tests/genkat_aead.c: generate_test_vectors", "tests/genkat_hash.c: generate_test_vectors"]}
{"id": "C53", "title": "getcycles.c measures the encryption it names and bench_all.sh shows it under the right length", "statement": "Every measurement of tests/getcycles.c encrypts (or hashes) the random text of the named length without undefined behaviour and returns the cycles that have passed; the numbers printed are the least count and the median per byte, rounded to nearest; tests/bench_all.sh shows the values for 64, 1536 and 32768 bytes. (Proved: no undefined behaviour, the ciphertext or digest left in the buffer, the count modulo the width of before/after, least count and upper median for any correct qsort. False: on ARM the counters have 32 bits, so every measurement of 2^32 cycles or more is wrong; 0.5 and 0.05 are added before printf rounds, so every value is rounded up; bench_all.sh takes fields 6, 4, 2 from the right, so it shows the value for 16 bytes under 64 and the value for 64 bytes under 1536.)", "quantifier": "every implementation of the table, every sequence of random numbers, every clock that does not run backwards, every correct qsort, every rounding to double that is monotone and exact on 53-bit numbers", "why_tests_cant": "Benchmarks print plausible numbers whatever they measure; nothing compares them with anything. A label on the wrong column or a systematic rounding up is invisible in the output.", "anchors": ["tests/getcycles.c: init_input (71-79)", "tests/getcycles.c: measure (81-99)", "tests/getcycles.c: compare_uint64 (101-107)", "tests/getcycles.c: main (109-154)", "tests/bench_all.sh: loops (31-39, 62-75)"]}
{"id": "C54", "title": "The states the permutation is called on: one bit at a time under the key, none under the key while hashing", "statement": "Put a device on the permutation of the reference implementation that records an arbitrary function of the whole state at every call. Result and memory stay the same, and the record is exactly that of the calls ISAP specifies: for encryption the re-keying with the nonce, the key stream, the hash of nonce, associated data and ciphertext, the re-keying with the hash, one last call; for decryption the authentication first, and the key stream only after the tag has been accepted. Hence: the hash calls do not depend on the key; over any two messages under one key each of the 129 re-keying calls has at most two possible inputs once the calls before it are fixed, and these differ in exactly the first bit; a rejected message causes no call after the computation of its tag; the key stream calls depend on key, nonce and length only.", "quantifier": "all four reference builds, every function of the state, every key, nonce, associated data, message or ciphertext, every memory layout, and any pair of such runs under one key", "why_tests_cant": "The known-answer tests see only outputs. Code that absorbs the bits in another grouping with compensating arithmetic, permutes a key-dependent state more often than specified, or starts decrypting before the tag is checked gives the same ciphertexts while losing the protection against side channels for which ISAP was designed.", "anchors": ["isap.c: isap_rk (15-44)", "isap.c: isap_mac (50-118)", "isap.c: isap_enc (124-147)", "crypto_aead.c: crypto_aead_encrypt, crypto_aead_decrypt"]}
{"id": "C55", "title": "time_all.sh prints the user time of each implementation", "statement": "The lines of tests/time_all.sh show below every directory the user time of tests/bulk.c compiled from that directory. (Proved when every compilation succeeds: the third field from the right of what bash's time reports is the user time, whatever else the program or bash prints. False otherwise: after a failed compilation the program of an earlier directory or of an earlier run is measured under the new name; without any program the time bash needs to find none is printed; no failure shows in the output.)", "quantifier": "every outcome of gcc for every directory, every report of time, every program left behind by an earlier run", "why_tests_cant": "The numbers look plausible in every case; nobody compares them with anything. What happens after a failed compilation depends on files left behind by other runs.", "anchors": ["tests/time_all.sh: list (12-30)", "tests/time_all.sh: loop (31-37)"]}
{"id": "C56", "title": "The DEBUG build computes the same and what it prints is true", "statement": "isapxv20/ref compiled with -DDEBUG=1 (documented in its README) returns the same values and leaves the same bytes in memory as the build with -DDEBUG=0, without undefined behaviour: whenever it prints the state, all bytes of the state are initialised, also in isap_enc, whose state array starts uninitialised. Every operation of permutation.c prints one line with its name and arguments and, except for the extraction, one line with exactly the bytes of the state that the operation leaves behind.", "quantifier": "all four builds, every valid call with any key, nonce, associated data, message or ciphertext, every memory layout, assertions on or off; every state, offset, length and number of rounds for the operations", "why_tests_cant": "The debug build is not run by any test. A print that reads an uninitialised byte, or that shows the state before instead of after the operation, gives output that looks right.", "anchors": ["isapxv20/ref/permutation.c: print_state (10-16)", "isapxv20/ref/permutation.c: Permutation_* (18-85)", "isapxv20/ref/CMakeLists.txt: DEBUG (22-23)", "isapxv20/ref/isap.c: isap_enc (124-147)"]}
{"id": "C57", "title": "The Keccak reference permutation computes in place without undefined behaviour", "statement": "KeccakP-400-reference.c works on the caller's state as an array of 16-bit lanes, with uninitialised local arrays C, D and tempA. Executed access by access it reads no uninitialised lane, no lane or table entry out of bounds, shifts no lane out of the range of int, and leaves exactly Keccak-p[400] of the state in the state and every other byte of memory unchanged; asked for more than 20 rounds it makes none. Which addresses it touches, and in which order, does not depend on the state. Under crypto_aead_encrypt and crypto_aead_decrypt of the Keccak builds, results, memory, number of permutation calls and independence of the trace from secrets are as claimed for the reference (C02, C03, C16-C18).", "quantifier": "every state, every number of rounds, every memory and placement of the arrays; for the API both Keccak builds and every valid call with any key, nonce, associated data, message or ciphertext", "why_tests_cant": "A lane read before it is written usually reads what an earlier call left on the stack; the answers can still be right. Steps done in place (chi, pi) go wrong only if the order of reads and writes is wrong for some lanes, and tests see the order of accesses not at all.", "anchors": ["crypto_aead/isapxv20/ref/lib/KeccakP-400-reference/KeccakP-400-reference.c: KeccakP400_Permute_Nrounds (115-143)", "KeccakP-400-reference.c: KeccakP400OnWords, KeccakP400Round (145-159)", "KeccakP-400-reference.c: theta, rho, pi, chi, iota (161-215)"]}
{"id": "C58", "title": "The states on which the optimised ISAP-A-128A implementations call their permutation", "statement": "Put a device on P_sH, P_sB, P_sE and P_sK of the optimised implementations that records an arbitrary function of the five words at every call. Result and memory stay the same, and the record is exactly that of the calls ISAP specifies, in the specified order, each on the specified state in the representation of that implementation. Hence the statements of C54 hold for them: the hash calls depend neither on the key nor on the implementation; over any two messages under one key, even processed by two different implementations, each of the 129 re-keying calls has at most two possible inputs once the calls before it are fixed, and these differ in exactly the first bit; a rejected message causes no call after the computation of its tag; the key stream calls depend on key, nonce and length only.", "quantifier": "the twelve optimised isapa128av20 implementations outside armv7m and stp, every function of the five words, every key, nonce, associated data, message or ciphertext, every initial content of the uninitialised local state, every memory layout (aligned where the machine requires it), any pair of such runs under one key", "why_tests_cant": "The known-answer tests see only outputs. The hand-unrolled re-keying loop, with its jump out of the middle of the last iteration, and the lane-wise code could permute key-dependent states more often, or several bits at once, and still give the right ciphertexts.", "anchors": ["crypto_aead/isapa128av20/opt_64/isap.c: ABSORB_LANES, isap_rk, isap_mac, isap_enc (same text in all isapa128av20 variants)", "crypto_aead/isapa128av20/*/asconp.h: P_sH, P_sB, P_sE, P_sK", "crypto_aead.c: crypto_aead_encrypt, crypto_aead_decrypt"]}
{"id": "C59", "title": "The states on which the optimised ISAP-A-128 implementations call their permutation", "statement": "Put a device on P12 of isapa128v20/opt_64 and on P_sH, P_sB, P_sE and P_sK (with their unrolled versions) of opt_32 and opt_32_armv67m that records an arbitrary function of the five words at every call. Result and memory stay the same, and the record is exactly that of the calls ISAP-A-128 specifies, in the specified order, each on the specified state in the representation of that implementation. Hence the statements of C54 hold for them: the hash calls depend neither on the key nor on the implementation; over any two messages under one key, even processed by two different implementations, each of the 129 re-keying calls has at most two possible inputs once the calls before it are fixed, and these differ in exactly the first bit; a rejected message causes no call after the computation of its tag; the key stream calls depend on key, nonce and length only.", "quantifier": "the three optimised isapa128v20 implementations (64-bit unsigned long in opt_64), every function of the five words, every key, nonce, associated data, message or ciphertext, every memory layout on a machine that permits misaligned accesses, any pair of such runs under one key", "why_tests_cant": "The known-answer tests see only outputs. opt_64 squeezes one block ahead of its loop and writes the re-keyed state through memory, opt_32 keeps the derived key in interleaved form: one more call, a call on a state that mixes in key bytes twice or a key stream block computed but never used would not change any ciphertext.", "anchors": ["crypto_aead/isapa128v20/opt_64/isap.c: ABSORB_MAC, isap_rk, isap_mac, isap_enc", "crypto_aead/isapa128v20/opt_32/isap.c: isap_rk, isap_mac, isap_enc", "crypto_aead/isapa128v20/opt_32_armv67m/isap.c: isap_rk, isap_mac, isap_enc", "crypto_aead.c: crypto_aead_encrypt, crypto_aead_decrypt"]}
{"id": "C60", "title": "The states on which the Keccak opt_64 and avx512 implementations call their permutation", "statement": "Put a device on PermuteRoundsHX, PermuteRoundsBX, PermuteRoundsEX and PermuteRoundsKX of isapk128v20/opt_64, isapk128av20/opt_64 and isapk128av20/avx512 that records an arbitrary function of the 25 lanes at every call. Result and memory stay the same, and the record is exactly that of the calls ISAP-K-128 or ISAP-K-128A specifies, in the specified order and each on the specified state. Hence the statements of C54 hold for them: the hash calls depend neither on the key nor on the implementation; over any two messages under one key, even processed by two different implementations of the instance, each of the 129 re-keying calls has at most two possible inputs once the calls before it are fixed, and these differ in exactly the first bit; a rejected message causes no call after the computation of its tag; the key stream calls depend on key, nonce and length only.", "quantifier": "the three implementations, every function of the state, every key, nonce, associated data, message or ciphertext, every content of the uninitialised variables, every memory layout on a machine that permits misaligned accesses (opt_64: in which the bytes it reads behind the associated data exist), any pair of such runs under one key", "why_tests_cant": "The known-answer tests see only outputs. The files keep the state in local variables, absorb whole lanes and write only two bytes of the last one: a lane absorbed before the previous call, stale bytes of the lane buffer left in the state before a call and removed after it, or one more call would show in no ciphertext.", "anchors": ["crypto_aead/isapk128av20/opt_64/isap.c: isap_rk, isap_mac, isap_enc", "crypto_aead/isapk128v20/opt_64/isap.c: isap_rk, isap_mac, isap_enc", "crypto_aead/isapk128av20/avx512/isap.c: isap_rk, isap_mac, isap_enc", "crypto_aead.c: crypto_aead_encrypt, crypto_aead_decrypt"]}
{"id": "C61", "title": "The states on which the Keccak ARM implementations call their permutation", "statement": "Put a device on KeccakP400_Permute_Nrounds of the opt_32_armv6m and opt_32_armv7m implementations of isapk128v20 and isapk128av20 that records an arbitrary function of the 50 bytes of the state at every call. Result and memory stay the same, and the record is exactly that of the calls ISAP-K-128 or ISAP-K-128A specifies, in the specified order and each on the specified state. Hence the statements of C54 hold for them: the hash calls depend neither on the key nor on the implementation; over any two messages under one key, even processed by two different implementations of the instance, each of the 129 re-keying calls has at most two possible inputs once the calls before it are fixed, and these differ in exactly the first bit; a rejected message causes no call after the computation of its tag; the key stream calls depend on key, nonce and length only.", "quantifier": "the four implementations, every function of the state, every key, nonce, associated data, message or ciphertext, every content of the registers and uninitialised variables, every memory layout meeting the conditions of C33 (lengths below 2^32, aligned locals, long buffers at even addresses where alignment is required), any pair of such runs under one key", "why_tests_cant": "The known-answer tests see only outputs. The files change the state in memory by bytes, half words and words between the calls: bytes absorbed one call too early and compensated later, or one more call after the last block, would show in no ciphertext.", "anchors": ["crypto_aead/isapk128av20/opt_32_armv7m/isap.c: isap_rk, isap_mac, isap_enc", "crypto_aead/isapk128av20/opt_32_armv6m/isap.c: isap_rk, isap_mac, isap_enc", "crypto_aead/isapk128v20/opt_32_armv7m/isap.c: isap_rk, isap_mac, isap_enc", "crypto_aead/isapk128v20/opt_32_armv6m/isap.c: isap_rk, isap_mac, isap_enc", "crypto_aead.c: crypto_aead_encrypt, crypto_aead_decrypt"]}
{"id": "C62", "title": "The states on which isapa128av20/avx_512 permutes", "statement": "Put a device on P12, P6, P1, P6_avx_first and P6_avx_second of isapa128av20/avx_512 that records an arbitrary function of every state they work on. Result and memory stay the same. Decryption permutes exactly the states ISAP-A-128A specifies, in the specified order. Encryption permutes the states of the specification in another order: re-keying for the key stream; the hash up to the last block of the associated data; then, once for every 16 bytes of the message and at least once, two key stream calls in one half of the vector registers and one hash call, cut into two times six rounds, in the other half; the rest of the hash; re-keying for the tag and the last call. It makes up to two key stream calls more than specified, and for the empty message it derives the encryption key and permutes twice although the specification does neither. Each of the 129 calls of a re-keying has at most two possible inputs once the calls before it are fixed, over any two messages under one key.", "quantifier": "every function of the state, every width of unsigned long up to 64 bits, every key, nonce, associated data, message or ciphertext, every memory layout meeting the conditions of C31, any pair of such runs under one key", "why_tests_cant": "The known-answer tests see only outputs. The additional calls of this implementation and their order have no influence on any output, so no test of outputs can find out which states are permuted, or that the encryption key is in the registers during the encryption of an empty message.", "anchors": ["crypto_aead/isapa128av20/avx_512/isap.c: isap_rk, isap_mac, isap_enc, isap_mac_enc, P6_avx_first, P6_avx_second", "crypto_aead/isapa128av20/avx_512/crypto_aead.c: crypto_aead_encrypt, crypto_aead_decrypt"]}
{"id": "C63", "title": "The byte order detected by the Keccak reference, and its permutation on big-endian machines", "statement": "brg_endian.h ends with a byte order or with a complaint of the preprocessor about contradictory or unusable macros, whatever is defined where it is included, and never reaches its #error. If one of the four groups of macros it knows tells the byte order and the others agree or tell nothing, its answer is that order; if two contradict each other the compiler complains; if none tells anything the answer follows the two lists of machine names, little-endian for machines not in them. Refuted: that it finds the byte order of the machine; with the macros predefined by GCC alone it takes big-endian MIPS, ARM, AArch64 and z/Architecture for little-endian. On a machine so mistaken KeccakP400_Permute_Nrounds of the reference computes the specified permutation between two exchanges of the bytes of every lane, which differs from the specified one for every number of rounds; on a big-endian machine found to be one it calls functions that exist nowhere.", "quantifier": "every set of predefined macros and every value they may have; every number of rounds up to 20, every state", "why_tests_cant": "The test programs are compiled for the machine at hand with one set of predefined macros. No test on a little-endian machine compiles the other branch, and the detection of a platform can be tested only on that platform.", "anchors": ["crypto_aead/isapk128av20/ref/brg_endian.h: PLATFORM_BYTE_ORDER", "crypto_aead/isapk128v20/ref/brg_endian.h: PLATFORM_BYTE_ORDER", "crypto_aead/isapxv20/ref/lib/KeccakP-400-reference/brg_endian.h: PLATFORM_BYTE_ORDER", "crypto_aead/isapk128av20/ref/KeccakP-400-reference.c: KeccakP400_Permute_Nrounds, KeccakP400_Permute_20rounds"]}
{"id": "C64", "title": "The instance built from the generic reference code", "statement": "isapxv20/ref selects one of four instances by the macros ISAP128, ISAP128A, KECCAKP400, ASCON and DEBUG. The library cannot be compiled exactly if neither of the first two, or neither of the next two, is defined, or DEBUG has no integer value. Otherwise the definitions choose exactly one instance (ISAP128 before ISAP128A, KECCAKP400 before ASCON) and encryption and decryption are those the specification gives for this instance, with DEBUG on or off: the parameters taken from isap.h and the functions chosen one by one in permutation.c always belong together. Refuted: that a request for an instance is honoured; -DISAP128A added to -DISAP128, or -DASCON added to -DKECCAKP400, is ignored without a message. As shipped, CMakeLists.txt builds ISAP-K-128.", "quantifier": "every set of macro definitions, every key, nonce, associated data, message or ciphertext, every memory layout of the caller", "why_tests_cant": "genkat_aead checks one build at a time against itself (it decrypts what it encrypted), so it also passes for an instance nobody asked for; there are unboundedly many sets of definitions.", "anchors": ["crypto_aead/isapxv20/ref/isap.h: ISAP128, ISAP128A, KECCAKP400, ASCON", "crypto_aead/isapxv20/ref/permutation.c: Permutation_Initialize, Permutation_AddBytes, Permutation_OverwriteBytes, Permutation_Permute_Nrounds, Permutation_ExtractBytes", "crypto_aead/isapxv20/ref/CMakeLists.txt"]}
{"id": "C65", "title": "What the Keccak reference computes on a big-endian machine taken for little-endian, and why the test program accepts it", "statement": "Compiled for a big-endian machine that brg_endian.h takes for little-endian (C63), isapk128av20/ref, isapk128v20/ref and the Keccak builds of isapxv20/ref compute exactly ISAP with the permutation \"exchange the bytes of every lane, Keccak-p[400], exchange them again\". They have no undefined behaviour on valid calls, decrypt what they encrypt, accept exactly their own ciphertexts, have the same secret-independent traces as on a little-endian machine, and genkat_aead.c linked with them returns 0 and reports no error. (That this is ISAP-K-128A is false: the file written differs from that of ISAP-K-128A, and the first published ciphertext is rejected.)", "quantifier": "every state and number of rounds up to 20; every valid call, all lengths; every initial memory of the test program", "why_tests_cant": "The checks in the test program are about consistency only and all pass; noticing the difference needs a big-endian machine and a comparison with the published file, and tells nothing about what is computed instead.", "anchors": ["crypto_aead/isapk128av20/ref/KeccakP-400-reference.c: KeccakP400_Permute_Nrounds (115-128), KeccakP400OnWords (145-150)", "crypto_aead/isapk128av20/ref/isap.c: isap_rk, isap_mac, isap_enc", "crypto_aead/isapk128av20/ref/crypto_aead.c: crypto_aead_encrypt, crypto_aead_decrypt", "crypto_aead/isapk128v20/ref", "tests/genkat_aead.c: generate_test_vectors"]}
{"id": "C66", "title": "The prototypes of permutation.h, which differ from the definitions in permutation.c, do no harm", "statement": "isap.c of isapxv20/ref passes offsets, lengths and round numbers as size_t (permutation.h), the functions in permutation.c take unsigned int. If the callee finds the low bits of the arguments, encryption and decryption compute the specification for every width of unsigned int from 6 bits on, without undefined behaviour, and traces stay independent of secrets. The bound is tight: with 5 bits the domain separation bit of the Keccak instances would go to byte 17 instead of 49.", "quantifier": "every width of unsigned int from 6 bits on, the four instances, every valid call, all lengths", "why_tests_cant": "Tests run with one pair of widths. That no call ever passes a value that the narrower type cannot hold is a statement about all lengths of message and associated data.", "anchors": ["crypto_aead/isapxv20/ref/permutation.h: 4-33", "crypto_aead/isapxv20/ref/permutation.c: Permutation_AddBytes, Permutation_OverwriteBytes, Permutation_Permute_Nrounds, Permutation_ExtractBytes (30-85)", "crypto_aead/isapxv20/ref/isap.c: isap_rk, isap_mac, isap_enc"]}
