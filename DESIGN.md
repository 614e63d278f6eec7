# Formal model of the ISAP code package

Subject: `/repo` (isap-lwc/isap-code-package, C sources). The model is written in Rocq (Coq 8.16.1) under `rocq/theories`
(logical name `Verif`). Nothing of `/repo` is compiled or run; the model was transcribed by reading.

## Trusted base

* The Coq 8.16.1 kernel (including its `vm_compute` virtual machine, used to close finite computations).
* `Print Assumptions` is printed under every property theorem; the expected answer everywhere is
  "Closed under the global context" (no axioms). No axioms, parameters or section-less hypotheses are added.
* The reading of the C/assembly text into Gallina: each definition carries a comment naming the file and lines it models.
* The C semantics chosen below.
* The specification `Spec.v` (ISAP v2.0 and Ascon-Hash). It is tested, not proved: `Kat.v` evaluates the last vector of each
  LWC_AEAD_KAT_128_128.txt and three vectors of LWC_HASH_KAT_256.txt shipped in /repo and finds the values printed
  there (ISAP-A-128A and the hash as proved equations, the other three instances as computations done while the file is
  compiled); `first_k_ok` (BigEndianProof.v) is the first vector of isapk128av20 as a proved equation. A one-off comparison outside
  the build, with Spec.v extracted to OCaml, agreed with all 1025 vectors of LWC_HASH_KAT_256.txt, 59 of isapk128av20 and 5 of isapa128av20.

## C semantics of the model

* Bytes are `N` below 256; machine words are `N` with explicit truncation modulo `2^w`; `unsigned long long` and `size_t` are
  64-bit; the width of `unsigned long` is a parameter where the code depends on it. With a 32-bit `size_t` nothing changes (by
  inspection, not proved): no object has 2^32 bytes there, and no `size_t` in the code exceeds the size of an object.
* Memory is a finite list of blocks (C objects); a pointer is a block number and an offset. Every cell is a byte or uninitialised.
  Reading outside a block, reading an uninitialised cell, writing outside a block, a failed `assert`, (optionally) a misaligned
  multi-byte access, give the distinct outcome `UB`. Loops carry fuel that exceeds 2^64 with a distinct `OutOfFuel` outcome that the
  theorems exclude.
* Every read/write of memory, every data- or length-dependent branch and every call of the permutation is recorded in a trace.
* Little-endian machine (the optimised files assume it; so does the compiled branch of KeccakP-400-reference.c; other machines: C63, C65).

* Optimised files: local `state_t`/`lane_t` unions are values (lists of five 64-bit lanes), not memory; uninitialised locals have arbitrary
  contents over which the theorems quantify. Inline assembly is read instruction by instruction with every named operand in its own
  register; C51 takes up the other assignments that the constraints permit (the armv6m files pass "ri" operands without early-clobber
  marks). Instruction encodings are not modelled.

Not modelled: compilers, strict-aliasing rules, the undefinedness of calls through the prototypes of permutation.h (size_t) to the functions of permutation.c
(unsigned int; what calling conventions make of it: C66), stack overflow, caches and timing below the level of the trace, the effect of the big-endian branch of KeccakP-400-reference.c (it calls functions
that are not defined anywhere, C63).

## Plan per property

* **C01 Decryption inverts encryption.** Corollary of C02+C03 functional theorems for the memory-level reference model; spec-level round trip is an involution of XOR with the keystream.
* **C02 Encryption computes exactly the ISAP v2.0 ciphertext and tag.** Refinement: memory-level model of ref isap.c/crypto_aead.c (bytewise loops) = pure blockwise spec (Spec.v), by induction over lengths.
* **C03 Decryption accepts exactly the ciphertexts whose tag is the MAC.** Exact functional theorem for crypto_aead_decrypt on arbitrary ciphertext bytes.
* **C04 No unverified plaintext is released.** Exact final memory on the reject path (only the *mlen cell updated).
* **C05 Any change to the tag of a genuine ciphertext is rejected.** From C03 and functional dependence of the MAC.
* **C06 Reference encryption and decryption have no undefined behaviour on valid arguments.** The monad has an explicit UB outcome (out of bounds, uninitialised read, failed assert); theorems conclude Ok.
* **C07 Only the declared outputs are written.** The theorems give the exact final memory as store(s) into the initial memory.
* **C08 In-place operation.** Same theorem under the aliasing hypothesis m = c.
* **C09 Ciphertexts shorter than the tag are rejected safely.** Refuted: clen - 16 wraps, the MAC runs off the end of the ciphertext object and the model reaches UB, in the reference (ShortCt.v) and in every optimised implementation (ShortUb.v, ShortImpl.v: a logic for "keeps the sizes of objects and reads these bytes, or is undefined").
* **C10 Results depend only on key, nonce, ad and text.** Two-memory corollary of the exact theorems, and a history (list of calls) version.
* **C11 Reported lengths.** Part of the exact final memory.
* **C12 Empty message and empty associated data never dereference their pointers.** Hypotheses on m/ad only constrain bytes at indices < length; instantiate with length 0 and arbitrary pointer.
* **C13 Ciphertext body is the message XOR a keystream fixed by key and nonce.** Spec-level theorem transported by C02.
* **C14 Encryption is injective.** Spec-level theorem transported by C02.
* **C15 The MAC input framing is unambiguous.** encode : (ad,c) -> list of (block, marker); MAC factors through it; encode injective.
* **C16 Encryption control flow and memory addresses do not depend on secrets.** Relational (two-run) logic over the trace-emitting monad (Trace.v, RefTrace.v, RefTrace2.v). For all entries of the table of C40: Ct.v (relational logic that also computes the list of permutation calls), OptCt.v, A128Ct.v, KCt.v, KArmCt.v, AvxACt.v (one per isap.c), ApiCt.v (crypto_aead.c), TableCt.v; StpCt.v for the STP directories (PropsStpCt.v), whose decryption makes two further permutation calls. Assumed about the machine: straight-line word code inside one permutation, byte conversions and fixed-count loops over locals emit no events.
* **C17 Decryption control flow and memory addresses depend only on lengths and the verdict.** Same for decrypt.
* **C18 Amount of permutation work is a fixed function of the lengths.** Permutation events are logged in the trace; count is computed. The same list of calls for every implementation, except that avx_512 interleaves the encryption calls with those of the MAC.
* **C19 Ascon permutation of the reference library is the specified Ascon-p and is a bijection.** Bit-level spec with S-box table; injectivity from the S-box inverse table and six squarings of each Sigma_i over GF(2)[X]/(X^64-1) (Bij.v); onto by finiteness.
* **C20 Keccak-p[400] permutation of the reference library is the specified one and is a bijection.** Bit-level (x,y,z) spec; injectivity from the chi row table, the theta parity polynomial 1+x+x^4 z (power 16, then inverse modulo x^5-1) and the rho/pi index permutations (Bij.v); onto by finiteness.
* **C21 State access functions of the reference permutation libraries.** Exact effect of each helper; abort outside the range; refuted when offset+length wraps modulo 2^32 (LibProof.v, PropsPerm.v).
* **C22 isapa128av20/opt_64 agrees with the reference on all inputs.** isap.c of the opt family modelled once over an abstract asconp interface; interface laws proved for opt_64 by verified symbolic (ANF) equivalence check.
* **C23 isapa128av20/opt_32 family agrees with the reference on all inputs.** Interface laws for opt_32, compact, tiny.
* **C24 isapa128av20/bi_32 family (bit-interleaved) agrees with the reference on all inputs.** Interface laws for bi_32*, including inline assembly transcribed instruction by instruction; bi_32_armv7m refuted by a computed run (OptEx.v).
* **C25 isapa128av20/bi_8 and opt_8 families agree with the reference on all inputs.** Interface laws for bi_8, opt_8, opt_8_tiny.
* **C26 Bit interleaving conversions are inverse bijections that commute with the permutation.** Part of the interface laws.
* **C27 isapa128v20 optimised implementations agree with the reference on all inputs.** Separate models of the isapa128v20 files (A128Perm.v: permutations, incl. the inline assembly of opt_32_armv67m; A128.v: isap.c). opt_64 with a 64-bit unsigned long, opt_32 and opt_32_armv67m (whose lengths are unsigned long long throughout) for all lengths; opt_64 with a narrower unsigned long for lengths that fit. Machine permitting misaligned accesses (the tag is stored through a u64 pointer at c+mlen).
* **C28 Associated data of any length is fully authenticated by isapa128v20/opt_64.** Width of unsigned long is a model parameter; refuted for 32 (any 2^32 further bytes of associated data are ignored by encryption and decryption); for 64 the absorbed blocks determine the associated data.
* **C29 isapk opt_64 implementations agree with the reference on all inputs.** K64Perm.v models the unrolled macros variable by variable (symbolic check of each macro, KRound.v), KIsap.v isap.c over a record of the operations in which opt_64 and avx512 differ. The code loads 8 bytes where 2 are needed, so agreement is stated for the calls on which the bytes read exist (`six_more` in VocabK.v: fewer than 18 bytes of associated data, or 6 readable bytes behind the last full block); behind the last full block of a ciphertext the tag supplies them. Uninitialised locals have arbitrary contents. Machine permitting misaligned accesses.
* **C30 isapk opt_64 reads only the associated data it was given.** Refuted by a witness with adlen = 18 in an 18-byte block: outcome UB. Further: every call without the 6 bytes is undefined (K64Impl.v), and the lengths for which no call is affected.
* **C31 isapa128av20/avx_512 interleaved encryption agrees with the reference.** AvxA.v: the vector registers as pairs of 64-bit elements (one for encryption, one for the MAC), isap_mac_enc statement by statement; the loop invariant relates the keystream lane to the MAC lane, which lags one lane behind (AvxAEnc.v). Lengths below 2^(width of unsigned long) and text below 2^63; machine permitting misaligned accesses.
* **C32 isapk128av20/avx512 agrees with the reference.** KAvxPerm.v: 32 lanes of 16 bits per vector register, instruction by instruction; lanes 25-31 and all scratch registers start with arbitrary contents. One round per direction checked symbolically; a definedness check shows that the scratch registers are written before they are read. isap.c as for C29 (KIsap.v, kavx_ops); masked loads and stores access exactly the selected bytes.
* **C33 isapk ARM assembly implementations agree with the reference.** KArmPerm.v: registers, the state in memory and its copy on the stack as variables, one statement per instruction; the unrolled rounds are checked symbolically, any previous contents of registers and stack. KArm.v: isap.c (uint16_t accesses with alignment, 32-bit lengths and indices) and the byte functions of the assembler files. Proved under conditions on lengths and alignment; without the latter refuted. Callee-saved registers, stack frame and address registers are the subject of C50.
* **C34 STP variants accept every genuine ciphertext (sequential use).** s0 and s1 are two memory blocks with arbitrary previous contents (OptStp.v); the decryption may run in any memory.
* **C35 STP variants: exact acceptance condition.** Exact functional theorem with final memory for both outcomes (StpProof.v).
* **C36 STP variants may be called concurrently.** A thread is a list of atomic steps over the shared memory; the one cut modelled lies in pvp between the two readings of s0 and s1 (isap.c 172/174 as written; a compiler may keep s0 and s1 in registers across it, which hides the race). Refuted by a concrete schedule. With a cut before pvp only, a genuine ciphertext is still accepted, because both images use the same wrong words.
* **C37 crypto_hash is Ascon-Hash and writes exactly 32 bytes.** Model of crypto_hash over the asconp interface; blockwise spec.
* **C38 crypto_hash padding is injective.** Padding injectivity.
* **C39 Which implementations tolerate buffers at any address.** strict-alignment flag in the memory model; proved for the reference, refuted for the opt family (which is proved for aligned buffers).
* **C40 Implementations of one instance interoperate.** Table.v lists the implementations that compute ISAP together with the calls on which they do (`impl_of`); every refinement theorem puts an entry into it (TableProof.v). Round trip and equality of outputs for every two entries, and for an STP directory with every entry. PropsAll.v also restates C02-C08 and C10-C14 for every entry (`Cnn_every_implementation…`).
* **C41 Domain separation of the three permutation uses and of the instances.** VocabIv.v: ISAP with its initial states given from outside. The code computes ISAP started from key/nonce padded with the constants compiled into it (both directions), and states built from different constants differ for all keys and nonces.
* **C42 Different nonces never give the same keystream state.** From bijectivity of the permutation and nonce being part of the keystream state.
* **C43 Associated data of any length is fully authenticated by isapa128av20/avx_512.** Lengths have type u32 = unsigned long; its width is a model parameter. Refuted for 32 bits (Windows x64): a multiple of 2^32 further bytes of associated data is ignored.
* **C44 The whole ciphertext body is authenticated by isapa128v20/opt_64 and isapa128av20/avx_512.** For every width UL of unsigned long the tag is proved to be the MAC of associated data and text cut to their lengths mod 2^UL (texts below 2^UL bytes, or a multiple of 8 below 2^(UL+3)). UL=32: refuted with a ciphertext made by the implementation itself; UL=64: proved.
* **C45 isapa128v20/opt_64 and isapa128av20/avx_512 encrypt every byte of the text.** Index of the last partial block is an unsigned long. UL<64: for 2^UL <= length < 2^(UL+3), not a multiple of 8, the last cells are proved unchanged; refuted for 32 with a witness in place; UL=64: proved. avx_512 (LenAvx.v): idx8_enc is an unsigned long too; for 2^UL <= length < 2^63 and 4 <= UL < 64 encryption is proved to end normally and to leave the cells from position 2^UL on unchanged (nothing is said about what it writes below); refuted for 32 with a witness in place; UL=64: proved.
* **C46 Every implementation passes the known-answer test program.** Genkat.v models genkat_aead.c, demo.c, bulk.c over any `aead`; streams are strings, fopen succeeds or not, writes succeed. VocabKat.v writes the expected file from the specification. GenkatProof.v: a logic `ends` for programs that only touch their own blocks; GenkatImpl.v instantiates it with the table of C40 and the STP directories.
* **C47 Every crypto_hash passes the known-answer test program.** Same for genkat_hash.c (GenkatMore.v).
* **C48 isapa128av20/bi_32_armv7m is consistent with itself, which is why the test program accepts it.** VocabV7m.v defines the rotated permutation and the instance ISAP_V7M; V7mPerm.v checks the round symbolically; OptGen.v repeats the proofs of OptProof.v for an arbitrary permutation Q; V7mImpl.v, V7mCt.v instantiate them. The two output files are told apart by their first entries, computed.
* **C49 Aligned buffers suffice on machines that require alignment.** Refuted. AlignEq.v, AlignK.v: program by program, strict and lenient machine behave the same when every access is aligned (a relation between two programs); AlignImpl.v carries the correctness theorems over. MisUb.v: the remaining calls are undefined, with the logic of ShortUb.v.
* **C50 The ARM assembler files on the machine.** ArmIsa.v: registers, flags Z and C, 2^32 bytes of memory with a readable and a writable part, ldm/stm/push/pop only at multiples of 4, other accesses anywhere or (`una = false`) only aligned; basic blocks instead of a program counter, so the code is not in memory and only the table of constants is. ArmAsm.v: both files, macros expanded by Gallina functions with the same names. ArmSim.v, ArmLoop.v: one round of the machine simulates one round of KArmPerm.v (which C33 relates to the specification), with the copy of the state in the stack frame; ArmPerm7.v, ArmPerm6.v: prologue, entry point by number of rounds, terminator of the table, epilogue. ArmBytes.v, ArmZero.v: byte functions. ArmTrap.v: the refuted part, for every state. Not modelled: condition codes N and V (never read), instruction encodings, interrupts, the value of pc used by `adr` (the table is at an arbitrary address).
* **C51 The inline assembly under every permitted register assignment.** InAsm.v: asm statements with operands, constraints and clobbers, a machine with registers and flags N, Z that runs a template under an assignment b of operands to registers or immediates. VocabInAsm.v: what the constraints permit (GCC manual, Extended Asm): outputs in distinct registers, inputs may share the register of an output without `&`. InAsmProof.v: a checker `chk` walks a template once and tracks which operands are still intact when inputs share given outputs; if it accepts, the machine agrees with the straight-line program of OptPerm.v/A128Perm.v (C24, C28, C48) under every such assignment. The refuted part has a witness for each temporary. Not modelled: which registers an instruction can encode, and what compilers add by themselves to the clobber list of every statement.
* **C52 The verdicts of test_all.sh.** Script.v: the two loops of the script over a state with the executable `genkat` and the text files; gcc, the compiled programs and diff are arguments. gcc leaves an old executable alone when it fails before linking and removes it when the linker fails; nothing stops the script (no `set -e`). ScriptProof.v: the exact output by induction over the two lists of directories; `C52_package_passes` plugs in the theorems of C46/C47 on the file each directory's program writes. Trusted in the script model: the bash reading of `$( )`, `[[ ]]`, and that diff prints nothing on stdout for a missing file.
* **C53 getcycles.c and bench_all.sh.** Getcycles.v: init_input, measure, compare_uint64 and what main prints; rand, the cycle counter, qsort and the rounding of doubles are arguments, the counter a number that never wraps and is read modulo 2^64 or 2^32. Doubles are rationals, rounded after every operation; conversions and `%.0f`, `%.1f` (exact value, ties to even) are written out. Script.v: word splitting, rev and cut of bench_all.sh. GetProof.v: the invariant of the measurement loops over the table of implementations and over the hash functions. GetPrint.v: qsort, rounding (exact for 32768 bytes; error bounds from monotonicity for tenths and for 32256 bytes), the fields of the last line. Not modelled: the optional argument (factor) beyond being a number, infinities, and that the compiler keeps the calls between the two counter readings.
* **C54 The states the permutation is called on.** Probe.v: isap.c and crypto_aead.c of RefIsap.v with a library whose permutation first records an arbitrary function of the state (the device is not part of /repo). VocabProbe.v lists the calls from Spec.v. ProbeProof.v goes through the proofs of RefProof.v and RefAead.v once more with a logic that carries the record; ProbeTop.v derives the independence and two-input statements by induction over the bits of the re-keying. The optimised implementations follow in C58 to C62; only isapa128av20's ARMv7-M assembly is not covered.
* **C55 time_all.sh.** Timeall.v: the loop over a state that says from which directory the file bulk was compiled; gcc and what `time` reports are arguments. TIMEFORMAT and POSIXLY_CORRECT are taken to be unset. What is timed is bulk.c of C46.
* **C56 The DEBUG build.** Debug.v: the functions of permutation.c with DEBUG = 1, whose value is the printed text; DebugProof.v shows that they satisfy the interface of RefProof.v (lib_ok, whose law for overwriting only asks for states that are fully initialised afterwards), so the proof of C02/C03 covers this build. Writing to stdout is taken to succeed.
* **C57 The Keccak reference access by access.** KMem.v: theta, rho, pi, chi, iota on the state in memory, with uninitialised local blocks; this removes the simplification of RefIsap.v (lanes read once before and written once after the rounds). KMemProof.v runs each step symbolically on 25 lanes and compares the result with the word program of RefPerm.v, whatever the scratch words of that program contain; KMemApi.v shows the interfaces of RefProof.v and RefTrace.v (lib_ok, lib_ct, lib_calls, lib_grows), so the proofs of C02, C03 and C16-C18 apply. A left shift of a promoted lane beyond int is undefined in the model.
* **C58 The states the optimised permutation is called on.** OptProbe.v: OptIsap.v with a device in front of the permutation (C58_device_off: without it, the same functions). VocabOptProbe.v: the words in which an implementation holds a state. OptProbeProof.v and ApiProbe.v go through OptProof.v and ApiProof.v with the logic of C54; OptProbeTop.v derives the statements from the list of calls alone, so that two runs may be of different implementations. Not covered: the ARMv7-M file and the inline assembly inside a permutation (only whole calls are observed).
* **C59 The same for the optimised ISAP-A-128 implementations.** A128Probe.v: A128.v with the device (C59_device_off: without it, the same functions). A128ProbeProof.v goes through A128Proof.v with the logic of C54; A128ProbeTop.v reuses ApiProbe.v and the part of OptProbeTop.v that starts from the list of calls. Only machines that permit misaligned accesses, as in C27; opt_64 with a 64-bit unsigned long.
* **C60 The same for the Keccak opt_64 and avx512 implementations.** KProbe.v: KIsap.v with the device (C60_device_off: without it, the same functions); for avx512 it sees the 25 lanes of the state, not the 14 bytes behind them. KProbeProof.v goes through KIsapProof.v with the logic of C54 and uses that the loads, stores and the permutation of an implementation record nothing themselves; KProbeTop.v as for C59. Conditions of C29 and C32 (bytes behind the associated data, contents of uninitialised variables arbitrary, misaligned accesses permitted).
* **C61 The same for the Keccak ARM implementations.** KArmProbe.v: KArm.v with the device, which reads the 50 bytes at the address passed to KeccakP400_Permute_Nrounds (C61_device_off: without it, the same functions). KArmProbeProof.v and KArmProbeTop.v as for C60. Conditions of C33.
* **C62 The same for isapa128av20/avx_512.** AvxAProbe.v: AvxA.v with the device, which sees both elements of the vector registers before P6_avx_first and P6_avx_second (C62_device_off: without it, the same functions). VocabAvxProbe.v writes the order of encryption in terms of the lists of VocabProbe.v. AvxAProbeProof.v repeats the proofs of AvxAProof.v with the record, AvxAEncProbe.v those of AvxAEnc.v; AvxAProbeTop.v goes through the API. Encryption is proved against the code's own order, which differs from the specification's: key stream and hash alternate, the key stream is permuted up to twice more than needed, and the encryption key is derived for an empty message too. Conditions of C31.
* **C63 The byte order.** ByteOrder.v: brg_endian.h as a function of the macros defined where it is included (undefined, an integer value, or no integer expression), with the complaints of the preprocessor as outcomes of their own, and the branch of KeccakP-400-reference.c compiled for the answer, on a machine of either byte order. VocabOrder.v says what it means that a group of macros tells a byte order or nothing, and repeats the two lists of machine names. ByteOrderProof.v: case distinction on the macros; for the permutation, keccak_ref_bytes of C20 between two exchanges of bytes; the difference on the state of zeros is computed for each of the 20 numbers of rounds. Which macros GCC and glibc define (gcc_order, glibc_order) is taken from their documentation and headers.
* **C64 The instance built from isapxv20/ref.** Config.v: the #ifdefs of isap.h and of every function of permutation.c, `if(DEBUG)`, and the definitions in CMakeLists.txt, as functions of the set of definitions of ByteOrder.v; a use of a macro that is not defined means that the library does not compile. ConfigProof.v: case distinction on the five macros, then C02, C03 and C56. Other names defined on the command line and the cmake commands themselves are not modelled.
* **C65 The Keccak reference on a big-endian machine taken for little-endian.** BigEndian.v: KeccakP400_Permute_Nrounds with lanes read and written as big-endian objects; the rest of the code works on single bytes and is the model of RefIsap.v (the bytes of *clen and *mlen stay in little-endian order: a simplification only a caller looking at single bytes could notice). Plan: the permutation in memory equals swap, keccak_p, swap (lemma permute_mistaken of C63); hence the laws `lib_ok` of a permutation library with that permutation; everything proved about the reference over an arbitrary library and instance (RefProof.v, RefAead.v) and about involutive schemes (V7mImpl.v) applies, as do the trace proofs of RefTrace.v and RefTrace2.v (BigEndianTrace.v). The difference from ISAP-K-128A: both tags of the first entry of the known-answer file are computed by running the two models. Not shown for ISAP-K-128 (ten times as many rounds).
* **C66 The prototypes of isapxv20/ref.** Proto.v: permutation.c called through permutation.h, every size_t argument cut to the w bits of an unsigned int. Plan: all arguments are below 64 (sizes of states and numbers of rounds), so the laws `lib_ok`, `lib_ct` and `lib_grows` carry over to the cutting library, and with them everything proved over an arbitrary library. Calls through an incompatible type are undefined in C; the model is that of calling conventions in which the callee finds the low bits.

## Findings (properties the code violates)

* C09: `clen < 16` makes crypto_aead_decrypt run off the end of the ciphertext, in every implementation.
* C21: the range assertions of the reference state functions are defeated when offset+length wraps.
* C24, C37: isapa128av20/bi_32_armv7m (also its crypto_hash) does not compute ISAP-A-128A / Ascon-Hash. It computes them with the state lanes rotated after every round; the test programs return 0 (C48).
* C28, C43: with a 32-bit `unsigned long`, isapa128v20/opt_64 and isapa128av20/avx_512 ignore 2^32 bytes of associated data.
* C44: with a 32-bit `unsigned long` the same two accept any 2^32 bytes inserted between body and tag of a genuine ciphertext.
* C45: with a 32-bit `unsigned long`, isapa128v20/opt_64 leaves the last bytes of texts of 4 GiB and more in clear when encrypting in place, and isapa128av20/avx_512 everything behind the first 4 GiB.
* C30: isapk opt_64 reads up to 6 bytes behind the associated data.
* C33, C39: optimised implementations access buffers through wider pointers, undefined at odd addresses on machines requiring alignment.
* C49: on machines requiring alignment, aligned buffers are not enough. isapa128v20 opt_64, opt_32 and opt_32_armv67m store the tag with 8-byte accesses at c + mlen (undefined unless that is a multiple of 8; the model requires natural alignment of 8-byte objects, an ARM core without unaligned access traps at 4). isapk opt_64 reads 8-byte words at src + 18 i (undefined from 36 bytes on) and stores the tag as 16-bit words (undefined at odd c + mlen).
* C50: the permutation in the armv7m file faults on every call on a core that traps unaligned words (CCR.UNALIGN_TRP = 1): it loads the words at offsets 10, 30, … of the state. C33's case of a machine requiring alignment therefore concerns only the C code around it, and only armv6m has a permutation that runs there.
* C51: in bi_32_armv6m, bi_32_armv6m_compact and bi_32_armv6m_stp the temporaries of the asm statement are `"=l"` where `"=&l"` is needed, so a compiler that keeps the upper half of the round constant in a register may put it into a temporary's register and the round is wrong; `"cc"` is missing although every round sets the flags. With constants propagated (forceinline) the inputs are immediates and the round is right.
* C52: test_all.sh says PASS for directories whose compilation failed (missing file: diff writes to stderr only; old executable or old output file: compared again), and always exits with status 0.
* C53: getcycles.c counts with 32 bits on ARM (wrong from 2^32 cycles per measurement on, that is 131072 per call for texts of one byte) and adds 0.5 resp. 0.05 although printf already rounds, so every printed value is rounded up. bench_all.sh shows the value for 16 bytes under "64" and the value for 64 bytes under "1536"; the labels of its second loop are cut off ("AEAD 536:", "AEAD ong:").
* C55: tests/time_all.sh ignores the status of gcc. After a failed compilation it times the program left by the directory before, or by an earlier run, under the new name; without any program it prints the time of the failed lookup. The output never shows it.
* C63: brg_endian.h does not look at GCC's `__BYTE_ORDER__`/`__ORDER_BIG_ENDIAN__`. Without a C library that defines the older macros, big-endian MIPS, ARM, AArch64 and z/Architecture targets are taken for little-endian, and the reference permutation of the Keccak instances is then wrong for every number of rounds. Where big-endian is detected, the reference does not link: fromBytesToWords and fromWordsToBytes do not exist. A build mistaken in this way is consistent with itself (C65), so genkat_aead.c reports success.
* C64: in isapxv20/ref, -DISAP128A besides -DISAP128, or -DASCON besides -DKECCAKP400, is ignored without a message (uncommenting a line of CMakeLists.txt without commenting out the other changes nothing).
* C36: the STP directories keep per-call data in globals; concurrent decryptions reject genuine ciphertexts.

## Layers

1. Words, bit lemmas, verified symbolic checker (ANF over bits) for straight-line word programs.
2. Specification: permutations bit by bit, ISAP v2.0 and Ascon-Hash over byte lists. Independent of the code models.
3. Memory/trace monad with UB.
4. Reference implementation models, proofs of refinement to the specification.
5. Optimised implementation models, proofs of refinement to the same specification.
6. Property files: only theorem statements, `exact`, `Print Assumptions`, and examples showing hypotheses are satisfiable.
