{
 "claims": [
  {
   "property": "C01",
   "status": "proved",
   "theorems": [
    "C01_decryption_inverts_encryption"
   ],
   "note": "All four reference builds, every configuration."
  },
  {
   "property": "C02",
   "status": "proved",
   "theorems": [
    "C02_every_implementation",
    "C02_encryption_is_isap"
   ],
   "note": "All four reference builds; specification in Spec.v/SpecPerm.v."
  },
  {
   "property": "C03",
   "status": "proved",
   "theorems": [
    "C03_every_implementation_accepts_iff_tag_is_mac",
    "C03_every_implementation_accepts_only_genuine",
    "C03_accepts_iff_tag_is_mac",
    "C03_accepts_only_genuine"
   ],
   "note": "All four reference builds."
  },
  {
   "property": "C04",
   "status": "proved",
   "theorems": [
    "C04_every_implementation",
    "C04_no_unverified_plaintext"
   ],
   "note": "All four reference builds."
  },
  {
   "property": "C05",
   "status": "proved",
   "theorems": [
    "C05_every_implementation",
    "C05_wrong_tag_rejected"
   ],
   "note": "All four reference builds."
  },
  {
   "property": "C06",
   "status": "proved",
   "theorems": [
    "C06_every_implementation_encrypt",
    "C06_every_implementation_decrypt",
    "C06_encrypt_no_undefined_behaviour",
    "C06_decrypt_no_undefined_behaviour"
   ],
   "note": "All four reference builds, assertions on or off, any alignment (Keccak builds: local state at an even address)."
  },
  {
   "property": "C07",
   "status": "proved",
   "theorems": [
    "C07_every_implementation_encrypt",
    "C07_every_implementation_decrypt",
    "C07_encrypt_writes_only_outputs",
    "C07_decrypt_writes_only_outputs"
   ],
   "note": "All four reference builds."
  },
  {
   "property": "C08",
   "status": "proved",
   "theorems": [
    "C08_every_implementation_encrypt",
    "C08_every_implementation_decrypt",
    "C08_in_place_encryption",
    "C08_in_place_decryption"
   ],
   "note": "All four reference builds."
  },
  {
   "property": "C09",
   "status": "proved",
   "theorems": [
    "C09_short_ciphertext_is_undefined",
    "C09_short_ciphertext_refuted",
    "C09_optimised_implementations",
    "C09_optimised_implementations_refuted"
   ],
   "note": "The property is false of the code: refuted for the four reference builds and for every optimised implementation (bi_32_armv7m and the STP directories included); undefined behaviour for every clen < 16 whenever the ciphertext object is shorter than the wrapped length."
  },
  {
   "property": "C10",
   "status": "proved",
   "theorems": [
    "C10_every_implementation_encrypt",
    "C10_every_implementation_decrypt",
    "C10_encryption_depends_only_on_inputs",
    "C10_decryption_depends_only_on_inputs"
   ],
   "note": "All four reference builds, after arbitrary call histories."
  },
  {
   "property": "C11",
   "status": "proved",
   "theorems": [
    "C11_every_implementation_encrypt",
    "C11_every_implementation_decrypt",
    "C11_encrypt_length",
    "C11_decrypt_length"
   ],
   "note": "All four reference builds."
  },
  {
   "property": "C12",
   "status": "proved",
   "theorems": [
    "C12_every_implementation_empty_message",
    "C12_every_implementation_empty_ad",
    "C12_every_implementation_empty_ad_decryption",
    "C12_every_implementation_empty_message_decryption",
    "C12_empty_message",
    "C12_empty_ad",
    "C12_empty_ad_decryption",
    "C12_empty_message_decryption"
   ],
   "note": "All four reference builds."
  },
  {
   "property": "C13",
   "status": "proved",
   "theorems": [
    "C13_every_implementation",
    "C13_body_is_message_xor_keystream"
   ],
   "note": "All four reference builds."
  },
  {
   "property": "C14",
   "status": "proved",
   "theorems": [
    "C14_every_implementation",
    "C14_encryption_injective"
   ],
   "note": "All four reference builds."
  },
  {
   "property": "C15",
   "status": "proved",
   "theorems": [
    "C15_tag_from_frame",
    "C15_verified_tag_from_frame",
    "C15_frame_injective"
   ],
   "note": "All four reference builds for the tag; frame injectivity for every rate."
  },
  {
   "property": "C16",
   "status": "proved",
   "theorems": [
    "C16_every_implementation",
    "C16_encryption_trace_independent_of_data",
    "C16_stp"
   ],
   "note": "All implementations except bi_32_armv7m, on the calls listed with each entry of Table.v. Trace of byte ranges read/written, branches and permutation calls; inside one permutation the code is straight-line."
  },
  {
   "property": "C17",
   "status": "proved",
   "theorems": [
    "C17_every_implementation",
    "C17_decryption_trace_depends_only_on_verdict",
    "C17_stp"
   ],
   "note": "As C16; traces equal up to the verdict branch."
  },
  {
   "property": "C18",
   "status": "proved",
   "theorems": [
    "C18_every_implementation_encryption_work",
    "C18_every_implementation_decryption_work",
    "C18_avx_512_encryption_work",
    "C18_encryption_work",
    "C18_decryption_work",
    "C18_work_formula",
    "C18_stp_encryption_work",
    "C18_stp_decryption_work"
   ],
   "note": "Exact list of permutation calls for every implementation (avx_512 interleaves encryption and MAC); closed formulas."
  },
  {
   "property": "C19",
   "status": "proved",
   "theorems": [
    "C19_ascon_permutation_is_specified",
    "C19_ascon_permutation_injective",
    "C19_ascon_permutation_onto"
   ],
   "note": "All states, rounds 0..12: equal to Ascon-p, injective and onto."
  },
  {
   "property": "C20",
   "status": "proved",
   "theorems": [
    "C20_keccak_permutation_is_specified",
    "C20_keccak_permutation_injective",
    "C20_keccak_permutation_onto"
   ],
   "note": "All states, rounds 0..20: equal to Keccak-p[400], injective and onto."
  },
  {
   "property": "C21",
   "status": "proved",
   "theorems": [
    "C21_ascon_add",
    "C21_keccak_add",
    "C21_ascon_overwrite",
    "C21_keccak_overwrite",
    "C21_keccak_add_byte",
    "C21_keccak_zeroes",
    "C21_extract",
    "C21_keccak_extract_add",
    "C21_out_of_range_without_wrap_aborts",
    "C21_out_of_range_caught_refuted"
   ],
   "note": "In-range effects proved for all helpers; the last clause is false of the code (refuted): offset+length wraps in unsigned int and the call is undefined behaviour. Without wrap-around the assertions abort."
  },
  {
   "property": "C22",
   "status": "proved",
   "theorems": [
    "C22_opt_64_agrees_with_reference"
   ],
   "note": "Machine permitting misaligned access."
  },
  {
   "property": "C23",
   "status": "proved",
   "theorems": [
    "C23_opt_32_agrees_with_reference"
   ],
   "note": "opt_32, opt_32_compact, opt_32_tiny; machine permitting misaligned access."
  },
  {
   "property": "C24",
   "status": "proved",
   "theorems": [
    "C24_bi_32_agrees_with_reference",
    "C24_bi_32_armv7m_refuted"
   ],
   "note": "Five directories proved; bi_32_armv7m refuted (lanes end up in the wrong registers)."
  },
  {
   "property": "C25",
   "status": "proved",
   "theorems": [
    "C25_byte_sliced_agree_with_reference",
    "C25_optimised_compute_isap"
   ],
   "note": "bi_8, opt_8, opt_8_tiny; machine permitting misaligned access."
  },
  {
   "property": "C26",
   "status": "proved",
   "theorems": [
    "C26_conversions_are_inverse",
    "C26_permutation_commutes",
    "C26_permutation_commutes_7"
   ],
   "note": "All 64-bit words, all states; round counts 12, 6, 1 (7 for the STP directories)."
  },
  {
   "property": "C27",
   "status": "proved",
   "theorems": [
    "C27_opt_64_agrees_with_reference",
    "C27_opt_64_agrees_when_lengths_fit",
    "C27_opt_32_agrees_with_reference",
    "C27_opt_32_armv67m_agrees_with_reference",
    "C27_optimised_compute_isap"
   ],
   "note": "opt_64 (64-bit unsigned long), opt_32, opt_32_armv67m: all lengths; opt_64 with a narrower unsigned long: lengths that fit. Machine permitting misaligned access."
  },
  {
   "property": "C28",
   "status": "proved",
   "theorems": [
    "C28_unsigned_long_64_absorbs_everything",
    "C28_unsigned_long_32_encrypt_ignores_ad",
    "C28_unsigned_long_32_decrypt_ignores_ad",
    "C28_unsigned_long_32_refuted"
   ],
   "note": "64-bit unsigned long: proved. 32-bit unsigned long: refuted, 2^32 extra bytes of associated data are ignored."
  },
  {
   "property": "C29",
   "status": "proved",
   "theorems": [
    "C29_opt_64_agrees_with_reference",
    "C29_opt_64_computes_isap"
   ],
   "note": "Both instances, on every call for which the bytes read exist (see C30); machine permitting misaligned access; any contents of uninitialised variables."
  },
  {
   "property": "C30",
   "status": "proved",
   "theorems": [
    "C30_opt_64_ad_overread_refuted",
    "C30_opt_64_encrypt_overreads",
    "C30_opt_64_decrypt_overreads",
    "C30_opt_64_lengths_without_overread"
   ],
   "note": "Refuted: valid calls with 18 bytes of associated data are undefined; exact set of affected calls."
  },
  {
   "property": "C31",
   "status": "proved",
   "theorems": [
    "C31_avx_512_agrees_with_reference",
    "C31_avx_512_agrees_when_lengths_fit",
    "C31_avx_512_computes_isap"
   ],
   "note": "Lengths that fit unsigned long, text below 2^63 bytes; x86 (misaligned access permitted)."
  },
  {
   "property": "C32",
   "status": "proved",
   "theorems": [
    "C32_avx512_agrees_with_reference",
    "C32_avx512_computes_isap",
    "C32_unused_lanes_never_matter"
   ],
   "note": "Every content of the unused lanes and of the other registers; x86 (misaligned access permitted)."
  },
  {
   "property": "C33",
   "status": "proved",
   "theorems": [
    "C33_karm_agrees_with_reference",
    "C33_karm_computes_isap",
    "C33_karm_computes_isap_unaligned",
    "C33_karm_odd_address_refuted",
    "C33_karm_encrypt_odd_address",
    "C33_karm_decrypt_odd_address"
   ],
   "note": "Both instances, both assembler files, lengths below 2^32; on machines requiring alignment only for long buffers at even addresses (refuted otherwise). Every content of registers and stack."
  },
  {
   "property": "C34",
   "status": "proved",
   "theorems": [
    "C34_genuine_ciphertexts_accepted"
   ],
   "note": "Three STP directories; machine permitting misaligned access; any previous contents of s0 and s1."
  },
  {
   "property": "C35",
   "status": "proved",
   "theorems": [
    "C35_encrypt_equals_reference",
    "C35_acceptance"
   ],
   "note": "Three STP directories; exact acceptance condition, final memory, ciphertext equal to the reference's."
  },
  {
   "property": "C36",
   "status": "proved",
   "theorems": [
    "C36_refuted",
    "C36_undisturbed_thread"
   ],
   "note": "Refuted: a schedule of two threads in which a genuine ciphertext is rejected, for each of the three directories."
  },
  {
   "property": "C37",
   "status": "proved",
   "theorems": [
    "C37_crypto_hash_is_ascon_hash",
    "C37_bi_32_armv7m_refuted"
   ],
   "note": "All directories of crypto_aead_hash except bi_32_armv7m, which is refuted."
  },
  {
   "property": "C38",
   "status": "proved",
   "theorems": [
    "C38_hash_padding_injective"
   ],
   "note": "All directories of C37."
  },
  {
   "property": "C39",
   "status": "proved",
   "theorems": [
    "C39_reference_any_alignment",
    "C39_optimised_refuted",
    "C39_optimised_aligned_encrypt",
    "C39_optimised_aligned_decrypt"
   ],
   "note": "Reference: any address. Optimised A-128A family: refuted for odd addresses, proved for aligned buffers."
  },
  {
   "property": "C40",
   "status": "proved",
   "theorems": [
    "C40_decryption_inverts_encryption_of_any_other",
    "C40_same_outputs",
    "C40_stp_ciphertexts_decrypted_by_all",
    "C40_stp_decrypts_ciphertexts_of_all",
    "C40_stp_rejection_is_rejection_by_all"
   ],
   "note": "All directories except bi_32_armv7m, on the calls listed with each entry of the table (Table.v); STP directories as sender and receiver."
  },
  {
   "property": "C41",
   "status": "proved",
   "theorems": [
    "C41_ivs_distinct",
    "C41_ivs_are_specified",
    "C41_encryption_uses_the_ivs",
    "C41_decryption_uses_the_ivs",
    "C41_initial_states_distinct"
   ],
   "note": "All four reference builds, encryption and decryption."
  },
  {
   "property": "C42",
   "status": "proved",
   "theorems": [
    "C42_keystream_is_gen_state",
    "C42_states_differ"
   ],
   "note": "All four instances, every block index."
  },
  {
   "property": "C43",
   "status": "proved",
   "theorems": [
    "C43_unsigned_long_32_encrypt_ignores_ad",
    "C43_unsigned_long_32_decrypt_ignores_ad",
    "C43_unsigned_long_32_refuted"
   ],
   "note": "Refuted for a 32-bit unsigned long, with a witness; with a 64-bit unsigned long it follows from C31 and C15."
  },
  {
   "property": "C44",
   "status": "proved",
   "theorems": [
    "C44_unsigned_long_64",
    "C44_unsigned_long_any_width_encrypt",
    "C44_unsigned_long_any_width_decrypt",
    "C44_avx_512_any_width_decrypt",
    "C44_unsigned_long_32_refuted",
    "C44_avx_512_unsigned_long_32_refuted"
   ],
   "note": "Refuted for a 32-bit unsigned long, with witnesses for both directories; proved for 64 bits; exact MAC input for every width."
  },
  {
   "property": "C45",
   "status": "proved",
   "theorems": [
    "C45_unsigned_long_64",
    "C45_unsigned_long_tail_not_written",
    "C45_unsigned_long_tail_in_clear",
    "C45_unsigned_long_32_refuted",
    "C45_avx_512_unsigned_long_64",
    "C45_avx_512_tail_not_written",
    "C45_avx_512_tail_in_clear",
    "C45_avx_512_unsigned_long_32_refuted"
   ],
   "note": "Refuted for a 32-bit unsigned long, with a witness; proved for 64 bits; unwritten bytes for every width: opt_64 (text below 2^(width+3) bytes) the last partial block, avx_512 everything from position 2^width on."
  },
  {
   "property": "C46",
   "status": "proved",
   "theorems": [
    "C46_known_answer_file",
    "C46_conditions",
    "C46_known_answer_file_stp",
    "C46_no_file",
    "C46_demo",
    "C46_bulk"
   ],
   "note": "All entries of the table and the STP directories; fopen may fail, writes to the stream succeed. C46_conditions says on which placements of the arrays the conditions of each entry hold."
  },
  {
   "property": "C47",
   "status": "proved",
   "theorems": [
    "C47_known_answer_hash_file"
   ],
   "note": "All directories of C37; fopen may fail, writes to the stream succeed."
  },
  {
   "property": "C48",
   "status": "proved",
   "theorems": [
    "C48_permutation",
    "C48_encrypt",
    "C48_decrypt",
    "C48_round_trip",
    "C48_accepts_only_its_own",
    "C48_hash",
    "C48_test_program_reports_success",
    "C48_hash_test_program_reports_success",
    "C48_encryption_trace",
    "C48_decryption_trace"
   ],
   "note": "Exact scheme computed, for calls with 8-byte aligned pointers on machines that trap misaligned accesses and for all valid calls otherwise."
  },
  {
   "property": "C49",
   "status": "proved",
   "theorems": [
    "C49_isapa128v20_encrypt",
    "C49_isapa128v20_decrypt",
    "C49_isapa128v20_undefined",
    "C49_isapa128v20_refuted",
    "C49_isapk_opt_64_encrypt",
    "C49_isapk_opt_64_decrypt",
    "C49_isapk_opt_64_encrypt_undefined",
    "C49_isapk_opt_64_decrypt_undefined",
    "C49_isapk_opt_64_refuted"
   ],
   "note": "Refuted for the three optimised isapa128v20 directories (encryption) and for isapk opt_64, with witnesses; exactly which calls with aligned buffers work and which are undefined. The isapa128av20 directories are in C39, the ARM ones of ISAP-K in C33."
  },
  {
   "property": "C50",
   "status": "proved",
   "theorems": [
    "C50_armv7m_nrounds",
    "C50_armv7m_20rounds",
    "C50_armv6m_nrounds",
    "C50_armv6m_20rounds",
    "C50_armv7m_unaligned_refuted",
    "C50_static_initialize",
    "C50_initialize",
    "C50_add_byte",
    "C50_add_bytes",
    "C50_overwrite_bytes",
    "C50_extract_bytes",
    "C50_extract_and_add_bytes",
    "C50_armv7m_overwrite_with_zeroes",
    "C50_armv6m_overwrite_with_zeroes"
   ],
   "note": "All functions of both assembler files, instruction by instruction. Refuted for the armv7m permutation on cores that trap unaligned words."
  },
  {
   "property": "C51",
   "status": "proved",
   "theorems": [
    "C51_armv6_any_assignment",
    "C51_armv7m_any_assignment",
    "C51_armv67m_any_assignment",
    "C51_armv67m_takes_all_registers",
    "C51_armv6m_safe_assignments",
    "C51_armv6m_registers_run_out",
    "C51_armv6m_assignment_refuted",
    "C51_armv6m_flags_refuted"
   ],
   "note": "bi_32_armv6, bi_32_armv7m, opt_32_armv67m: every permitted assignment. Refuted for the three armv6m directories, with a witness for each temporary; the safe assignments are proved."
  },
  {
   "property": "C52",
   "status": "proved",
   "theorems": [
    "C52_verdicts_when_built",
    "C52_package_passes",
    "C52_nothing_compiles_refuted",
    "C52_broken_sources_refuted",
    "C52_unwritable_refuted",
    "C52_exit_status_refuted"
   ],
   "note": "Right verdicts when everything compiles and opens its file; refuted otherwise, with the worlds in which every line says PASS, and for the exit status."
  },
  {
   "property": "C53",
   "status": "proved",
   "theorems": [
    "C53_measure",
    "C53_conditions",
    "C53_measure_hash",
    "C53_whole_run",
    "C53_whole_run_hash",
    "C53_counter_refuted",
    "C53_min_median",
    "C53_rounded_up",
    "C53_nearest_refuted",
    "C53_bench_labels_refuted",
    "C53_bench_values_refuted"
   ],
   "note": "Measurements, sorting and the exact last line. Refuted: 32-bit counters on ARM, rounding to nearest, the columns bench_all.sh shows."
  },
  {
   "property": "C54",
   "status": "proved",
   "theorems": [
    "C54_encryption_states",
    "C54_decryption_states",
    "C54_hash_without_key",
    "C54_decryptions_two_limited",
    "C54_encryptions_two_limited"
   ],
   "note": "All four reference builds; the optimised ISAP-A-128A and ISAP-A-128 implementations are in C58 and C59, those of the Keccak instances are not covered (their outputs are: C29)."
  },
  {
   "property": "C55",
   "status": "proved",
   "theorems": [
    "C55_user_times",
    "C55_stale_program_refuted",
    "C55_old_program_refuted",
    "C55_no_program_refuted",
    "C55_failures_unnoticed_refuted"
   ],
   "note": "Right times when everything compiles; refuted otherwise: stale or missing programs are timed without notice."
  },
  {
   "property": "C56",
   "status": "proved",
   "theorems": [
    "C56_debug_encryption",
    "C56_debug_decryption",
    "C56_prints_initialize",
    "C56_prints_add",
    "C56_prints_overwrite",
    "C56_prints_permute",
    "C56_prints_extract"
   ],
   "note": "Results and memory of whole calls; the printed text operation by operation (the text of a whole call is the concatenation in call order, not spelled out)."
  },
  {
   "property": "C57",
   "status": "proved",
   "theorems": [
    "C57_keccak_reference_in_memory",
    "C57_permute_20rounds",
    "C57_too_many_rounds",
    "C57_accesses_do_not_depend_on_the_state",
    "C57_encryption",
    "C57_decryption",
    "C57_encryption_trace",
    "C57_decryption_trace",
    "C57_encryption_work",
    "C57_decryption_work"
   ],
   "note": "Little-endian branch; operands of one expression are read from left to right."
  },
  {
   "property": "C58",
   "status": "proved",
   "theorems": [
    "C58_device_off",
    "C58_encryption_states",
    "C58_decryption_states",
    "C58_hash_without_key",
    "C58_decryptions_two_limited",
    "C58_encryptions_two_limited"
   ],
   "note": "The twelve implementations of C22 to C25; calls of the permutation are observed as a whole."
  },
  {
   "property": "C59",
   "status": "proved",
   "theorems": [
    "C59_device_off",
    "C59_encryption_states",
    "C59_decryption_states",
    "C59_hash_without_key",
    "C59_decryptions_two_limited",
    "C59_encryptions_two_limited"
   ],
   "note": "The three implementations of C27 on machines that permit misaligned accesses; calls of the permutation are observed as a whole."
  },
  {
   "property": "C60",
   "status": "proved",
   "theorems": [
    "C60_device_off",
    "C60_encryption_states",
    "C60_decryption_states",
    "C60_hash_without_key",
    "C60_decryptions_two_limited",
    "C60_encryptions_two_limited"
   ],
   "note": "The implementations of C29 and C32 under their conditions; calls of the permutation are observed as a whole."
  },
  {
   "property": "C61",
   "status": "proved",
   "theorems": [
    "C61_device_off",
    "C61_encryption_states",
    "C61_decryption_states",
    "C61_hash_without_key",
    "C61_decryptions_two_limited",
    "C61_encryptions_two_limited"
   ],
   "note": "The implementations of C33 under its conditions; calls of the permutation are observed as a whole."
  },
  {
   "property": "C62",
   "status": "proved",
   "theorems": [
    "C62_device_off",
    "C62_encryption_states",
    "C62_decryption_states",
    "C62_hash_without_key",
    "C62_decryptions_two_limited",
    "C62_encryptions_two_limited",
    "C62_empty_message"
   ],
   "note": "isapa128av20/avx_512 under the conditions of C31. Calls of the permutation are observed as a whole, the vector permutations as six rounds on two states. For an empty message the code permutes more than the specification (C62_empty_message)."
  },
  {
   "property": "C63",
   "status": "proved",
   "theorems": [
    "C63_always_an_answer",
    "C63_right_when_told",
    "C63_contradiction_found",
    "C63_machine_names",
    "C63_byte_order_refuted",
    "C63_glibc",
    "C63_little_endian",
    "C63_mistaken",
    "C63_permutation_refuted",
    "C63_link_refuted"
   ],
   "note": "The positive statements hold; that the header always finds the byte order, that the permutation is right on a big-endian machine, and that the big-endian branch can be linked are refuted (theorems named _refuted). A macro used in an #if is an integer expression in itself or makes the directive ill-formed."
  },
  {
   "property": "C64",
   "status": "proved",
   "theorems": [
    "C64_compiles",
    "C64_one_instance",
    "C64_encryption",
    "C64_decryption",
    "C64_request_refuted"
   ],
   "note": "The positive statements hold; that a request for an instance is honoured is refuted (C64_request_refuted). Other macros defined on the command line and the cmake commands are not modelled."
  },
  {
   "property": "C65",
   "status": "proved",
   "theorems": [
    "C65_permutation",
    "C65_encrypt",
    "C65_decrypt",
    "C65_round_trip",
    "C65_accepts_only_its_own",
    "C65_test_program_reports_success",
    "C65_file_refuted",
    "C65_decryption_refuted",
    "C65_encryption_trace",
    "C65_decryption_trace"
   ],
   "note": "The positive statements hold for both instances; that the result is ISAP-K-128A is refuted (C65_file_refuted, C65_decryption_refuted); the difference is not shown for ISAP-K-128. The 8 bytes of *clen and *mlen are modelled in little-endian order."
  },
  {
   "property": "C66",
   "status": "proved",
   "theorems": [
    "C66_encrypt",
    "C66_decrypt",
    "C66_encryption_trace",
    "C66_decryption_trace",
    "C66_five_bits"
   ],
   "note": "Calling conventions that hand the callee the low bits of each argument; strictly, C leaves a call through an incompatible type undefined."
  }
 ]
}
