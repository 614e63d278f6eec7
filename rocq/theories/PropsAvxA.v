(* Properties C31 and C43: isapa128av20/avx_512. impl_avxa UL cf: crypto_aead.c with isap.c, compiled for a platform with an unsigned long of
   UL bits (64 on Linux, 32 on Windows). strict cf = false: the machine permits misaligned accesses, as x86-64 does. avx_lens UL: the
   lengths of associated data and text are below 2^UL, and the length of the text is below 2^63. Only statements: proofs are in
   AvxAEnc.v and AvxAImpl.v. *)
From Verif Require Import Base SpecPerm Mem Vocab Vocab2 VocabK RefAead SpecFacts ExLib OptImpl OptEx AvxAProof AvxAImpl.
From Verif Require Spec.
Open Scope N_scope.

(* ---- The hypotheses can be met. ---- *)
Example ex_avxa : strict lax_cf = false /\
  enc_valid lax_cf csA (ex_mem csA ex_K ex_N ex_A ex_T 35) (ex_ptr csA 4) (ex_ptr csA 5)
    (ex_ptr csA 3) (ex_ptr csA 2) (ex_ptr csA 1) (ex_ptr csA 0) ex_K ex_N ex_A ex_T /\
  avx_lens 64 (ex_mem csA ex_K ex_N ex_A ex_T 35) (ex_ptr csA 0) (ex_ptr csA 1) (ex_ptr csA 2) (length ex_A) (ex_ptr csA 3) (ex_ptr csA 4)
    (length ex_T) /\
  avx_lens 32 (ex_mem csA ex_K ex_N ex_A ex_T 35) (ex_ptr csA 0) (ex_ptr csA 1) (ex_ptr csA 2) (length ex_A) (ex_ptr csA 3) (ex_ptr csA 4)
    (length ex_T).
Proof.
  split; [reflexivity|]. split; [|repeat split; reflexivity].
  apply (ex_enc_valid lax_cf csA ex_K ex_N ex_A ex_T); auto using ex_bytes_K, ex_bytes_N, ex_bytes_A, ex_bytes_T; reflexivity.
Qed.
Example ex_avxa_dec Y : bytes Y -> length Y = 35%nat ->
  dec_valid lax_cf csA (ex_mem csA ex_K ex_N ex_A Y 19) (ex_ptr csA 4) (ex_ptr csA 5)
    (ex_ptr csA 3) (ex_ptr csA 2) (ex_ptr csA 1) (ex_ptr csA 0) ex_K ex_N ex_A Y /\
  avx_lens 64 (ex_mem csA ex_K ex_N ex_A Y 19) (ex_ptr csA 0) (ex_ptr csA 1) (ex_ptr csA 2) (length ex_A) (ex_ptr csA 3) (ex_ptr csA 4)
    (length Y - 16)%nat.
Proof.
  intros BY LY. split; [|rewrite LY; repeat split; reflexivity]. replace 19%nat with (length Y - 16)%nat by now rewrite LY.
  apply (ex_dec_valid lax_cf csA ex_K ex_N ex_A Y); auto using ex_bytes_K, ex_bytes_N, ex_bytes_A;
    rewrite ?LY; (reflexivity || lia).
Qed.

(* ---- C31 ---- *)

Theorem C31_avx_512_agrees_with_reference cf cf' : strict cf = false ->
  agree_if cf csA (avx_lens 64) (impl_avxa 64 cf) cf' csA (loc_ext (v_loc A128A cf')) (ref_impl A128A cf').
Proof. exact (avxa_agree 64 cf cf' ltac:(discriminate)). Qed.
Print Assumptions C31_avx_512_agrees_with_reference.

(* On a platform with a 32-bit unsigned long (or any other width): as long as the lengths fit. *)
Theorem C31_avx_512_agrees_when_lengths_fit UL cf cf' : UL <= 64 -> strict cf = false ->
  agree_if cf csA (avx_lens UL) (impl_avxa UL cf) cf' csA (loc_ext (v_loc A128A cf')) (ref_impl A128A cf').
Proof. exact (avxa_agree UL cf cf'). Qed.
Print Assumptions C31_avx_512_agrees_when_lengths_fit.

(* Encryption by isap_mac_enc and decryption by isap_mac and isap_enc compute ISAP-A-128A and nothing else. *)
Theorem C31_avx_512_computes_isap UL cf : UL <= 64 -> strict cf = false ->
  impl_ok_if Spec.ISAP_A_128A cf csA (avx_lens UL) (impl_avxa UL cf).
Proof. exact (avxa_correct UL cf). Qed.
Print Assumptions C31_avx_512_computes_isap.

(* ---- C43 ---- *)

(* 32-bit unsigned long: associated data is cut off modulo 2^32. *)
Theorem C43_unsigned_long_32_encrypt_ignores_ad cf mm c clen m ad npub k K Nn A B T : strict cf = false ->
  N.of_nat (length A) < 2 ^ 32 -> N.of_nat (length B) mod 2 ^ 32 = 0 -> N.of_nat (length T) < 2 ^ 32 ->
  enc_valid cf csA mm c clen m ad npub k K Nn (A ++ B) T ->
  runs (a_enc (impl_avxa 32 cf) c clen m (N.of_nat (length T)) ad (N.of_nat (length (A ++ B))) npub k) mm 0%Z
       (putp (putp mm clen (word_le 8 (N.of_nat (length T) + 16))) c (Spec.isap_encrypt Spec.ISAP_A_128A K Nn A T)).
Proof. exact (fun Hs LA LB LT V => avxa_enc_wrap 32 cf mm c clen m ad npub k K Nn A B T Hs V LA LB LT (N.lt_trans _ (2 ^ 32) (2 ^ 63) LT eq_refl)). Qed.
Print Assumptions C43_unsigned_long_32_encrypt_ignores_ad.

Theorem C43_unsigned_long_32_decrypt_ignores_ad cf mm m mlen c ad npub k K Nn A B T : strict cf = false -> bytes T ->
  N.of_nat (length A) < 2 ^ 32 -> N.of_nat (length B) mod 2 ^ 32 = 0 -> N.of_nat (length T) < 2 ^ 32 ->
  dec_valid cf csA mm m mlen c ad npub k K Nn (A ++ B) (Spec.isap_encrypt Spec.ISAP_A_128A K Nn A T) ->
  runs (a_dec (impl_avxa 32 cf) m mlen c (N.of_nat (length T + 16)) ad (N.of_nat (length (A ++ B))) npub k) mm 0%Z
       (putp (putp mm mlen (word_le 8 (N.of_nat (length T)))) m T).
Proof. exact (fun Hs => avxa_dec_accepts 32 cf mm m mlen c ad npub k K Nn A B T ltac:(discriminate) Hs). Qed.
Print Assumptions C43_unsigned_long_32_decrypt_ignores_ad.

(* So a ciphertext made with associated data A is accepted with different associated data A'. *)
Theorem C43_unsigned_long_32_refuted : exists cf K Nn A A' T mm c clen m ad npub k dmm dm dmlen dc dad dnpub dk m1 m2 ct,
  strict cf = false /\ A <> A' /\
  enc_valid cf csA mm c clen m ad npub k K Nn A T /\
  runs (a_enc (impl_avxa 32 cf) c clen m (N.of_nat (length T)) ad (N.of_nat (length A)) npub k) mm 0%Z m1 /\ has m1 c ct /\
  dec_valid cf csA dmm dm dmlen dc dad dnpub dk K Nn A' ct /\
  runs (a_dec (impl_avxa 32 cf) dm dmlen dc (N.of_nat (length ct)) dad (N.of_nat (length A')) dnpub dk) dmm 0%Z m2.
Proof. exact avxa_forgery. Qed.
Print Assumptions C43_unsigned_long_32_refuted.
