(* Properties C27 and C28: the optimised ISAP-A-128 implementations of crypto_aead/isapa128v20. impl_a128_64 UL cf: opt_64 compiled for a
   platform with an unsigned long of UL bits; impl_a128_32: opt_32; impl_a128_67: opt_32_armv67m. strict cf = false: the machine permits
   misaligned accesses. Only statements: proofs are in A128Impl.v. *)
From Verif Require Import Base SpecPerm Mem Vocab Vocab2 RefAead SpecFacts ExLib OptImpl OptEx A128Impl.
From Verif Require Spec.
Open Scope N_scope.

(* ---- The hypotheses can be met. ---- *)
Example ex_a128 : strict lax_cf = false /\
  enc_valid lax_cf cs128 (ex_mem cs128 ex_K ex_N ex_A ex_T 35) (ex_ptr cs128 4) (ex_ptr cs128 5)
    (ex_ptr cs128 3) (ex_ptr cs128 2) (ex_ptr cs128 1) (ex_ptr cs128 0) ex_K ex_N ex_A ex_T /\
  locals no_cond (ex_mem cs128 ex_K ex_N ex_A ex_T 35).
Proof.
  split; [reflexivity|]. split; [|intros b _; exact Logic.I].
  apply (ex_enc_valid lax_cf cs128 ex_K ex_N ex_A ex_T); auto using ex_bytes_K, ex_bytes_N, ex_bytes_A, ex_bytes_T; reflexivity.
Qed.
Example ex_a128_dec Y : bytes Y -> length Y = 35%nat ->
  dec_valid lax_cf cs128 (ex_mem cs128 ex_K ex_N ex_A Y 19) (ex_ptr cs128 4) (ex_ptr cs128 5)
  (ex_ptr cs128 3) (ex_ptr cs128 2) (ex_ptr cs128 1) (ex_ptr cs128 0) ex_K ex_N ex_A Y.
Proof.
  intros BY LY. replace 19%nat with (length Y - 16)%nat by now rewrite LY.
  apply (ex_dec_valid lax_cf cs128 ex_K ex_N ex_A Y); auto using ex_bytes_K, ex_bytes_N, ex_bytes_A;
    rewrite ?LY; (reflexivity || lia).
Qed.

(* ---- C27 ---- *)

Theorem C27_opt_64_agrees_with_reference cf cf' : strict cf = false ->
  agree cf cs128 no_cond (impl_a128_64 64 cf) cf' cs128 (v_loc A128 cf') (ref_impl A128 cf').
Proof. exact (fun Hs => impls_agree A128 _ _ _ _ _ _ _ _ (a128_64_correct cf Hs) (ref_correct A128 cf')). Qed.
Print Assumptions C27_opt_64_agrees_with_reference.

(* On a platform with a 32-bit unsigned long (or any other width): as long as the lengths fit. *)
Theorem C27_opt_64_agrees_when_lengths_fit UL cf cf' : UL <= 64 -> strict cf = false ->
  agree_upto (2 ^ UL) cf cs128 no_cond (impl_a128_64 UL cf) cf' cs128 (v_loc A128 cf') (ref_impl A128 cf').
Proof. exact (ul_agree UL cf cf'). Qed.
Print Assumptions C27_opt_64_agrees_when_lengths_fit.

Theorem C27_opt_32_agrees_with_reference cf cf' : strict cf = false ->
  agree cf cs128 no_cond (impl_a128_32 cf) cf' cs128 (v_loc A128 cf') (ref_impl A128 cf').
Proof. exact (fun Hs => impls_agree A128 _ _ _ _ _ _ _ _ (a128_32_correct cf Hs) (ref_correct A128 cf')). Qed.
Print Assumptions C27_opt_32_agrees_with_reference.

Theorem C27_opt_32_armv67m_agrees_with_reference cf cf' : strict cf = false ->
  agree cf cs128 no_cond (impl_a128_67 cf) cf' cs128 (v_loc A128 cf') (ref_impl A128 cf').
Proof. exact (fun Hs => impls_agree A128 _ _ _ _ _ _ _ _ (a128_67_correct cf Hs) (ref_correct A128 cf')). Qed.
Print Assumptions C27_opt_32_armv67m_agrees_with_reference.

(* All three compute ISAP-A-128 and nothing else. *)
Theorem C27_optimised_compute_isap cf X : In X [impl_a128_64 64 cf; impl_a128_32 cf; impl_a128_67 cf] -> strict cf = false ->
  impl_ok Spec.ISAP_A_128 cf cs128 no_cond X.
Proof. exact (a128_all_correct cf X). Qed.
Print Assumptions C27_optimised_compute_isap.

(* ---- C28 ---- *)

(* 64-bit unsigned long: the tag is computed from the state that absorbs, block by block, an encoding of the associated data that determines it. *)
Theorem C28_unsigned_long_64_absorbs_everything : exists blocks : list N -> list (list N),
  (forall X Y, blocks X = blocks Y -> X = Y) /\
  (forall X, blocks X <> [] /\ Forall (fun b => length b = 8%nat) (blocks X)) /\
  forall cf mm c clen m ad npub k K Nn A T, strict cf = false -> enc_valid cf cs128 mm c clen m ad npub k K Nn A T ->
    let I := Spec.ISAP_A_128 in
    let absorb s X := fold_left (fun s b => ascon_p 12 (Spec.xorp s b)) (blocks X) s in
    let ct := Spec.isap_enc I K Nn T in
    let s := absorb (Spec.dom_sep I (absorb (ascon_p 12 (Spec.zpad I (Nn ++ Spec.iv_A I))) A)) ct in
    let tag := firstn 16 (ascon_p 12 (Spec.isap_rk I K (Spec.iv_KA I) (firstn 16 s) 16 ++ skipn 16 s)) in
    runs (a_enc (impl_a128_64 64 cf) c clen m (N.of_nat (length T)) ad (N.of_nat (length A)) npub k) mm 0%Z
         (putp (putp mm clen (word_le 8 (N.of_nat (length T) + 16))) c (ct ++ tag)).
Proof. exact a128_64_blocks. Qed.
Print Assumptions C28_unsigned_long_64_absorbs_everything.

(* 32-bit unsigned long: 2^32 further bytes of associated data, whatever they are, change nothing. Encryption writes the ISAP ciphertext
   for A instead of A ++ B ... *)
Theorem C28_unsigned_long_32_encrypt_ignores_ad cf mm c clen m ad npub k K Nn A B T : strict cf = false ->
  N.of_nat (length A) < 2 ^ 32 -> N.of_nat (length B) mod 2 ^ 32 = 0 -> N.of_nat (length T) < 2 ^ 32 ->
  enc_valid cf cs128 mm c clen m ad npub k K Nn (A ++ B) T ->
  runs (a_enc (impl_a128_64 32 cf) c clen m (N.of_nat (length T)) ad (N.of_nat (length (A ++ B))) npub k) mm 0%Z
       (putp (putp mm clen (word_le 8 (N.of_nat (length T) + 16))) c (Spec.isap_encrypt Spec.ISAP_A_128 K Nn A T)).
Proof. exact (fun Hs LA LB LT V => ul_enc_wrap 32 cf mm c clen m ad npub k K Nn A B T ltac:(discriminate) Hs V LA LB LT). Qed.
Print Assumptions C28_unsigned_long_32_encrypt_ignores_ad.

(* ... and decryption accepts the ciphertext made for associated data A when it is given A ++ B. *)
Theorem C28_unsigned_long_32_decrypt_ignores_ad cf mm m mlen c ad npub k K Nn A B T : strict cf = false -> bytes T ->
  N.of_nat (length A) < 2 ^ 32 -> N.of_nat (length B) mod 2 ^ 32 = 0 -> N.of_nat (length T) < 2 ^ 32 ->
  dec_valid cf cs128 mm m mlen c ad npub k K Nn (A ++ B) (Spec.isap_encrypt Spec.ISAP_A_128 K Nn A T) ->
  runs (a_dec (impl_a128_64 32 cf) m mlen c (N.of_nat (length T + 16)) ad (N.of_nat (length (A ++ B))) npub k) mm 0%Z
       (putp (putp mm mlen (word_le 8 (N.of_nat (length T)))) m T).
Proof. exact (fun Hs => ul_dec_accepts 32 cf mm m mlen c ad npub k K Nn A B T ltac:(discriminate) Hs). Qed.
Print Assumptions C28_unsigned_long_32_decrypt_ignores_ad.

(* So the claim is false there: two different associated data strings A and A', a ciphertext made by opt_64 with A and accepted with A'. *)
Theorem C28_unsigned_long_32_refuted : exists cf K Nn A A' T mm c clen m ad npub k dmm dm dmlen dc dad dnpub dk m1 m2 ct,
  strict cf = false /\ A <> A' /\
  enc_valid cf cs128 mm c clen m ad npub k K Nn A T /\
  runs (a_enc (impl_a128_64 32 cf) c clen m (N.of_nat (length T)) ad (N.of_nat (length A)) npub k) mm 0%Z m1 /\ has m1 c ct /\
  dec_valid cf cs128 dmm dm dmlen dc dad dnpub dk K Nn A' ct /\
  runs (a_dec (impl_a128_64 32 cf) dm dmlen dc (N.of_nat (length ct)) dad (N.of_nat (length A')) dnpub dk) dmm 0%Z m2.
Proof. exact ul32_forgery. Qed.
Print Assumptions C28_unsigned_long_32_refuted.
