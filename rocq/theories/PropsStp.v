(* Properties C34-C36: the STP implementations crypto_aead/isapa128av20/{opt_32_stp, bi_32_stp, bi_32_armv6m_stp}, which keep two words
   of the MAC state in the global variables s0 and s1 (blocks S0 and S1 of the memory, with any previous contents). stp_impl a cf junk:
   crypto_aead.c and isap.c over the asconp.h of directory a, in build configuration cf, junk being the contents of an uninitialised
   local variable. Only statements: proofs are in StpEx.v. *)
From Verif Require Import Base Prog SpecPerm Words Mem Vocab Vocab2 RefIsap RefAead SpecFacts ExLib OptPerm OptPermProof OptIsap OptProof OptImpl
  OptEx OptStp StpProof StpEx.
From Verif Require Spec.
Open Scope N_scope.

(* ---- The hypotheses can be met: the sample key, nonce, ad and 19-byte text, s0 and s1 holding bytes 7 and 9. ---- *)
Example ex_stp_enc : let mm := ex_mem stp_blocks ex_K ex_N ex_A ex_T 35 in
  enc_valid lax_cf opt_consts mm (ex_ptr stp_blocks 4) (ex_ptr stp_blocks 5)
    (ex_ptr stp_blocks 3) (ex_ptr stp_blocks 2) (ex_ptr stp_blocks 1) (ex_ptr stp_blocks 0) ex_K ex_N ex_A ex_T /\
  apart mm S0 S1 [(ex_ptr stp_blocks 0, 16); (ex_ptr stp_blocks 1, 16); (ex_ptr stp_blocks 2, length ex_A); (ex_ptr stp_blocks 3, length ex_T);
    (ex_ptr stp_blocks 4, length ex_T + 16); (ex_ptr stp_blocks 5, 8)]%nat.
Proof. exact stp_enc_example. Qed.
Example ex_stp_dec Y : bytes Y -> length Y = 35%nat -> let mm := ex_mem stp_blocks ex_K ex_N ex_A Y 19 in
  dec_valid lax_cf opt_consts mm (ex_ptr stp_blocks 4) (ex_ptr stp_blocks 5)
    (ex_ptr stp_blocks 3) (ex_ptr stp_blocks 2) (ex_ptr stp_blocks 1) (ex_ptr stp_blocks 0) ex_K ex_N ex_A Y /\
  dec_apart mm (ex_ptr stp_blocks 4) (ex_ptr stp_blocks 5)
    (ex_ptr stp_blocks 3) (ex_ptr stp_blocks 2) (ex_ptr stp_blocks 1) (ex_ptr stp_blocks 0) ex_A Y.
Proof. exact (stp_dec_example Y). Qed.

(* ---- C34. Encryption by one of the three directories, decryption by one of the three. m2 is any memory, so anything may have happened
   to s0 and s1 in between. ---- *)
Theorem C34_genuine_ciphertexts_accepted a b cf cf' junk junk' mm c clen m ad npub k K Nn A T :
  In a fam_stp -> In b fam_stp -> strict cf = false -> strict cf' = false -> length junk = 5%nat -> length junk' = 5%nat ->
  enc_valid cf opt_consts mm c clen m ad npub k K Nn A T ->
  apart mm S0 S1 [(k, 16); (npub, 16); (ad, length A); (m, length T); (c, length T + 16); (clen, 8)]%nat ->
  exists m1 CT,
    runs (a_enc (stp_impl a cf junk) c clen m (N.of_nat (length T)) ad (N.of_nat (length A)) npub k) mm 0%Z m1 /\
    length CT = (length T + 16)%nat /\ has m1 c CT /\ has m1 clen (word_le 8 (N.of_nat (length T) + 16)) /\
    forall m2 mp mlen c' ad' npub' k',
      dec_valid cf' opt_consts m2 mp mlen c' ad' npub' k' K Nn A CT -> dec_apart m2 mp mlen c' ad' npub' k' A CT ->
      exists m3,
        runs (a_dec (stp_impl b cf' junk') mp mlen c' (N.of_nat (length CT)) ad' (N.of_nat (length A)) npub' k') m2 0%Z m3 /\
        has m3 mp T /\ has m3 mlen (word_le 8 (N.of_nat (length T))).
Proof. exact (fam_stp_roundtrip a b cf cf' junk junk' mm c clen m ad npub k K Nn A T). Qed.
Print Assumptions C34_genuine_ciphertexts_accepted.

(* ---- C35 ---- *)
Theorem C35_encrypt_equals_reference a cf junk cf' mm c clen m ad npub k mm' c' clen' m' ad' npub' k' K Nn A T :
  In a fam_stp -> strict cf = false -> length junk = 5%nat ->
  enc_valid cf opt_consts mm c clen m ad npub k K Nn A T ->
  apart mm S0 S1 [(k, 16); (npub, 16); (ad, length A); (m, length T); (c, length T + 16); (clen, 8)]%nat ->
  locals (v_loc A128A cf') mm' -> enc_valid cf' (ref_consts (v_macros A128A)) mm' c' clen' m' ad' npub' k' K Nn A T ->
  exists ct len h0 h1, length ct = (length T + 16)%nat /\ length len = 8%nat /\ length h0 = 8%nat /\ length h1 = 8%nat /\
    runs (a_enc (stp_impl a cf junk) c clen m (N.of_nat (length T)) ad (N.of_nat (length A)) npub k) mm 0%Z
      (putp (putp (putp (putp mm clen len) c ct) S0 h0) S1 h1) /\
    runs (a_enc (ref_impl A128A cf') c' clen' m' (N.of_nat (length T)) ad' (N.of_nat (length A)) npub' k') mm' 0%Z
      (putp (putp mm' clen' len) c' ct).
Proof. exact (fam_stp_enc_ref a cf junk cf' mm c clen m ad npub k mm' c' clen' m' ad' npub' k' K Nn A T). Qed.
Print Assumptions C35_encrypt_equals_reference.

(* accepts: the 128-bit images of the received and the ISAP tag are equal. *)
Theorem C35_acceptance a cf junk mm m mlen c ad npub k K Nn A Y : In a fam_stp -> strict cf = false -> length junk = 5%nat ->
  dec_valid cf opt_consts mm m mlen c ad npub k K Nn A Y -> dec_apart mm m mlen c ad npub k A Y ->
  exists h0 h1, length h0 = 8%nat /\ length h1 = 8%nat /\
  let m2 := putp (putp (putp mm mlen (word_le 8 (N.of_nat (length Y) - 16))) S0 h0) S1 h1 in
  let call := a_dec (stp_impl a cf junk) m mlen c (N.of_nat (length Y)) ad (N.of_nat (length A)) npub k in
  (accepts K Nn A Y ->
     runs call mm 0%Z (putp m2 m (Spec.isap_enc Spec.ISAP_A_128A K Nn (firstn (length Y - 16) Y)))) /\
  (~ accepts K Nn A Y -> runs call mm (-1)%Z m2).
Proof. exact (fam_stp_accept a cf junk mm m mlen c ad npub k K Nn A Y). Qed.
Print Assumptions C35_acceptance.

(* ---- C36. Two threads decrypt genuine ciphertexts under the same key and nonce, with all buffers in different blocks. One after the
   other, in either order, both return 0. If the second thread computes its tag between the two images of the first, the first returns -1.
   ends l t1 t2 mm r1 r2: under schedule l (true: a step of the first thread) from memory mm both finish, with results r1 and r2. ---- *)
Theorem C36_refuted : exists mm m1 mlen1 c1 ad1 m2 mlen2 c2 ad2 npub k K Nn A1 T1 A2 T2,
  let Y1 := Spec.isap_encrypt Spec.ISAP_A_128A K Nn A1 T1 in
  let Y2 := Spec.isap_encrypt Spec.ISAP_A_128A K Nn A2 T2 in
  dec_valid lax_cf opt_consts mm m1 mlen1 c1 ad1 npub k K Nn A1 Y1 /\ dec_apart mm m1 mlen1 c1 ad1 npub k A1 Y1 /\
  dec_valid lax_cf opt_consts mm m2 mlen2 c2 ad2 npub k K Nn A2 Y2 /\ dec_apart mm m2 mlen2 c2 ad2 npub k A2 Y2 /\
  NoDup (map pb [m1; mlen1; m2; mlen2; c1; c2; ad1; ad2; npub; k]) /\
  forall a junk, In a fam_stp ->
    let t1 := decrypt_thread a lax_cf junk m1 mlen1 c1 (N.of_nat (length T1 + 16)) ad1 (N.of_nat (length A1)) npub k in
    let t2 := decrypt_thread a lax_cf junk m2 mlen2 c2 (N.of_nat (length T2 + 16)) ad2 (N.of_nat (length A2)) npub k in
    ends [true; true; false; false] t1 t2 mm 0 0 /\ ends [false; false; true; true] t1 t2 mm 0 0 /\
    ends [true; false; true; false] t1 t2 mm (-1) 0.
Proof. exact stp_race. Qed.
Print Assumptions C36_refuted.

(* The two steps of a thread, one right after the other, are a call of crypto_aead_decrypt. *)
Theorem C36_undisturbed_thread a cf junk mm m mlen c ad npub k K Nn A Y r mm' u :
  In a fam_stp -> strict cf = false -> length junk = 5%nat ->
  dec_valid cf opt_consts mm m mlen c ad npub k K Nn A Y -> dec_apart mm m mlen c ad npub k A Y ->
  runs (a_dec (stp_impl a cf junk) m mlen c (N.of_nat (length Y)) ad (N.of_nat (length A)) npub k) mm r mm' ->
  runs (schedule [true; true] (decrypt_thread a cf junk m mlen c (N.of_nat (length Y)) ad (N.of_nat (length A)) npub k) u) mm (Done r, u) mm'.
Proof. exact (fam_thread_alone a cf junk mm m mlen c ad npub k K Nn A Y r mm' u). Qed.
Print Assumptions C36_undisturbed_thread.
