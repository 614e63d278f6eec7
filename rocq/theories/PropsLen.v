(* Properties C44 and C45: texts whose length does not fit into an unsigned long, in isapa128v20/opt_64 and isapa128av20/avx_512. Only statements:
   proofs are in LenWrap.v, LenTail.v and LenAvx.v.
   UL: width of unsigned long in bits. tr UL X: the first (length X mod 2^UL) bytes of X. enc_len UL n: n < 2^UL, or n is a multiple of 8
   below 2^(UL+3) and 2^64. *)
From Verif Require Import Base SpecPerm Words Mem Vocab Vocab2 VocabK RefAead SpecFacts Api ExtProof ApiProps ExLib OptProof OptImpl OptEx A128Proof A128Impl
  AvxAProof AvxAImpl LenWrap LenTail LenAvx Table TableProof.
From Verif Require Spec.
Open Scope N_scope.

(* C44. With an unsigned long of 64 bits the tag is checked against the whole body: bytes B inserted between body and tag are accepted only
   if the ISAP tag of the longer body is the same. *)
Theorem C44_unsigned_long_64 v cf cs ex X mm m mlen c ad npub k K Nn A C B t :
  impl_of v cf cs ex X -> In X [impl_a128_64 64 cf; impl_avxa 64 cf] -> ex mm k npub ad (length A) c m (length ((C ++ B) ++ t) - 16)%nat ->
  length t = 16%nat -> dec_valid cf cs mm m mlen c ad npub k K Nn A ((C ++ B) ++ t) -> t = Spec.isap_mac (v_inst v) K Nn A C ->
  exists r m1, runs (a_dec X m mlen c (N.of_nat (length ((C ++ B) ++ t))) ad (N.of_nat (length A)) npub k) mm r m1 /\
    (r = 0%Z \/ r = (-1)%Z) /\ (r = 0%Z <-> Spec.isap_mac (v_inst v) K Nn A C = Spec.isap_mac (v_inst v) K Nn A (C ++ B)).
Proof. exact (fun HX _ => inserted_bytes v cf cs ex X mm m mlen c ad npub k K Nn A C B t HX). Qed.
Print Assumptions C44_unsigned_long_64.

(* With fewer bits the tag written and the tag expected are those of truncated associated data and text. *)
Theorem C44_unsigned_long_any_width_encrypt UL cf mm c clen m ad npub k K Nn A T : UL <= 64 -> strict cf = false ->
  enc_valid cf cs128 mm c clen m ad npub k K Nn A T -> enc_len UL (length T) ->
  let ct := Spec.isap_enc Spec.ISAP_A_128 K Nn T in
  runs (a_enc (impl_a128_64 UL cf) c clen m (N.of_nat (length T)) ad (N.of_nat (length A)) npub k) mm 0%Z
       (putp (putp mm clen (word_le 8 (N.of_nat (length T) + 16))) c (ct ++ Spec.isap_mac Spec.ISAP_A_128 K Nn (tr UL A) (tr UL ct))).
Proof. exact (a64_enc_len UL cf mm c clen m ad npub k K Nn A T). Qed.
Print Assumptions C44_unsigned_long_any_width_encrypt.

Theorem C44_unsigned_long_any_width_decrypt UL cf mm m mlen c ad npub k K Nn A C t : UL <= 64 -> strict cf = false -> length t = 16%nat ->
  dec_valid cf cs128 mm m mlen c ad npub k K Nn A (C ++ t) -> enc_len UL (length C) ->
  exists r m1, runs (a_dec (impl_a128_64 UL cf) m mlen c (N.of_nat (length (C ++ t))) ad (N.of_nat (length A)) npub k) mm r m1 /\
    (r = 0%Z \/ r = (-1)%Z) /\ (r = 0%Z <-> t = Spec.isap_mac Spec.ISAP_A_128 K Nn (tr UL A) (tr UL C)) /\
    (r = 0%Z -> has m1 m (Spec.isap_enc Spec.ISAP_A_128 K Nn C)).
Proof. exact (a64_dec_len UL cf mm m mlen c ad npub k K Nn A C t). Qed.
Print Assumptions C44_unsigned_long_any_width_decrypt.

Theorem C44_avx_512_any_width_decrypt UL cf mm m mlen c ad npub k K Nn A C t : UL <= 64 -> strict cf = false -> length t = 16%nat ->
  dec_valid cf csA mm m mlen c ad npub k K Nn A (C ++ t) -> enc_len UL (length C) ->
  exists r m1, runs (a_dec (impl_avxa UL cf) m mlen c (N.of_nat (length (C ++ t))) ad (N.of_nat (length A)) npub k) mm r m1 /\
    (r = 0%Z \/ r = (-1)%Z) /\ (r = 0%Z <-> t = Spec.isap_mac Spec.ISAP_A_128A K Nn (tr UL A) (tr UL C)) /\
    (r = 0%Z -> has m1 m (Spec.isap_enc Spec.ISAP_A_128A K Nn C)).
Proof. exact (avxa_dec_len UL cf mm m mlen c ad npub k K Nn A C t). Qed.
Print Assumptions C44_avx_512_any_width_decrypt.

(* So with 32 bits a ciphertext ct ++ t that the implementation itself made is accepted with any 2^32 bytes B between ct and t. *)
Theorem C44_unsigned_long_32_refuted : exists cf K Nn A T mm c clen m ad npub k m1 ct t,
  strict cf = false /\ enc_valid cf cs128 mm c clen m ad npub k K Nn A T /\
  runs (a_enc (impl_a128_64 32 cf) c clen m (N.of_nat (length T)) ad (N.of_nat (length A)) npub k) mm 0%Z m1 /\
  has m1 c (ct ++ t) /\ length ct = length T /\ length t = 16%nat /\
  forall B, bytes B -> N.of_nat (length B) = 2 ^ 32 ->
    exists dmm dm dmlen dc dad dnpub dk m2 T', dec_valid cf cs128 dmm dm dmlen dc dad dnpub dk K Nn A ((ct ++ B) ++ t) /\
      runs (a_dec (impl_a128_64 32 cf) dm dmlen dc (N.of_nat (length ((ct ++ B) ++ t))) dad (N.of_nat (length A)) dnpub dk) dmm 0%Z m2 /\
      has m2 dm T' /\ length T' = (length T + length B)%nat.
Proof. exact a64_text_forgery. Qed.
Print Assumptions C44_unsigned_long_32_refuted.

Theorem C44_avx_512_unsigned_long_32_refuted : exists cf K Nn A T mm c clen m ad npub k m1 ct t,
  strict cf = false /\ enc_valid cf csA mm c clen m ad npub k K Nn A T /\
  runs (a_enc (impl_avxa 32 cf) c clen m (N.of_nat (length T)) ad (N.of_nat (length A)) npub k) mm 0%Z m1 /\
  has m1 c (ct ++ t) /\ length ct = length T /\ length t = 16%nat /\
  forall B, bytes B -> N.of_nat (length B) = 2 ^ 32 ->
    exists dmm dm dmlen dc dad dnpub dk m2 T', dec_valid cf csA dmm dm dmlen dc dad dnpub dk K Nn A ((ct ++ B) ++ t) /\
      runs (a_dec (impl_avxa 32 cf) dm dmlen dc (N.of_nat (length ((ct ++ B) ++ t))) dad (N.of_nat (length A)) dnpub dk) dmm 0%Z m2 /\
      has m2 dm T' /\ length T' = (length T + length B)%nat.
Proof. exact avxa_text_forgery. Qed.
Print Assumptions C44_avx_512_unsigned_long_32_refuted.

(* C45. With 64 bits every byte of the text is encrypted, in place or not. *)
Theorem C45_unsigned_long_64 cf mm c clen m ad npub k K Nn A T : strict cf = false -> enc_valid cf cs128 mm c clen m ad npub k K Nn A T ->
  exists m1, runs (a_enc (impl_a128_64 64 cf) c clen m (N.of_nat (length T)) ad (N.of_nat (length A)) npub k) mm 0%Z m1 /\
    has m1 c (Spec.isap_enc Spec.ISAP_A_128 K Nn T) /\ length (Spec.isap_enc Spec.ISAP_A_128 K Nn T) = length T.
Proof. exact (a64_writes_all cf mm c clen m ad npub k K Nn A T). Qed.
Print Assumptions C45_unsigned_long_64.

(* With UL bits and a text of at least 2^UL bytes that is not a multiple of 8, the last length T mod 8 bytes of the ciphertext are not written
   at all ... *)
Theorem C45_unsigned_long_tail_not_written UL cf mm c clen m ad npub k K Nn A T : 3 <= UL <= 64 -> strict cf = false ->
  enc_valid cf cs128 mm c clen m ad npub k K Nn A T ->
  2 ^ UL <= N.of_nat (length T) -> N.of_nat (length T) < 8 * 2 ^ UL -> (length T mod 8 <> 0)%nat ->
  exists m1, runs (a_enc (impl_a128_64 UL cf) c clen m (N.of_nat (length T)) ad (N.of_nat (length A)) npub k) mm 0%Z m1 /\
    forall i, (8 * (length T / 8) <= i < length T)%nat -> cellp m1 (padd c (N.of_nat i)) = cellp mm (padd c (N.of_nat i)).
Proof. exact (a64_enc_tail UL cf mm c clen m ad npub k K Nn A T). Qed.
Print Assumptions C45_unsigned_long_tail_not_written.

(* ... so that, encrypting in place, they are the last bytes of the text. *)
Theorem C45_unsigned_long_tail_in_clear UL cf mm p clen ad npub k K Nn A T : 3 <= UL <= 64 -> strict cf = false ->
  enc_valid cf cs128 mm p clen p ad npub k K Nn A T ->
  2 ^ UL <= N.of_nat (length T) -> N.of_nat (length T) < 8 * 2 ^ UL -> (length T mod 8 <> 0)%nat ->
  exists m1, runs (a_enc (impl_a128_64 UL cf) p clen p (N.of_nat (length T)) ad (N.of_nat (length A)) npub k) mm 0%Z m1 /\
    let n := (8 * (length T / 8))%nat in has m1 (padd p (N.of_nat n)) (skipn n T) /\ skipn n T <> [].
Proof. exact (a64_enc_clear UL cf mm p clen ad npub k K Nn A T). Qed.
Print Assumptions C45_unsigned_long_tail_in_clear.

Theorem C45_unsigned_long_32_refuted : exists cf K Nn A T mm p clen ad npub k m1 x,
  strict cf = false /\ enc_valid cf cs128 mm p clen p ad npub k K Nn A (T ++ [x]) /\
  runs (a_enc (impl_a128_64 32 cf) p clen p (N.of_nat (length (T ++ [x]))) ad (N.of_nat (length A)) npub k) mm 0%Z m1 /\
  rd1 m1 (padd p (N.of_nat (length T))) = Some x.
Proof. exact a64_clear_witness. Qed.
Print Assumptions C45_unsigned_long_32_refuted.

(* isapa128av20/avx_512. With 64 bits every byte of a text of less than 2^63 bytes is encrypted. *)
Theorem C45_avx_512_unsigned_long_64 cf mm c clen m ad npub k K Nn A T : strict cf = false -> enc_valid cf csA mm c clen m ad npub k K Nn A T ->
  N.of_nat (length T) < 2 ^ 63 ->
  exists m1, runs (a_enc (impl_avxa 64 cf) c clen m (N.of_nat (length T)) ad (N.of_nat (length A)) npub k) mm 0%Z m1 /\
    has m1 c (Spec.isap_enc Spec.ISAP_A_128A K Nn T) /\ length (Spec.isap_enc Spec.ISAP_A_128A K Nn T) = length T.
Proof. exact (avxa_writes_all cf mm c clen m ad npub k K Nn A T). Qed.
Print Assumptions C45_avx_512_unsigned_long_64.

(* With UL bits encryption of a longer text ends normally without writing any byte of the ciphertext from position 2^UL on ... *)
Theorem C45_avx_512_tail_not_written UL cf mm c clen m ad npub k K Nn A T : 4 <= UL <= 63 -> strict cf = false ->
  enc_valid cf csA mm c clen m ad npub k K Nn A T -> 2 ^ UL <= N.of_nat (length T) -> N.of_nat (length T) < 2 ^ 63 ->
  exists m1, runs (a_enc (impl_avxa UL cf) c clen m (N.of_nat (length T)) ad (N.of_nat (length A)) npub k) mm 0%Z m1 /\
    forall i, 2 ^ UL <= N.of_nat i -> (i < length T)%nat -> cellp m1 (padd c (N.of_nat i)) = cellp mm (padd c (N.of_nat i)).
Proof. exact (avxa_enc_tail UL cf mm c clen m ad npub k K Nn A T). Qed.
Print Assumptions C45_avx_512_tail_not_written.

(* ... so that, encrypting in place, everything behind the first 2^UL bytes stays in clear. *)
Theorem C45_avx_512_tail_in_clear UL cf mm p clen ad npub k K Nn A T1 T2 : 4 <= UL <= 63 -> strict cf = false ->
  enc_valid cf csA mm p clen p ad npub k K Nn A (T1 ++ T2) -> N.of_nat (length T1) = 2 ^ UL -> N.of_nat (length (T1 ++ T2)) < 2 ^ 63 ->
  exists m1, runs (a_enc (impl_avxa UL cf) p clen p (N.of_nat (length (T1 ++ T2))) ad (N.of_nat (length A)) npub k) mm 0%Z m1 /\
    has m1 (padd p (2 ^ UL)) T2.
Proof. exact (avxa_enc_clear UL cf mm p clen ad npub k K Nn A T1 T2). Qed.
Print Assumptions C45_avx_512_tail_in_clear.

Theorem C45_avx_512_unsigned_long_32_refuted : exists cf K Nn A T mm p clen ad npub k m1 x,
  strict cf = false /\ enc_valid cf csA mm p clen p ad npub k K Nn A (T ++ [x]) /\
  runs (a_enc (impl_avxa 32 cf) p clen p (N.of_nat (length (T ++ [x]))) ad (N.of_nat (length A)) npub k) mm 0%Z m1 /\
  rd1 m1 (padd p (N.of_nat (length T))) = Some x.
Proof. exact avxa_clear_witness. Qed.
Print Assumptions C45_avx_512_unsigned_long_32_refuted.

(* The general theorems say something: enc_len 32 holds of 2^32 bytes, of which nothing is authenticated. *)
Example long_text : enc_len 32 (length (many 7)) /\ tr 32 (many 7) = [] /\ many 7 <> [].
Proof. exact long_text_ex. Qed.
