(* Property C49: calls with aligned buffers on machines that require alignment (strict cf = true), for the optimised implementations of
   isapa128v20 (a128_impls: opt_64 with a 64-bit unsigned long, opt_32, opt_32_armv67m) and opt_64 of isapk128v20 and isapk128av20 (impl_k64). The
   ISAP-A-128A implementations are in PropsOpt.v (C39), the ARM implementations of ISAP-K in PropsKArm.v (C33). Only statements: proofs are in
   AlignImpl.v. *)
From Verif Require Import Base SpecPerm Mem Vocab Vocab2 VocabK VocabAlign RefProof RefAead ExLib OptEx A128Impl K64Impl AlignImpl.
From Verif Require Spec.
Open Scope N_scope.

(* ---- The hypotheses can be met: all objects at multiples of 64. Texts of 16, 19 and 34 bytes; the empty and the 36-byte ad. ---- *)
Example ex_C49_a128 : strict strict_cf = true /\ N.of_nat (length (ex_text 16)) mod 8 = 0 /\
  all8 strict_cf (ex_mem cs128 ex_K ex_N ex_A (ex_text 16) 32)
    [ex_ptr cs128 0; ex_ptr cs128 1; ex_ptr cs128 2; ex_ptr cs128 3; ex_ptr cs128 4] /\
  enc_valid strict_cf cs128 (ex_mem cs128 ex_K ex_N ex_A (ex_text 16) 32) (ex_ptr cs128 4) (ex_ptr cs128 5) (ex_ptr cs128 3) (ex_ptr cs128 2)
    (ex_ptr cs128 1) (ex_ptr cs128 0) ex_K ex_N ex_A (ex_text 16).
Proof. split; [reflexivity|]. split; [reflexivity|]. exact (strict_valid cs128 ex_A (ex_text 16) ex_bytes_A (ex_text_bytes 16) eq_refl eq_refl). Qed.
Example ex_C49_a128_dec Y : bytes Y -> length Y = 35%nat ->
  all8 strict_cf (ex_mem cs128 ex_K ex_N ex_A Y 19) [ex_ptr cs128 0; ex_ptr cs128 1; ex_ptr cs128 2; ex_ptr cs128 4; ex_ptr cs128 3] /\
  dec_valid strict_cf cs128 (ex_mem cs128 ex_K ex_N ex_A Y 19) (ex_ptr cs128 4) (ex_ptr cs128 5) (ex_ptr cs128 3) (ex_ptr cs128 2)
    (ex_ptr cs128 1) (ex_ptr cs128 0) ex_K ex_N ex_A Y.
Proof.
  intros B L. replace 19%nat with (length Y - 16)%nat by now rewrite L. apply strict_dvalid; auto using ex_bytes_A; rewrite ?L; (reflexivity || lia).
Qed.
Example ex_C49_k v : scr_ok ex_scr /\ (length ex_A < 36)%nat /\ (length (ex_text 34) < 36)%nat /\ N.of_nat (length (ex_text 34)) mod 2 = 0 /\
  six_more (ex_mem (csK v) ex_K ex_N ex_A (ex_text 34) 50) (ex_ptr (csK v) 0) (ex_ptr (csK v) 1) (ex_ptr (csK v) 2) (length ex_A)
    (ex_ptr (csK v) 3) (ex_ptr (csK v) 4) (length (ex_text 34)) /\
  all8 strict_cf (ex_mem (csK v) ex_K ex_N ex_A (ex_text 34) 50)
    [ex_ptr (csK v) 0; ex_ptr (csK v) 1; ex_ptr (csK v) 2; ex_ptr (csK v) 3; ex_ptr (csK v) 4] /\
  enc_valid strict_cf (csK v) (ex_mem (csK v) ex_K ex_N ex_A (ex_text 34) 50) (ex_ptr (csK v) 4) (ex_ptr (csK v) 5) (ex_ptr (csK v) 3)
    (ex_ptr (csK v) 2) (ex_ptr (csK v) 1) (ex_ptr (csK v) 0) ex_K ex_N ex_A (ex_text 34).
Proof.
  split; [exact ex_scr_ok|]. split; [cbn; lia|]. split; [rewrite ex_text_length; lia|]. split; [reflexivity|]. split; [left; cbn; lia|].
  exact (strict_valid (csK v) ex_A (ex_text 34) ex_bytes_A (ex_text_bytes 34) eq_refl eq_refl).
Qed.
Example ex_C49_k_dec v Y : bytes Y -> length Y = 35%nat ->
  all8 strict_cf (ex_mem (csK v) ex_K ex_N ex_A Y 19) [ex_ptr (csK v) 0; ex_ptr (csK v) 1; ex_ptr (csK v) 2; ex_ptr (csK v) 4; ex_ptr (csK v) 3] /\
  dec_valid strict_cf (csK v) (ex_mem (csK v) ex_K ex_N ex_A Y 19) (ex_ptr (csK v) 4) (ex_ptr (csK v) 5) (ex_ptr (csK v) 3) (ex_ptr (csK v) 2)
    (ex_ptr (csK v) 1) (ex_ptr (csK v) 0) ex_K ex_N ex_A Y.
Proof.
  intros B L. replace 19%nat with (length Y - 16)%nat by now rewrite L. apply strict_dvalid; auto using ex_bytes_A; rewrite ?L; (reflexivity || lia).
Qed.
(* A long ciphertext, and long associated data. *)
Example ex_C49_k_long v :
  (enc_valid strict_cf (csK v) (ex_mem (csK v) ex_K ex_N (ex_text 36) [] 16) (ex_ptr (csK v) 4) (ex_ptr (csK v) 5) (ex_ptr (csK v) 3)
    (ex_ptr (csK v) 2) (ex_ptr (csK v) 1) (ex_ptr (csK v) 0) ex_K ex_N (ex_text 36) [] /\ (36 <= length (ex_text 36))%nat) /\
  (dec_valid strict_cf (csK v) (ex_mem (csK v) ex_K ex_N ex_A (ex_text 52) 36) (ex_ptr (csK v) 4) (ex_ptr (csK v) 5) (ex_ptr (csK v) 3)
    (ex_ptr (csK v) 2) (ex_ptr (csK v) 1) (ex_ptr (csK v) 0) ex_K ex_N ex_A (ex_text 52) /\ (36 <= length (ex_text 52) - 16)%nat).
Proof.
  split; (split; [|rewrite ex_text_length; lia]).
  - apply (strict_valid (csK v) (ex_text 36) []); try reflexivity; auto using ex_text_bytes. constructor.
  - apply (strict_dvalid (csK v) ex_A (ex_text 52)); try reflexivity; auto using ex_text_bytes, ex_bytes_A. rewrite ex_text_length. lia.
Qed.

(* ---- isapa128v20 ---- *)

(* Encryption computes ISAP-A-128 when the length of the text is a multiple of 8 ... *)
Theorem C49_isapa128v20_encrypt cf X mm c clen m ad npub k K Nn A T : In X (a128_impls cf) -> all8 cf mm [k; npub; ad; m; c] ->
  enc_valid cf cs128 mm c clen m ad npub k K Nn A T -> N.of_nat (length T) mod 8 = 0 ->
  runs (a_enc X c clen m (N.of_nat (length T)) ad (N.of_nat (length A)) npub k) mm 0%Z
       (putp (putp mm clen (word_le 8 (N.of_nat (length T) + 16))) c (Spec.isap_encrypt Spec.ISAP_A_128 K Nn A T)).
Proof. exact (a128_aligned_enc cf X mm c clen m ad npub k K Nn A T). Qed.
Print Assumptions C49_isapa128v20_encrypt.

(* ... and decryption does for every length. *)
Theorem C49_isapa128v20_decrypt cf X mm m mlen c ad npub k K Nn A Y : In X (a128_impls cf) -> all8 cf mm [k; npub; ad; m; c] ->
  dec_valid cf cs128 mm m mlen c ad npub k K Nn A Y ->
  let m1 := putp mm mlen (word_le 8 (N.of_nat (length Y) - 16)) in
  runs (a_dec X m mlen c (N.of_nat (length Y)) ad (N.of_nat (length A)) npub k) mm
       (match Spec.isap_decrypt Spec.ISAP_A_128 K Nn A Y with Some _ => 0%Z | None => (-1)%Z end)
       (match Spec.isap_decrypt Spec.ISAP_A_128 K Nn A Y with Some T => putp m1 m T | None => m1 end).
Proof. exact (a128_aligned_dec cf X mm m mlen c ad npub k K Nn A Y). Qed.
Print Assumptions C49_isapa128v20_decrypt.

(* But the tag is stored with 8-byte accesses right behind the ciphertext: encryption is undefined whenever that address is not a multiple of 8,
   so for aligned c whenever the length of the text is not. *)
Theorem C49_isapa128v20_undefined cf X mm c clen m ad npub k K Nn A T : In X (a128_impls cf) -> strict cf = true ->
  enc_valid cf cs128 mm c clen m ad npub k K Nn A T -> (addr cf c + N.of_nat (length T)) mod 8 <> 0 ->
  forall t, a_enc X c clen m (N.of_nat (length T)) ad (N.of_nat (length A)) npub k (St mm t) = UB.
Proof. exact (a128_tag_mis cf X mm c clen m ad npub k K Nn A T). Qed.
Print Assumptions C49_isapa128v20_undefined.

Theorem C49_isapa128v20_refuted : exists cf mm c clen m ad npub k K Nn A T, strict cf = true /\ all8 cf mm [k; npub; ad; m; c] /\
  enc_valid cf cs128 mm c clen m ad npub k K Nn A T /\
  forall X t, In X (a128_impls cf) -> a_enc X c clen m (N.of_nat (length T)) ad (N.of_nat (length A)) npub k (St mm t) = UB.
Proof. exact a128_aligned_refuted. Qed.
Print Assumptions C49_isapa128v20_refuted.

(* ---- isapk128v20/opt_64 and isapk128av20/opt_64 ---- *)

(* Up to 35 bytes of text and associated data work (for the condition six_more see C30); encryption only for even lengths. *)
Theorem C49_isapk_opt_64_encrypt v scr cf mm c clen m ad npub k K Nn A T : kv v -> scr_ok scr -> all8 cf mm [k; npub; ad; m; c] ->
  enc_valid cf (csK v) mm c clen m ad npub k K Nn A T -> six_more mm k npub ad (length A) m c (length T) ->
  (length A < 36)%nat -> (length T < 36)%nat -> N.of_nat (length T) mod 2 = 0 ->
  runs (a_enc (impl_k64 v scr cf) c clen m (N.of_nat (length T)) ad (N.of_nat (length A)) npub k) mm 0%Z
       (putp (putp mm clen (word_le 8 (N.of_nat (length T) + 16))) c (Spec.isap_encrypt (v_inst v) K Nn A T)).
Proof. exact (k64_all8_enc v scr cf mm c clen m ad npub k K Nn A T). Qed.
Print Assumptions C49_isapk_opt_64_encrypt.

Theorem C49_isapk_opt_64_decrypt v scr cf mm m mlen c ad npub k K Nn A Y : kv v -> scr_ok scr -> all8 cf mm [k; npub; ad; m; c] ->
  dec_valid cf (csK v) mm m mlen c ad npub k K Nn A Y -> six_more mm k npub ad (length A) c m (length Y - 16)%nat ->
  (length A < 36)%nat -> (length Y - 16 < 36)%nat ->
  let m1 := putp mm mlen (word_le 8 (N.of_nat (length Y) - 16)) in
  runs (a_dec (impl_k64 v scr cf) m mlen c (N.of_nat (length Y)) ad (N.of_nat (length A)) npub k) mm
       (match Spec.isap_decrypt (v_inst v) K Nn A Y with Some _ => 0%Z | None => (-1)%Z end)
       (match Spec.isap_decrypt (v_inst v) K Nn A Y with Some T => putp m1 m T | None => m1 end).
Proof. exact (k64_all8_dec v scr cf mm m mlen c ad npub k K Nn A Y). Qed.
Print Assumptions C49_isapk_opt_64_decrypt.

(* Everything longer is undefined, wherever the buffers are: 8-byte reads start at multiples of 18 bytes from the beginning of the buffer. So is
   encryption when the tag, stored with 2-byte accesses, falls on an odd address. *)
Theorem C49_isapk_opt_64_encrypt_undefined v scr cf mm c clen m ad npub k K Nn A T : scr_ok scr -> strict cf = true ->
  enc_valid cf (csK v) mm c clen m ad npub k K Nn A T ->
  (36 <= length A)%nat \/ (36 <= length T)%nat \/ (addr cf c + N.of_nat (length T)) mod 2 <> 0 ->
  forall t, a_enc (impl_k64 v scr cf) c clen m (N.of_nat (length T)) ad (N.of_nat (length A)) npub k (St mm t) = UB.
Proof. exact (fun Hscr Hs => k64_mis_enc v scr cf Hscr Hs mm c clen m ad npub k K Nn A T). Qed.
Print Assumptions C49_isapk_opt_64_encrypt_undefined.

Theorem C49_isapk_opt_64_decrypt_undefined v scr cf mm m mlen c ad npub k K Nn A Y : strict cf = true ->
  dec_valid cf (csK v) mm m mlen c ad npub k K Nn A Y -> (36 <= length A)%nat \/ (36 <= length Y - 16)%nat ->
  forall t, a_dec (impl_k64 v scr cf) m mlen c (N.of_nat (length Y)) ad (N.of_nat (length A)) npub k (St mm t) = UB.
Proof. exact (fun Hs => k64_mis_dec v scr cf Hs mm m mlen c ad npub k K Nn A Y). Qed.
Print Assumptions C49_isapk_opt_64_decrypt_undefined.

Theorem C49_isapk_opt_64_refuted v : kv v -> exists cf mm c clen m ad npub k K Nn A T, strict cf = true /\ all8 cf mm [k; npub; ad; m; c] /\
  enc_valid cf (csK v) mm c clen m ad npub k K Nn A T /\ six_more mm k npub ad (length A) m c (length T) /\
  forall scr t, scr_ok scr -> a_enc (impl_k64 v scr cf) c clen m (N.of_nat (length T)) ad (N.of_nat (length A)) npub k (St mm t) = UB.
Proof. exact (k64_aligned_refuted v). Qed.
Print Assumptions C49_isapk_opt_64_refuted.
