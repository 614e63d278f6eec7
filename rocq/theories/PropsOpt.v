(* Properties C22-C26 and C37-C39: the optimised ISAP-A-128A implementations of crypto_aead/isapa128av20 and
   crypto_aead_hash/isapa128av20. opt_impl a cf junk: crypto_aead.c and isap.c over the asconp.h of directory a, in build
   configuration cf, junk being the contents of an uninitialised local variable; strict cf = false: the machine permits
   misaligned accesses. Only statements: proofs are in OptImpl.v and OptEx.v. *)
From Verif Require Import Base Prog SpecPerm Words Mem Vocab Vocab2 RefAead SpecFacts SpecProps ExLib OptPerm OptPermProof OptIsap OptProof OptImpl OptEx.
From Verif Require Spec.
Open Scope N_scope.

(* ---- The hypotheses can be met: a machine that permits misaligned accesses, the sample key, nonce, ad and 19-byte
   text; for the reference: ex_enc of PropsRef.v. ---- *)
Example ex_opt : enc_valid lax_cf opt_consts (ex_mem opt_consts ex_K ex_N ex_A ex_T 35) (ex_ptr opt_consts 4) (ex_ptr opt_consts 5)
  (ex_ptr opt_consts 3) (ex_ptr opt_consts 2) (ex_ptr opt_consts 1) (ex_ptr opt_consts 0) ex_K ex_N ex_A ex_T /\
  locals no_cond (ex_mem opt_consts ex_K ex_N ex_A ex_T 35).
Proof.
  split; [|intros b _; exact Logic.I].
  apply (ex_enc_valid lax_cf opt_consts ex_K ex_N ex_A ex_T); auto using ex_bytes_K, ex_bytes_N, ex_bytes_A, ex_bytes_T; reflexivity.
Qed.
Example ex_opt_dec Y : bytes Y -> length Y = 35%nat ->
  dec_valid lax_cf opt_consts (ex_mem opt_consts ex_K ex_N ex_A Y 19) (ex_ptr opt_consts 4) (ex_ptr opt_consts 5)
  (ex_ptr opt_consts 3) (ex_ptr opt_consts 2) (ex_ptr opt_consts 1) (ex_ptr opt_consts 0) ex_K ex_N ex_A Y.
Proof.
  intros BY LY. replace 19%nat with (length Y - 16)%nat by now rewrite LY.
  apply (ex_dec_valid lax_cf opt_consts ex_K ex_N ex_A Y); auto using ex_bytes_K, ex_bytes_N, ex_bytes_A;
    rewrite ?LY; (reflexivity || lia).
Qed.

(* ---- C22 ---- *)

Theorem C22_opt_64_agrees_with_reference cf cf' junk : strict cf = false -> length junk = 5%nat ->
  agree cf opt_consts no_cond (opt_impl opt_64 cf junk)
        cf' (ref_consts (v_macros A128A)) (v_loc A128A cf') (ref_impl A128A cf').
Proof. exact (fun Hs Hj => fam_agrees opt_64 cf junk cf' (or_introl eq_refl) Hj Hs). Qed.
Print Assumptions C22_opt_64_agrees_with_reference.

(* ---- C23 ---- *)

Theorem C23_opt_32_agrees_with_reference a cf cf' junk : In a [opt_32; opt_32_compact; opt_32_tiny] ->
  strict cf = false -> length junk = 5%nat ->
  agree cf opt_consts no_cond (opt_impl a cf junk)
        cf' (ref_consts (v_macros A128A)) (v_loc A128A cf') (ref_impl A128A cf').
Proof. exact (fun H Hs Hj => fam_agrees a cf junk cf' (in_cons _ _ _ (in_or_app fam_opt_32 _ a (or_introl H))) Hj Hs). Qed.
Print Assumptions C23_opt_32_agrees_with_reference.

(* ---- C24 ---- *)

Theorem C24_bi_32_agrees_with_reference a cf cf' junk :
  In a [bi_32; bi_32_compact; bi_32_armv6; bi_32_armv6m; bi_32_armv6m_compact] ->
  strict cf = false -> length junk = 5%nat ->
  agree cf opt_consts no_cond (opt_impl a cf junk)
        cf' (ref_consts (v_macros A128A)) (v_loc A128A cf') (ref_impl A128A cf').
Proof.
  exact (fun H Hs Hj => fam_agrees a cf junk cf'
    (in_cons _ _ _ (in_or_app fam_opt_32 _ a (or_intror (in_or_app fam_bi_32 fam_8 a (or_introl H))))) Hj Hs).
Qed.
Print Assumptions C24_bi_32_agrees_with_reference.

(* bi_32_armv7m is not ISAP: on a valid call (empty message, empty associated data) it writes something else than the
   ISAP ciphertext, and it rejects the genuine ISAP ciphertext. *)
Theorem C24_bi_32_armv7m_refuted : exists K Nn A T mm c clen m ad npub k dm dmm dmlen dc dad dnpub dk,
  enc_valid lax_cf opt_consts mm c clen m ad npub k K Nn A T /\
  dec_valid lax_cf opt_consts dmm dm dmlen dc dad dnpub dk K Nn A (Spec.isap_encrypt Spec.ISAP_A_128A K Nn A T) /\
  forall junk, exists m1 m2,
    runs (a_enc (opt_impl bi_32_armv7m lax_cf junk) c clen m (N.of_nat (length T)) ad (N.of_nat (length A)) npub k) mm 0%Z m1 /\
    ~ has m1 c (Spec.isap_encrypt Spec.ISAP_A_128A K Nn A T) /\
    runs (a_dec (opt_impl bi_32_armv7m lax_cf junk) dm dmlen dc (N.of_nat (length T + 16)) dad (N.of_nat (length A)) dnpub dk) dmm (-1)%Z m2.
Proof. exact armv7m_wrong. Qed.
Print Assumptions C24_bi_32_armv7m_refuted.

(* ---- C25 ---- *)

Theorem C25_byte_sliced_agree_with_reference a cf cf' junk : In a [bi_8; opt_8; opt_8_tiny] ->
  strict cf = false -> length junk = 5%nat ->
  agree cf opt_consts no_cond (opt_impl a cf junk)
        cf' (ref_consts (v_macros A128A)) (v_loc A128A cf') (ref_impl A128A cf').
Proof.
  exact (fun H Hs Hj => fam_agrees a cf junk cf'
    (in_cons _ _ _ (in_or_app fam_opt_32 _ a (or_intror (in_or_app fam_bi_32 fam_8 a (or_intror H))))) Hj Hs).
Qed.
Print Assumptions C25_byte_sliced_agree_with_reference.

(* All of them compute ISAP-A-128A and nothing else. *)
Theorem C25_optimised_compute_isap a cf junk : In a (opt_64 :: fam_opt_32 ++ fam_bi_32 ++ fam_8) ->
  strict cf = false -> length junk = 5%nat ->
  impl_ok Spec.ISAP_A_128A cf opt_consts no_cond (opt_impl a cf junk).
Proof. exact (fun H Hs Hj => fam_correct a cf junk H Hj Hs). Qed.
Print Assumptions C25_optimised_compute_isap.

(* ---- C26 ---- *)

Theorem C26_conversions_are_inverse v : v < 2 ^ 64 ->
  conv big_prog (conv big_prog v) = v /\
  conv from_bi (conv to_bi v) = v /\ conv to_bi (conv from_bi v) = v /\
  conv interleave8 (conv interleave8 v) = v /\
  forall a, In a (bi_32_armv7m :: fam_opt ++ fam_stp) ->
    WORDTOU64 a (U64TOWORD a v) = v /\ U64TOWORD a (WORDTOU64 a v) = v /\ U64TOWORD a v < 2 ^ 64 /\ WORDTOU64 a v < 2 ^ 64.
Proof.
  exact (fun H => conj (conv_big_inv v H) (conj (proj1 (conv_bi_inv v H)) (conj (proj2 (conv_bi_inv v H))
    (conj (conv_i8_inv v H) (fun a Ha => fam_conv a Ha v H))))).
Qed.
Print Assumptions C26_conversions_are_inverse.

(* ws: the five lanes of the state as loaded from its 40 bytes by 64-bit little-endian accesses. *)
Theorem C26_permutation_commutes a r ws : In a (fam_opt ++ fam_stp) -> In r [12; 1; 6]%nat ->
  Forall (fun w => w < 2 ^ 64) ws -> length ws = 5%nat ->
  concat (map (word_le 8) (map (WORDTOU64 a) (PROUNDS a (N.of_nat r) (map (U64TOWORD a) ws)))) =
  ascon_p r (concat (map (word_le 8) ws)).
Proof. exact (fam_perm a r ws). Qed.
Print Assumptions C26_permutation_commutes.

Theorem C26_permutation_commutes_7 a ws : In a fam_stp -> Forall (fun w => w < 2 ^ 64) ws -> length ws = 5%nat ->
  concat (map (word_le 8) (map (WORDTOU64 a) (PROUNDS a 7 (map (U64TOWORD a) ws)))) =
  ascon_p 7 (concat (map (word_le 8) ws)).
Proof. exact (fun H => fam_stp_perm a 7 ws H (or_intror (or_intror (or_intror (or_introl eq_refl))))). Qed.
Print Assumptions C26_permutation_commutes_7.

Example ex_C26 : In bi_32_armv6m (fam_opt ++ fam_stp) /\ Forall (fun w => w < 2 ^ 64) [1; 2; 3; 4; 5] /\
  TOBI bi_32_armv6m 0x8000000000000003 = 0x8000000100000001.
Proof. split; [cbn; tauto|]. split; [repeat constructor|]. vm_compute. reflexivity. Qed.

(* ---- C37 ---- *)

(* crypto_hash in every directory of crypto_aead_hash/isapa128av20 except bi_32_armv7m; on a machine that traps misaligned
   accesses the buffers and constants must be 8-byte aligned. *)
Theorem C37_crypto_hash_is_ascon_hash a cf m out inp X : In a (fam_opt ++ fam_stp) ->
  (forall i, (i < 4)%nat -> al8 cf (P i 0)) -> al8 cf inp -> al8 cf out ->
  consts_ok opt_consts m -> bytes_at m inp X -> N.of_nat (length X) < 2 ^ 64 -> room m out 32 ->
  runs (OptIsap.crypto_hash a cf out inp (N.of_nat (length X))) m 0%Z (putp m out (Spec.ascon_hash X)) /\
  length (Spec.ascon_hash X) = 32%nat.
Proof. exact (fun H Hc Ai Ao C B L R => fam_hash a cf m out inp X H Hc C B L R Ai Ao). Qed.
Print Assumptions C37_crypto_hash_is_ascon_hash.

Example ex_C37 : consts_ok opt_consts hash_mem /\ room hash_mem (P 4 0) 32 /\ bytes_at hash_mem (P 4 0) [] /\
  (forall p, al8 lax_cf p) /\ forall i, al8 strict_cf (P i 0).
Proof.
  split; [exact hash_consts|]. split; [exact hash_room|]. split; [exact hash_empty|].
  split; [intros; now apply al8_lax|exact strict_al8].
Qed.

Theorem C37_bi_32_armv7m_refuted : exists m out inp X m1,
  consts_ok opt_consts m /\ bytes_at m inp X /\ room m out 32 /\
  runs (OptIsap.crypto_hash bi_32_armv7m lax_cf out inp (N.of_nat (length X))) m 0%Z m1 /\ ~ has m1 out (Spec.ascon_hash X).
Proof. exact armv7m_hash_wrong. Qed.
Print Assumptions C37_bi_32_armv7m_refuted.

(* ---- C38 ---- *)

(* The digest that crypto_hash writes depends on the input only through a sequence of 8-byte blocks absorbed one after the
   other, and that sequence determines the input. *)
Theorem C38_hash_padding_injective : exists blocks : list N -> list (list N),
  (forall X Y, blocks X = blocks Y -> X = Y) /\
  (forall X, blocks X <> [] /\ Forall (fun b => length b = 8%nat) (blocks X)) /\
  forall a cf m out inp X, In a (fam_opt ++ fam_stp) -> strict cf = false ->
    consts_ok opt_consts m -> bytes_at m inp X -> N.of_nat (length X) < 2 ^ 64 -> room m out 32 ->
    runs (OptIsap.crypto_hash a cf out inp (N.of_nat (length X))) m 0%Z
      (putp m out (Spec.squeeze 4 (fold_left (fun s b => ascon_p 12 (Spec.xorp s b)) (blocks X)
        (ascon_p 12 (Spec.ascon_hash_iv ++ repeat 0 32))))).
Proof. exact hash_blocks. Qed.
Print Assumptions C38_hash_padding_injective.

(* ---- C39 ---- *)

(* On a machine that traps misaligned accesses the reference accepts buffers at any address: valid calls put no condition on
   the addresses of k, npub, ad, m and c (only on the length cell, an object of type unsigned long long). The local state of the
   Keccak builds must start at an even address. *)
Theorem C39_reference_any_alignment v cf : strict cf = true ->
  impl_ok (v_inst v) cf (ref_consts (v_macros v)) (v_loc v cf) (ref_impl v cf).
Proof. exact (fun _ => ref_correct v cf). Qed.
Print Assumptions C39_reference_any_alignment.

Example ex_C39_ref : strict odd_cf = true /\ aligned odd_cf (ex_ptr (ref_consts (v_macros K128A)) 1) 2 = false /\
  enc_valid odd_cf (ref_consts (v_macros K128A)) (ex_mem (ref_consts (v_macros K128A)) ex_K ex_N ex_A ex_T 35)
    (ex_ptr (ref_consts (v_macros K128A)) 4) (ex_ptr (ref_consts (v_macros K128A)) 5) (ex_ptr (ref_consts (v_macros K128A)) 3)
    (ex_ptr (ref_consts (v_macros K128A)) 2) (ex_ptr (ref_consts (v_macros K128A)) 1) (ex_ptr (ref_consts (v_macros K128A)) 0)
    ex_K ex_N ex_A ex_T.
Proof.
  split; [reflexivity|]. split; [reflexivity|].
  apply (ex_enc_valid odd_cf (ref_consts (v_macros K128A)) ex_K ex_N ex_A ex_T);
    auto using ex_bytes_K, ex_bytes_N, ex_bytes_A, ex_bytes_T; reflexivity.
Qed.

(* The optimised implementations do not: with the key at an odd address encryption traps, in every directory. *)
Theorem C39_optimised_refuted : exists cf mm c clen m ad npub k K Nn A T,
  strict cf = true /\ enc_valid cf opt_consts mm c clen m ad npub k K Nn A T /\
  forall a junk t,
    a_enc (opt_impl a cf junk) c clen m (N.of_nat (length T)) ad (N.of_nat (length A)) npub k (St mm t) = UB.
Proof. exact misaligned_traps. Qed.
Print Assumptions C39_optimised_refuted.

(* They work on such a machine when all buffers and the constants are 8-byte aligned. *)
Theorem C39_optimised_aligned_encrypt a cf junk mm c clen m ad npub k K Nn A T : In a fam_opt -> length junk = 5%nat ->
  (forall i, (i < 4)%nat -> al8 cf (P i 0)) -> al8 cf k -> al8 cf npub -> al8 cf ad -> al8 cf m -> al8 cf c ->
  enc_valid cf opt_consts mm c clen m ad npub k K Nn A T ->
  runs (a_enc (opt_impl a cf junk) c clen m (N.of_nat (length T)) ad (N.of_nat (length A)) npub k) mm 0%Z
       (putp (putp mm clen (word_le 8 (N.of_nat (length T) + 16))) c (Spec.isap_encrypt Spec.ISAP_A_128A K Nn A T)).
Proof. exact (fun H Hj Hc Ak An Aa Am Ac V => fam_aligned_enc a cf junk mm c clen m ad npub k K Nn A T H Hj Hc V Ak An Aa Am Ac). Qed.
Print Assumptions C39_optimised_aligned_encrypt.

Theorem C39_optimised_aligned_decrypt a cf junk mm m mlen c ad npub k K Nn A Y : In a fam_opt -> length junk = 5%nat ->
  (forall i, (i < 4)%nat -> al8 cf (P i 0)) -> al8 cf k -> al8 cf npub -> al8 cf ad -> al8 cf m -> al8 cf c ->
  dec_valid cf opt_consts mm m mlen c ad npub k K Nn A Y ->
  let m1 := putp mm mlen (word_le 8 (N.of_nat (length Y) - 16)) in
  runs (a_dec (opt_impl a cf junk) m mlen c (N.of_nat (length Y)) ad (N.of_nat (length A)) npub k) mm
       (match Spec.isap_decrypt Spec.ISAP_A_128A K Nn A Y with Some _ => 0%Z | None => (-1)%Z end)
       (match Spec.isap_decrypt Spec.ISAP_A_128A K Nn A Y with Some T => putp m1 m T | None => m1 end).
Proof. exact (fun H Hj Hc Ak An Aa Am Ac V => fam_aligned_dec a cf junk mm m mlen c ad npub k K Nn A Y H Hj Hc V Ak An Aa Am Ac). Qed.
Print Assumptions C39_optimised_aligned_decrypt.

Example ex_C39 : strict strict_cf = true /\ (forall i, al8 strict_cf (P i 0)) /\
  enc_valid strict_cf opt_consts (ex_mem opt_consts ex_K ex_N ex_A ex_T 35) (P 8 0) (P 9 0) (P 7 0) (P 6 0) (P 5 0) (P 4 0) ex_K ex_N ex_A ex_T.
Proof.
  split; [reflexivity|]. split; [exact strict_al8|].
  apply (ex_enc_valid strict_cf opt_consts ex_K ex_N ex_A ex_T); auto using ex_bytes_K, ex_bytes_N, ex_bytes_A, ex_bytes_T; reflexivity.
Qed.
