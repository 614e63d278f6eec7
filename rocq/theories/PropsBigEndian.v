(* Property C65: the Keccak instances of the reference on a big-endian machine that brg_endian.h takes for little-endian (C63). v = K128A:
   isapk128av20/ref, v = K128: isapk128v20/ref, and the two Keccak builds of isapxv20/ref. Only statements: proofs are in BigEndianProof.v. *)
From Coq Require Import String.
From Verif Require Import Base SpecPerm Words Mem Vocab Vocab2 VocabK MemProof RefLib RefIsap RefAead SpecFacts ExLib OptEx Genkat VocabKat.
From Verif Require Import Trace VocabOrder BigEndian VocabBig BigEndianProof BigEndianTrace.
From Verif Require Spec.
Open Scope list_scope.
Open Scope N_scope.
Local Notation length := List.length.

(* The permutation in memory: Keccak-p[400] between two exchanges of the bytes of every lane; nothing else is changed. *)
Theorem C65_permutation cf m b s r : (strict cf = true -> base cf b mod 2 = 0) -> (r <= 20)%nat ->
  blk m b = map Some s -> bytes s -> length s = 50%nat ->
  runs (be_Permute_Nrounds cf (P b 0) (N.of_nat r)) m tt (upd_nth m b (map Some (swap_lanes (keccak_p r (swap_lanes s))))).
Proof. exact (runs_be_Permute cf m b s r). Qed.
Print Assumptions C65_permutation.

(* Encryption and decryption are those of ISAP with that permutation (swapped v), for every valid call. *)
Theorem C65_encrypt v cf mm c clen m ad npub k K Nn A T : v = K128A \/ v = K128 ->
  ref_locals v cf mm -> ref_enc_valid v cf mm c clen m ad npub k K Nn A T ->
  runs (a_enc (be_impl v cf) c clen m (N.of_nat (length T)) ad (N.of_nat (length A)) npub k) mm 0%Z
       (putp (putp mm clen (word_le 8 (N.of_nat (length T) + 16))) c (Spec.isap_encrypt (swapped v) K Nn A T)).
Proof. exact (fun Hv => io_enc _ _ _ _ _ (be_ok v Hv cf) mm c clen m ad npub k K Nn A T). Qed.
Print Assumptions C65_encrypt.

Theorem C65_decrypt v cf mm m mlen c ad npub k K Nn A Y : v = K128A \/ v = K128 ->
  ref_locals v cf mm -> ref_dec_valid v cf mm m mlen c ad npub k K Nn A Y ->
  let m1 := putp mm mlen (word_le 8 (N.of_nat (length Y) - 16)) in
  runs (a_dec (be_impl v cf) m mlen c (N.of_nat (length Y)) ad (N.of_nat (length A)) npub k) mm
       (match Spec.isap_decrypt (swapped v) K Nn A Y with Some _ => 0%Z | None => (-1)%Z end)
       (match Spec.isap_decrypt (swapped v) K Nn A Y with Some T => putp m1 m T | None => m1 end).
Proof. exact (fun Hv => io_dec _ _ _ _ _ (be_ok v Hv cf) mm m mlen c ad npub k K Nn A Y). Qed.
Print Assumptions C65_decrypt.

(* It decrypts what it has encrypted... *)
Theorem C65_round_trip v cf mm c clen m ad npub k mm' m' mlen' c' ad' npub' k' K Nn A T Y : v = K128A \/ v = K128 ->
  ref_locals v cf mm -> ref_enc_valid v cf mm c clen m ad npub k K Nn A T ->
  ref_locals v cf mm' -> ref_dec_valid v cf mm' m' mlen' c' ad' npub' k' K Nn A Y ->
  (exists m1, runs (a_enc (be_impl v cf) c clen m (N.of_nat (length T)) ad (N.of_nat (length A)) npub k) mm 0%Z m1 /\
     has m1 c Y /\ length Y = (length T + 16)%nat) ->
  runs (a_dec (be_impl v cf) m' mlen' c' (N.of_nat (length Y)) ad' (N.of_nat (length A)) npub' k') mm' 0%Z
       (putp (putp mm' mlen' (word_le 8 (N.of_nat (length T)))) m' T).
Proof. exact (fun Hv => be_round_trip v Hv cf mm c clen m ad npub k mm' m' mlen' c' ad' npub' k' K Nn A T Y). Qed.
Print Assumptions C65_round_trip.

(* ... and accepts nothing else. *)
Theorem C65_accepts_only_its_own v cf mm m mlen c ad npub k K Nn A Y : v = K128A \/ v = K128 ->
  ref_locals v cf mm -> ref_dec_valid v cf mm m mlen c ad npub k K Nn A Y ->
  exists r m1, runs (a_dec (be_impl v cf) m mlen c (N.of_nat (length Y)) ad (N.of_nat (length A)) npub k) mm r m1 /\
    (r = 0%Z <-> exists T, bytes T /\ Y = Spec.isap_encrypt (swapped v) K Nn A T).
Proof. exact (fun Hv => be_accepts v Hv cf mm m mlen c ad npub k K Nn A Y). Qed.
Print Assumptions C65_accepts_only_its_own.

(* tests/genkat_aead.c: all its checks pass, it returns 0 and prints no error. *)
Theorem C65_test_program_reports_success v cf mm : v = K128A \/ v = K128 ->
  consts_ok (ref_consts (v_macros v)) mm -> (length (ref_consts (v_macros v)) <= length mm)%nat ->
  aligned cf (P (length mm + 6) 0) 8 = true -> aligned cf (P (length mm + 7) 0) 8 = true ->
  (forall b, (length mm + 8 <= b)%nat -> v_loc v cf b) ->
  runs (genkat_main (be_impl v cf) cf true) mm (0%Z, Some ("LWC_AEAD_KAT_128_128.txt"%string, kat_file (swapped v)), ""%string) mm.
Proof. exact (fun Hv => be_genkat v Hv cf mm). Qed.
Print Assumptions C65_test_program_reports_success.

(* Refuted: it computes ISAP-K-128A. The file differs from that of ISAP-K-128A, and the first published ciphertext is rejected, whatever the memory. *)
Theorem C65_file_refuted : kat_file (swapped K128A) <> kat_file Spec.ISAP_K_128A.
Proof. exact be_files_differ. Qed.
Print Assumptions C65_file_refuted.

Theorem C65_decryption_refuted cf mm m mlen c ad npub k : ref_locals K128A cf mm ->
  ref_dec_valid K128A cf mm m mlen c ad npub k (count_up 16) (count_up 16) [] (Spec.isap_encrypt Spec.ISAP_K_128A (count_up 16) (count_up 16) [] []) ->
  exists m1, runs (a_dec (be_impl K128A cf) m mlen c 16 ad 0 npub k) mm (-1)%Z m1.
Proof. exact (eq_rect_r (fun Y => _ -> ref_dec_valid K128A cf mm m mlen c ad npub k _ _ _ Y -> _) (be_rejects cf mm m mlen c ad npub k) first_k_ok). Qed.
Print Assumptions C65_decryption_refuted.

(* Traces depend on lengths and addresses only, and, in decryption, on the verdict; the permutation is called as often as in the other implementations. *)
Theorem C65_encryption_trace v cf mm mm' c clen m ad npub k K Nn A T K' Nn' A' T' : v = K128A \/ v = K128 ->
  ref_locals v cf mm ->
  ref_enc_valid v cf mm c clen m ad npub k K Nn A T -> ref_enc_valid v cf mm' c clen m ad npub k K' Nn' A' T' ->
  length A = length A' -> length T = length T' -> layout mm mm' ->
  forall t, exists s s',
    a_enc (be_impl v cf) c clen m (N.of_nat (length T)) ad (N.of_nat (length A)) npub k (St mm t) = Ok 0%Z s /\
    a_enc (be_impl v cf) c clen m (N.of_nat (length T)) ad (N.of_nat (length A)) npub k (St mm' t) = Ok 0%Z s' /\
    strc s = strc s' /\
    perms (strc s) = perms t ++ calls_enc (v_inst v) (length T) ++ calls_mac (v_inst v) (length A) (length T).
Proof. exact (fun Hv => be_enc_trace v Hv cf mm mm' c clen m ad npub k K Nn A T K' Nn' A' T'). Qed.
Print Assumptions C65_encryption_trace.

Theorem C65_decryption_trace v cf mm mm' m mlen c ad npub k K Nn A Y K' Nn' A' Y' : v = K128A \/ v = K128 ->
  ref_locals v cf mm ->
  ref_dec_valid v cf mm m mlen c ad npub k K Nn A Y -> ref_dec_valid v cf mm' m mlen c ad npub k K' Nn' A' Y' ->
  length A = length A' -> length Y = length Y' -> layout mm mm' ->
  forall t, exists r s r' s' t0 u u',
    a_dec (be_impl v cf) m mlen c (N.of_nat (length Y)) ad (N.of_nat (length A)) npub k (St mm t) = Ok r s /\
    a_dec (be_impl v cf) m mlen c (N.of_nat (length Y)) ad (N.of_nat (length A)) npub k (St mm' t) = Ok r' s' /\
    strc s = u ++ EBr (r =? 0)%Z :: t0 /\ strc s' = u' ++ EBr (r' =? 0)%Z :: t0 /\
    (r <> 0%Z -> u = []) /\ (r' <> 0%Z -> u' = []) /\ (r = r' -> u = u') /\
    perms (strc s) = perms t ++ calls_mac (v_inst v) (length A) (length Y - 16) ++ (if (r =? 0)%Z then calls_enc (v_inst v) (length Y - 16) else []).
Proof. exact (fun Hv => be_dec_trace v Hv cf mm mm' m mlen c ad npub k K Nn A Y K' Nn' A' Y'). Qed.
Print Assumptions C65_decryption_trace.

(* ---- The hypotheses can be met: 19 bytes of text on a machine that traps misaligned accesses. ---- *)

Example C65_calls : let cs := ref_consts (v_macros K128A) in let mm := ex_mem cs ex_K ex_N ex_A ex_T 35 in
  ref_locals K128A strict_cf mm /\
  ref_enc_valid K128A strict_cf mm (ex_ptr cs 4) (ex_ptr cs 5) (ex_ptr cs 3) (ex_ptr cs 2) (ex_ptr cs 1) (ex_ptr cs 0) ex_K ex_N ex_A ex_T.
Proof.
  cbv zeta. split; [intros b _ _; cbn [strict_cf base]; replace (64 * N.of_nat b) with (32 * N.of_nat b * 2) by lia; now apply N.mod_mul|].
  apply (ex_enc_valid strict_cf (ref_consts (v_macros K128A)) ex_K ex_N ex_A ex_T); auto using ex_bytes_K, ex_bytes_N, ex_bytes_A, ex_bytes_T; reflexivity.
Qed.
(* The first published ciphertext, in memory. *)
Example C65_published : let cs := ref_consts (v_macros K128A) in
  ref_dec_valid K128A strict_cf (ex_mem cs (count_up 16) (count_up 16) [] first_k 0) (ex_ptr cs 4) (ex_ptr cs 5) (ex_ptr cs 3) (ex_ptr cs 2)
    (ex_ptr cs 1) (ex_ptr cs 0) (count_up 16) (count_up 16) [] first_k /\
  first_k = Spec.isap_encrypt Spec.ISAP_K_128A (count_up 16) (count_up 16) [] [].
Proof.
  cbv zeta. split; [|exact (eq_sym first_k_ok)].
  apply (ex_dec_valid strict_cf (ref_consts (v_macros K128A)) (count_up 16) (count_up 16) [] first_k); try reflexivity; auto;
    repeat constructor.
Qed.
Example C65_program : let mm := map (map Some) (ref_consts (v_macros K128)) in consts_ok (ref_consts (v_macros K128)) mm /\
  aligned strict_cf (P (length mm + 6) 0) 8 = true /\ aligned strict_cf (P (length mm + 7) 0) 8 = true /\ forall b, v_loc K128 strict_cf b.
Proof.
  cbv zeta. split; [intros i Hi; unfold blk; now apply nth_map_lt|]. split; [reflexivity|]. split; [reflexivity|].
  intros b _. cbn [v_loc strict_cf base]. replace (64 * N.of_nat b) with (32 * N.of_nat b * 2) by lia. now apply N.mod_mul.
Qed.
(* Two memories with the same layout, different keys and texts. *)
Example C65_two_memories : let cs := ref_consts (v_macros K128) in
  let mm := ex_mem cs ex_K ex_N ex_A ex_T 35 in let mm' := ex_mem cs ex_N ex_K ex_A (map (N.lxor 1) ex_T) 35 in
  ex_K <> ex_N /\ length ex_T = length (map (N.lxor 1) ex_T) /\ layout mm mm'.
Proof. cbv zeta. split; [discriminate|]. split; [reflexivity|]. reflexivity. Qed.
