(* Property C66: isapxv20/ref, whose permutation.c defines functions with other parameter types than permutation.h declares. w: the width of unsigned
   int. Only statements: proofs are in ProtoProof.v. *)
From Verif Require Import Base SpecPerm Words Mem Vocab Vocab2 VocabK MemProof RefLib RefIsap RefAead SpecFacts ExLib OptEx Proto ProtoProof.
From Verif Require Spec.
Open Scope N_scope.

(* Encryption and decryption are those of the specification if unsigned int has at least 6 bits (C demands 16), for every valid call. *)
Theorem C66_encrypt w v cf mm c clen m ad npub k K Nn A T : 6 <= w ->
  ref_locals v cf mm -> ref_enc_valid v cf mm c clen m ad npub k K Nn A T ->
  runs (a_enc (proto_impl w v cf) c clen m (N.of_nat (length T)) ad (N.of_nat (length A)) npub k) mm 0%Z
       (putp (putp mm clen (word_le 8 (N.of_nat (length T) + 16))) c (Spec.isap_encrypt (v_inst v) K Nn A T)).
Proof. exact (fun Hw => io_enc _ _ _ _ _ (proto_ok w v cf Hw) mm c clen m ad npub k K Nn A T). Qed.
Print Assumptions C66_encrypt.

Theorem C66_decrypt w v cf mm m mlen c ad npub k K Nn A Y : 6 <= w ->
  ref_locals v cf mm -> ref_dec_valid v cf mm m mlen c ad npub k K Nn A Y ->
  let m1 := putp mm mlen (word_le 8 (N.of_nat (length Y) - 16)) in
  runs (a_dec (proto_impl w v cf) m mlen c (N.of_nat (length Y)) ad (N.of_nat (length A)) npub k) mm
       (match Spec.isap_decrypt (v_inst v) K Nn A Y with Some _ => 0%Z | None => (-1)%Z end)
       (match Spec.isap_decrypt (v_inst v) K Nn A Y with Some T => putp m1 m T | None => m1 end).
Proof. exact (fun Hw => io_dec _ _ _ _ _ (proto_ok w v cf Hw) mm m mlen c ad npub k K Nn A Y). Qed.
Print Assumptions C66_decrypt.

(* Traces depend on lengths and addresses only, and, in decryption, on the verdict. *)
Theorem C66_encryption_trace w v cf mm mm' c clen m ad npub k K Nn A T K' Nn' A' T' : 6 <= w ->
  ref_locals v cf mm -> ref_enc_valid v cf mm c clen m ad npub k K Nn A T -> ref_enc_valid v cf mm' c clen m ad npub k K' Nn' A' T' ->
  length A = length A' -> length T = length T' -> layout mm mm' ->
  forall t, exists s s',
    a_enc (proto_impl w v cf) c clen m (N.of_nat (length T)) ad (N.of_nat (length A)) npub k (St mm t) = Ok 0%Z s /\
    a_enc (proto_impl w v cf) c clen m (N.of_nat (length T)) ad (N.of_nat (length A)) npub k (St mm' t) = Ok 0%Z s' /\
    strc s = strc s'.
Proof. exact (fun Hw => proto_enc_trace w v cf Hw mm mm' c clen m ad npub k K Nn A T K' Nn' A' T'). Qed.
Print Assumptions C66_encryption_trace.

Theorem C66_decryption_trace w v cf mm mm' m mlen c ad npub k K Nn A Y K' Nn' A' Y' : 6 <= w ->
  ref_locals v cf mm -> ref_dec_valid v cf mm m mlen c ad npub k K Nn A Y -> ref_dec_valid v cf mm' m mlen c ad npub k K' Nn' A' Y' ->
  length A = length A' -> length Y = length Y' -> layout mm mm' ->
  forall t, exists r s r' s' t0 u u',
    a_dec (proto_impl w v cf) m mlen c (N.of_nat (length Y)) ad (N.of_nat (length A)) npub k (St mm t) = Ok r s /\
    a_dec (proto_impl w v cf) m mlen c (N.of_nat (length Y)) ad (N.of_nat (length A)) npub k (St mm' t) = Ok r' s' /\
    strc s = u ++ EBr (r =? 0)%Z :: t0 /\ strc s' = u' ++ EBr (r' =? 0)%Z :: t0 /\
    (r <> 0%Z -> u = []) /\ (r' <> 0%Z -> u' = []) /\ (r = r' -> u = u').
Proof. exact (fun Hw => proto_dec_trace w v cf Hw mm mm' m mlen c ad npub k K Nn A Y K' Nn' A' Y'). Qed.
Print Assumptions C66_decryption_trace.

(* The bound is tight: with 5 bits the domain separation (isap.c 88) of the Keccak instances would be added to byte 17 instead of byte 49. *)
Theorem C66_five_bits cf m b s d x : blk m b = map Some s -> length s = 50%nat -> pb d <> b -> has m d [x] ->
  runs (pl_add (through_header 5 (keccak_lib cf)) (P b 0) d 49 1) m tt (upd_nth m b (map Some (firstn 17 s ++ N.lxor (nth 17 s 0) x :: skipn 18 s))).
Proof. exact (five_bits cf m b s d x). Qed.
Print Assumptions C66_five_bits.

(* The hypotheses can be met: 32-bit unsigned int, 19 bytes of text, a machine that traps misaligned accesses; two memories. *)
Example C66_calls v : let cs := ref_consts (v_macros v) in
  let mm := ex_mem cs ex_K ex_N ex_A ex_T 35 in let mm' := ex_mem cs ex_N ex_K ex_A ex_T 35 in
  6 <= 32 /\ ref_locals v strict_cf mm /\
  ref_enc_valid v strict_cf mm (ex_ptr cs 4) (ex_ptr cs 5) (ex_ptr cs 3) (ex_ptr cs 2) (ex_ptr cs 1) (ex_ptr cs 0) ex_K ex_N ex_A ex_T /\
  ref_enc_valid v strict_cf mm' (ex_ptr cs 4) (ex_ptr cs 5) (ex_ptr cs 3) (ex_ptr cs 2) (ex_ptr cs 1) (ex_ptr cs 0) ex_N ex_K ex_A ex_T /\
  layout mm mm'.
Proof.
  cbv zeta. split; [lia|]. split.
  { intros b _. destruct v; cbn [v_loc]; auto; intros _; cbn [strict_cf base]; replace (64 * N.of_nat b) with (32 * N.of_nat b * 2) by lia; now apply N.mod_mul. }
  split; [|split; [|destruct v; reflexivity]];
    apply ex_enc_valid; auto using ex_bytes_K, ex_bytes_N, ex_bytes_A, ex_bytes_T; destruct v; reflexivity.
Qed.
