(* Property C33: the ARMv6-M and ARMv7-M implementations of isapk128av20 (v = K128A) and isapk128v20 (v = K128). impl_karm v f scr cf: f is the
   assembler file, scr gives what registers and stack hold at each call of the permutation (regs_ok: values of the right widths).
   Only statements: proofs are in KArmImpl.v. *)
From Verif Require Import Base SpecPerm Mem Vocab Vocab2 VocabK RefProof RefAead SpecFacts ExLib ExtProof OptEx K64Impl KArmImpl.
From Verif Require Spec.
Open Scope N_scope.

(* ---- The hypotheses can be met, on a machine that requires alignment, with 18 bytes of associated data and 19 bytes of text. ---- *)
Example ex_karm v : kv v -> regs_ok ex_regs /\ strict strict_cf = true /\
  enc_valid strict_cf (csK v) (ex_mem (csK v) ex_K ex_N ex_A18 ex_T 35) (ex_ptr (csK v) 4) (ex_ptr (csK v) 5)
    (ex_ptr (csK v) 3) (ex_ptr (csK v) 2) (ex_ptr (csK v) 1) (ex_ptr (csK v) 0) ex_K ex_N ex_A18 ex_T /\
  arm_call strict_cf (ex_mem (csK v) ex_K ex_N ex_A18 ex_T 35) (ex_ptr (csK v) 0) (ex_ptr (csK v) 1) (ex_ptr (csK v) 2) 18%nat
    (ex_ptr (csK v) 3) (ex_ptr (csK v) 4) 19%nat.
Proof.
  intros Hv. split; [exact ex_regs_ok|]. split; [reflexivity|]. split.
  - apply (ex_enc_valid strict_cf (csK v) ex_K ex_N ex_A18 ex_T); auto using ex_bytes_K, ex_bytes_N, ex_bytes_A18, ex_bytes_T; try reflexivity.
  - split; [split; [split; reflexivity|]|].
    + intros b _ _. cbn [strict_cf base]. lia.
    + repeat split; intros _ _; destruct Hv as [-> | ->]; reflexivity.
Qed.
Example ex_karm_dec v Y : kv v -> bytes Y -> length Y = 35%nat ->
  dec_valid strict_cf (csK v) (ex_mem (csK v) ex_K ex_N ex_A18 Y 19) (ex_ptr (csK v) 4) (ex_ptr (csK v) 5)
    (ex_ptr (csK v) 3) (ex_ptr (csK v) 2) (ex_ptr (csK v) 1) (ex_ptr (csK v) 0) ex_K ex_N ex_A18 Y /\
  arm_call strict_cf (ex_mem (csK v) ex_K ex_N ex_A18 Y 19) (ex_ptr (csK v) 0) (ex_ptr (csK v) 1) (ex_ptr (csK v) 2) 18%nat
    (ex_ptr (csK v) 3) (ex_ptr (csK v) 4) 19%nat.
Proof.
  intros Hv BY LY. split.
  - replace 19%nat with (length Y - 16)%nat by now rewrite LY.
    apply (ex_dec_valid strict_cf (csK v) ex_K ex_N ex_A18 Y); auto using ex_bytes_K, ex_bytes_N, ex_bytes_A18;
      rewrite ?LY; try (reflexivity || lia).
  - split; [split; [split; reflexivity|]|].
    + intros b _ _. cbn [strict_cf base]. lia.
    + repeat split; intros _ _; destruct Hv as [-> | ->]; reflexivity.
Qed.
Example ex_karm_odd v : kv v ->
  enc_valid (odd_cf v) (csK v) (ex_mem (csK v) ex_K ex_N ex_A18 ex_T 35) (ex_ptr (csK v) 4) (ex_ptr (csK v) 5)
    (ex_ptr (csK v) 3) (ex_ptr (csK v) 2) (ex_ptr (csK v) 1) (ex_ptr (csK v) 0) ex_K ex_N ex_A18 ex_T /\
  both arm_lens (arm_locals (odd_cf v)) (ex_mem (csK v) ex_K ex_N ex_A18 ex_T 35) (ex_ptr (csK v) 0) (ex_ptr (csK v) 1)
    (ex_ptr (csK v) 2) 18%nat (ex_ptr (csK v) 3) (ex_ptr (csK v) 4) 19%nat /\
  ~ even_if_long (odd_cf v) (ex_ptr (csK v) 2) 18.
Proof. intros Hv. split; [exact (odd_valid v Hv)|]. split; [exact (odd_other v Hv)|exact (odd_ad v Hv)]. Qed.

(* ---- C33: on every valid call with lengths below 2^32 and, where the machine requires alignment, with long buffers at even addresses. ---- *)

Theorem C33_karm_agrees_with_reference v f scr cf cf' : kv v -> regs_ok scr ->
  agree_if cf (csK v) (arm_call cf) (impl_karm v f scr cf) cf' (csK v) (loc_ext (v_loc v cf')) (ref_impl v cf').
Proof.
  exact (fun Hv Hscr => impls_agree_if v _ _ _ _ _ _ _ _ (karm_correct v f scr cf Hv Hscr) (ioi_of_ok _ _ _ _ _ (ref_correct v cf'))).
Qed.
Print Assumptions C33_karm_agrees_with_reference.

Theorem C33_karm_computes_isap v f scr cf : kv v -> regs_ok scr ->
  impl_ok_if (v_inst v) cf (csK v) (arm_call cf) (impl_karm v f scr cf).
Proof. exact (karm_correct v f scr cf). Qed.
Print Assumptions C33_karm_computes_isap.

(* On a machine without alignment requirements, only the lengths remain. *)
Theorem C33_karm_computes_isap_unaligned v f scr cf : kv v -> regs_ok scr -> strict cf = false ->
  impl_ok_if (v_inst v) cf (csK v) arm_lens (impl_karm v f scr cf).
Proof. exact (karm_lax v f scr cf). Qed.
Print Assumptions C33_karm_computes_isap_unaligned.

(* Without the condition on the addresses it is false: a valid call with the associated data at an odd address is undefined ... *)
Theorem C33_karm_odd_address_refuted v f : kv v -> exists cf scr K Nn A T mm c clen m ad npub k,
  regs_ok scr /\ enc_valid cf (csK v) mm c clen m ad npub k K Nn A T /\
  both arm_lens (arm_locals cf) mm k npub ad (length A) m c (length T) /\
  forall t, a_enc (impl_karm v f scr cf) c clen m (N.of_nat (length T)) ad (N.of_nat (length A)) npub k (St mm t) = UB.
Proof. exact (karm_odd v f). Qed.
Print Assumptions C33_karm_odd_address_refuted.

(* ... and so is every other encryption without it, and every decryption with associated data or ciphertext at such an address. *)
Theorem C33_karm_encrypt_odd_address v f scr cf mm c clen m ad npub k K Nn A T : kv v -> regs_ok scr ->
  enc_valid cf (csK v) mm c clen m ad npub k K Nn A T ->
  both arm_lens (arm_locals cf) mm k npub ad (length A) m c (length T) -> ~ arm_even cf mm k npub ad (length A) m c (length T) ->
  forall t, a_enc (impl_karm v f scr cf) c clen m (N.of_nat (length T)) ad (N.of_nat (length A)) npub k (St mm t) = UB.
Proof. exact (karm_odd_enc v f scr cf mm c clen m ad npub k K Nn A T). Qed.
Print Assumptions C33_karm_encrypt_odd_address.

Theorem C33_karm_decrypt_odd_address v f scr cf mm m mlen c ad npub k K Nn A Y : kv v -> regs_ok scr ->
  dec_valid cf (csK v) mm m mlen c ad npub k K Nn A Y ->
  both arm_lens (arm_locals cf) mm k npub ad (length A) c m (length Y - 16)%nat ->
  ~ (even_if_long cf ad (length A) /\ even_if_long cf c (length Y - 16)) ->
  forall t, a_dec (impl_karm v f scr cf) m mlen c (N.of_nat (length Y)) ad (N.of_nat (length A)) npub k (St mm t) = UB.
Proof. exact (karm_odd_dec v f scr cf mm m mlen c ad npub k K Nn A Y). Qed.
Print Assumptions C33_karm_decrypt_odd_address.
