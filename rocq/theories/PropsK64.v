(* Properties C29 and C30: isapk128av20/opt_64 (v = K128A) and isapk128v20/opt_64 (v = K128). impl_k64 v scr cf: scr gives the contents of the
   variables of the permutation that are uninitialised when it starts (scr_ok: 61 values of 16 bits); strict cf = false: the machine permits
   misaligned accesses. Only statements: proofs are in K64Impl.v. *)
From Verif Require Import Base SpecPerm Mem Vocab Vocab2 VocabK RefProof RefAead SpecFacts ExLib ExtProof OptEx K64Impl.
From Verif Require Spec.
Open Scope N_scope.

(* ---- The hypotheses can be met: 24 bytes of associated data meet the condition with nothing behind them, 18 bytes do not. ---- *)
Definition ex_A24 : list N := map N.of_nat (seq 1 24).
Example ex_k64 : kv K128 /\ kv K128A /\ scr_ok ex_scr /\ strict lax_cf = false /\
  forall v, enc_valid lax_cf (csK v) (ex_mem (csK v) ex_K ex_N ex_A24 ex_T 35) (ex_ptr (csK v) 4) (ex_ptr (csK v) 5)
      (ex_ptr (csK v) 3) (ex_ptr (csK v) 2) (ex_ptr (csK v) 1) (ex_ptr (csK v) 0) ex_K ex_N ex_A24 ex_T /\
    six_more (ex_mem (csK v) ex_K ex_N ex_A24 ex_T 35) (ex_ptr (csK v) 0) (ex_ptr (csK v) 1) (ex_ptr (csK v) 2) 24%nat
      (ex_ptr (csK v) 3) (ex_ptr (csK v) 4) 19%nat.
Proof.
  split; [now left|]. split; [now right|]. split; [exact ex_scr_ok|]. split; [reflexivity|]. intros v. split.
  - apply (ex_enc_valid lax_cf (csK v) ex_K ex_N ex_A24 ex_T); auto using ex_bytes_K, ex_bytes_N, ex_bytes_T; try reflexivity.
    unfold ex_A24. repeat constructor; cbn; lia.
  - right. apply ex_room. cbn. lia.
Qed.
Example ex_k64_dec v Y : bytes Y -> length Y = 35%nat ->
  dec_valid lax_cf (csK v) (ex_mem (csK v) ex_K ex_N ex_A24 Y 19) (ex_ptr (csK v) 4) (ex_ptr (csK v) 5)
    (ex_ptr (csK v) 3) (ex_ptr (csK v) 2) (ex_ptr (csK v) 1) (ex_ptr (csK v) 0) ex_K ex_N ex_A24 Y /\
  six_more (ex_mem (csK v) ex_K ex_N ex_A24 Y 19) (ex_ptr (csK v) 0) (ex_ptr (csK v) 1) (ex_ptr (csK v) 2) 24%nat
    (ex_ptr (csK v) 3) (ex_ptr (csK v) 4) 19%nat.
Proof.
  intros BY LY. split; [|right; apply ex_room; cbn; lia]. replace 19%nat with (length Y - 16)%nat by now rewrite LY.
  apply (ex_dec_valid lax_cf (csK v) ex_K ex_N ex_A24 Y); auto using ex_bytes_K, ex_bytes_N;
    rewrite ?LY; try (reflexivity || lia). unfold ex_A24. repeat constructor; cbn; lia.
Qed.
Example ex_k64_bad v :
  enc_valid lax_cf (csK v) (ex_mem (csK v) ex_K ex_N ex_A18 ex_T 35) (ex_ptr (csK v) 4) (ex_ptr (csK v) 5)
    (ex_ptr (csK v) 3) (ex_ptr (csK v) 2) (ex_ptr (csK v) 1) (ex_ptr (csK v) 0) ex_K ex_N ex_A18 ex_T /\
  ~ six_more (ex_mem (csK v) ex_K ex_N ex_A18 ex_T 35) (ex_ptr (csK v) 0) (ex_ptr (csK v) 1) (ex_ptr (csK v) 2) 18%nat
    (ex_ptr (csK v) 3) (ex_ptr (csK v) 4) 19%nat.
Proof. split; [exact (ex18_valid v)|exact (ex18_no_six v)]. Qed.

(* ---- C29: on every call for which the bytes that are read exist (six_more; what they contain does not matter). ---- *)

Theorem C29_opt_64_agrees_with_reference v scr cf cf' : kv v -> scr_ok scr -> strict cf = false ->
  agree_if cf (csK v) six_more (impl_k64 v scr cf) cf' (csK v) (loc_ext (v_loc v cf')) (ref_impl v cf').
Proof.
  exact (fun Hv Hscr Hs => impls_agree_if v _ _ _ _ _ _ _ _ (k64_correct v scr cf Hv Hscr Hs) (ioi_of_ok _ _ _ _ _ (ref_correct v cf'))).
Qed.
Print Assumptions C29_opt_64_agrees_with_reference.

Theorem C29_opt_64_computes_isap v scr cf : kv v -> scr_ok scr -> strict cf = false ->
  impl_ok_if (v_inst v) cf (csK v) six_more (impl_k64 v scr cf).
Proof. exact (k64_correct v scr cf). Qed.
Print Assumptions C29_opt_64_computes_isap.

(* ---- C30 ---- *)

(* False: a valid call with 18 bytes of associated data in an object of 18 bytes has undefined behaviour. *)
Theorem C30_opt_64_ad_overread_refuted v : kv v -> exists cf scr K Nn A T mm c clen m ad npub k,
  strict cf = false /\ scr_ok scr /\ enc_valid cf (csK v) mm c clen m ad npub k K Nn A T /\
  forall t, a_enc (impl_k64 v scr cf) c clen m (N.of_nat (length T)) ad (N.of_nat (length A)) npub k (St mm t) = UB.
Proof. exact (k64_overread v). Qed.
Print Assumptions C30_opt_64_ad_overread_refuted.

(* The calls affected are exactly those without the six bytes: every such call has undefined behaviour ... *)
Theorem C30_opt_64_encrypt_overreads v scr cf mm c clen m ad npub k K Nn A T : kv v -> scr_ok scr -> strict cf = false ->
  enc_valid cf (csK v) mm c clen m ad npub k K Nn A T -> ~ six_more mm k npub ad (length A) m c (length T) ->
  forall t, a_enc (impl_k64 v scr cf) c clen m (N.of_nat (length T)) ad (N.of_nat (length A)) npub k (St mm t) = UB.
Proof. exact (fun Hv Hscr Hs => k64_ub_enc v scr cf Hv Hscr Hs mm c clen m ad npub k K Nn A T). Qed.
Print Assumptions C30_opt_64_encrypt_overreads.

Theorem C30_opt_64_decrypt_overreads v scr cf mm m mlen c ad npub k K Nn A Y : kv v -> scr_ok scr -> strict cf = false ->
  dec_valid cf (csK v) mm m mlen c ad npub k K Nn A Y -> ~ six_more mm k npub ad (length A) c m (length Y - 16)%nat ->
  forall t, a_dec (impl_k64 v scr cf) m mlen c (N.of_nat (length Y)) ad (N.of_nat (length A)) npub k (St mm t) = UB.
Proof. exact (fun Hv Hscr Hs => k64_ub_dec v scr cf Hv Hscr Hs mm m mlen c ad npub k K Nn A Y). Qed.
Print Assumptions C30_opt_64_decrypt_overreads.

(* ... and for these lengths of the associated data no call is affected. *)
Theorem C30_opt_64_lengths_without_overread v scr cf : kv v -> scr_ok scr -> strict cf = false ->
  impl_ok_if (v_inst v) cf (csK v) (fun _ _ _ _ alen _ _ _ => (alen < 18 \/ 6 <= alen mod 18)%nat) (impl_k64 v scr cf).
Proof. exact (k64_correct_lengths v scr cf). Qed.
Print Assumptions C30_opt_64_lengths_without_overread.
