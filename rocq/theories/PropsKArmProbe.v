(* Property C61: the states on which the ARM implementations of the Keccak instances call KeccakP400_Permute_Nrounds. v = K128A: isapk128av20,
   v = K128: isapk128v20; f: opt_32_armv6m or opt_32_armv7m; regs_ok, arm_call: the conditions of C33. Only statements: proofs are in
   KArmProbeProof.v and KArmProbeTop.v. *)
From Verif Require Import Base SpecPerm Words Mem Vocab Vocab2 VocabK RefProof RefAead SpecFacts Api ApiProps ExLib ExtProof OptEx VocabProbe.
From Verif Require Import OptProbeTop K64Impl KArmPerm KArm KArmImpl KArmProbeTop.
From Verif Require KArmProbe.
Import KArmProbe(probed_karm).
From Verif Require Import Spec.
Open Scope N_scope.

Notation probed_encrypt v f scr leak cf c clen m T ad A npub k :=
  (a_enc (probed_karm v f scr leak cf) c clen m (N.of_nat (length T)) ad (N.of_nat (length A)) npub k) (only parsing).
Notation probed_decrypt v f scr leak cf m mlen c Y ad A npub k :=
  (a_dec (probed_karm v f scr leak cf) m mlen c (N.of_nat (length Y)) ad (N.of_nat (length A)) npub k) (only parsing).

(* Without the device the model is that of C33. *)
Theorem C61_device_off A scr R cf :
  KArmProbe.isap_enc A scr R cf (fun _ => ret tt) = KArm.isap_enc A scr R cf /\
  KArmProbe.isap_mac A scr R cf (fun _ => ret tt) = KArm.isap_mac A scr R cf.
Proof. exact (kax_device_off A scr R cf). Qed.
Print Assumptions C61_device_off.

(* Encryption permutes exactly the listed states, in this order, whatever the device computes from them; the device changes neither the result
   nor the memory. *)
Theorem C61_encryption_states v f scr leak cf mm c clen m ad npub k K Nn A T : kv v -> regs_ok scr ->
  arm_call cf mm k npub ad (length A) m c (length T) -> enc_valid cf (csK v) mm c clen m ad npub k K Nn A T ->
  let I := v_inst v in
  exists m1,
    runs (a_enc (impl_karm v f scr cf) c clen m (N.of_nat (length T)) ad (N.of_nat (length A)) npub k) mm 0%Z m1 /\
    logs (probed_encrypt v f scr leak cf c clen m T ad A npub k) mm 0%Z m1
      (seen leak (enc_in I K Nn (length T) ++ mac_in I K Nn A (isap_enc I K Nn T))).
Proof. exact (kax_enc_same v f scr leak cf mm c clen m ad npub k K Nn A T). Qed.
Print Assumptions C61_encryption_states.

Theorem C61_decryption_states v f scr leak cf mm m mlen c ad npub k K Nn A Y : kv v -> regs_ok scr ->
  arm_call cf mm k npub ad (length A) c m (length Y - 16)%nat -> dec_valid cf (csK v) mm m mlen c ad npub k K Nn A Y ->
  let I := v_inst v in
  exists r m1,
    runs (a_dec (impl_karm v f scr cf) m mlen c (N.of_nat (length Y)) ad (N.of_nat (length A)) npub k) mm r m1 /\
    logs (probed_decrypt v f scr leak cf m mlen c Y ad A npub k) mm r m1
      (seen leak (mac_in I K Nn A (firstn (length Y - 16) Y) ++ if (r =? 0)%Z then enc_in I K Nn (length Y - 16) else [])) /\
    (r = 0%Z <-> skipn (length Y - 16) Y = isap_mac I K Nn A (firstn (length Y - 16) Y)).
Proof. exact (kax_dec_same v f scr leak cf mm m mlen c ad npub k K Nn A Y). Qed.
Print Assumptions C61_decryption_states.

(* Decryption: the calls before the last re-keying depend neither on the key nor on the assembler file. *)
Theorem C61_hash_without_key v Nn A Y : kv v -> exists h, forall f scr cf mm m mlen c ad npub k K, regs_ok scr ->
  arm_call cf mm k npub ad (length A) c m (length Y - 16)%nat -> dec_valid cf (csK v) mm m mlen c ad npub k K Nn A Y ->
  exists R z r m1, length R = 129%nat /\
    forall leak, logs (probed_decrypt v f scr leak cf m mlen c Y ad A npub k) mm r m1
      (seen leak (h ++ R ++ [z] ++ if (r =? 0)%Z then enc_in (v_inst v) K Nn (length Y - 16) else [])).
Proof. exact (kax_dec_public v Nn A Y). Qed.
Print Assumptions C61_hash_without_key.

(* Any two decryptions under one key, by the same implementation or by both. *)
Theorem C61_decryptions_two_limited v f scr cf mm m mlen c ad npub k K Nn A Y f' scr' cf' mm' m' mlen' c' ad' npub' k' Nn' A' Y' : kv v ->
  regs_ok scr -> arm_call cf mm k npub ad (length A) c m (length Y - 16)%nat -> dec_valid cf (csK v) mm m mlen c ad npub k K Nn A Y ->
  regs_ok scr' -> arm_call cf' mm' k' npub' ad' (length A') c' m' (length Y' - 16)%nat ->
  dec_valid cf' (csK v) mm' m' mlen' c' ad' npub' k' K Nn' A' Y' ->
  exists h R z e r m1 h' R' z' e' r' m1',
    two_limited R R' /\
    (forall leak, logs (probed_decrypt v f scr leak cf m mlen c Y ad A npub k) mm r m1 (seen leak (h ++ R ++ [z] ++ e))) /\
    (forall leak, logs (probed_decrypt v f' scr' leak cf' m' mlen' c' Y' ad' A' npub' k') mm' r' m1' (seen leak (h' ++ R' ++ [z'] ++ e'))) /\
    h = hash_in (v_inst v) Nn A (firstn (length Y - 16) Y) /\ h' = hash_in (v_inst v) Nn' A' (firstn (length Y' - 16) Y') /\
    (r <> 0%Z -> e = []) /\ (r' <> 0%Z -> e' = []).
Proof.
  exact (fun Hv Hs He V Hs' He' V' => shape_dec_two v K _ _ mm Nn A Y _ _ mm' Nn' A' Y'
    (kax_dec_shape v f scr cf mm m mlen c ad npub k K Nn A Y Hv Hs He V)
    (kax_dec_shape v f' scr' cf' mm' m' mlen' c' ad' npub' k' K Nn' A' Y' Hv Hs' He' V')).
Qed.
Print Assumptions C61_decryptions_two_limited.

(* Any two encryptions of non-empty messages under one key. *)
Theorem C61_encryptions_two_limited v f scr cf mm c clen m ad npub k K Nn A T f' scr' cf' mm' c' clen' m' ad' npub' k' Nn' A' T' : kv v ->
  regs_ok scr -> arm_call cf mm k npub ad (length A) m c (length T) -> enc_valid cf (csK v) mm c clen m ad npub k K Nn A T -> T <> [] ->
  regs_ok scr' -> arm_call cf' mm' k' npub' ad' (length A') m' c' (length T') ->
  enc_valid cf' (csK v) mm' c' clen' m' ad' npub' k' K Nn' A' T' -> T' <> [] ->
  exists Q e h R z m1 Q' e' h' R' z' m1',
    two_limited Q Q' /\ two_limited R R' /\
    (forall leak, logs (probed_encrypt v f scr leak cf c clen m T ad A npub k) mm 0%Z m1 (seen leak (Q ++ e ++ h ++ R ++ [z]))) /\
    (forall leak, logs (probed_encrypt v f' scr' leak cf' c' clen' m' T' ad' A' npub' k') mm' 0%Z m1' (seen leak (Q' ++ e' ++ h' ++ R' ++ [z']))) /\
    length e = ((length T + 18 - 1) / 18)%nat /\ length e' = ((length T' + 18 - 1) / 18)%nat /\
    (Nn = Nn' -> length T = length T' -> Q = Q' /\ e = e').
Proof. exact (kax_enc_two v f scr cf mm c clen m ad npub k K Nn A T f' scr' cf' mm' c' clen' m' ad' npub' k' Nn' A' T'). Qed.
Print Assumptions C61_encryptions_two_limited.

(* ---- The hypotheses can be met, on a machine that requires alignment, with 18 bytes of associated data and 19 bytes of text. ---- *)

Example C61_enc_case v : kv v -> exists mm c clen m ad npub k,
  regs_ok ex_regs /\ strict strict_cf = true /\ arm_call strict_cf mm k npub ad (length ex_A18) m c (length ex_T) /\
  enc_valid strict_cf (csK v) mm c clen m ad npub k ex_K ex_N ex_A18 ex_T /\ ex_T <> [].
Proof.
  intros Hv. eexists _, _, _, _, _, _, _. split; [exact ex_regs_ok|]. split; [reflexivity|]. split; [|split; [|discriminate]].
  2:{ apply (ex_enc_valid strict_cf (csK v) ex_K ex_N ex_A18 ex_T); auto using ex_bytes_K, ex_bytes_N, ex_bytes_A18, ex_bytes_T; try reflexivity. }
  split; [split; [split; reflexivity|]|].
  - intros b _ _. cbn [strict_cf base]. lia.
  - repeat split; intros _ _; destruct Hv as [-> | ->]; reflexivity.
Qed.
Example C61_dec_case v Y : kv v -> bytes Y -> length Y = 35%nat -> exists mm m mlen c ad npub k,
  regs_ok ex_regs /\ arm_call strict_cf mm k npub ad (length ex_A18) c m (length Y - 16)%nat /\
  dec_valid strict_cf (csK v) mm m mlen c ad npub k ex_K ex_N ex_A18 Y.
Proof.
  intros Hv BY LY. eexists _, _, _, _, _, _, _. split; [exact ex_regs_ok|]. split.
  2:{ apply (ex_dec_valid strict_cf (csK v) ex_K ex_N ex_A18 Y); auto using ex_bytes_K, ex_bytes_N, ex_bytes_A18;
        rewrite ?LY; try (reflexivity || lia). }
  rewrite LY. split; [split; [split; reflexivity|]|].
  - intros b _ _. cbn [strict_cf base]. lia.
  - repeat split; intros _ _; destruct Hv as [-> | ->]; reflexivity.
Qed.
