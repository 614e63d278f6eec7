(* Property C54: the states on which the reference implementation calls its permutation, in all four builds. Only statements: proofs are in
   ProbeProof.v and ProbeTop.v. *)
From Verif Require Import Base SpecPerm Words Mem Vocab Spec RefAead SpecFacts Api ApiProps ExLib PropsRef Probe VocabProbe ProbeTop.
Open Scope N_scope.

Notation probed_encrypt v leak cf c clen m T ad A npub k :=
  (a_enc (probed_ref v leak cf) c clen m (N.of_nat (length T)) ad (N.of_nat (length A)) npub k) (only parsing).
Notation probed_decrypt v leak cf m mlen c Y ad A npub k :=
  (a_dec (probed_ref v leak cf) m mlen c (N.of_nat (length Y)) ad (N.of_nat (length A)) npub k) (only parsing).

(* Encryption permutes exactly the listed states, in this order, whatever the device computes from them; the device changes neither the
   result nor the memory. *)
Theorem C54_encryption_states v leak cf mm c clen m ad npub k K Nn A T :
  ref_locals v cf mm -> ref_enc_valid v cf mm c clen m ad npub k K Nn A T ->
  exists m1,
    runs (ref_encrypt v cf c clen m T ad A npub k) mm 0%Z m1 /\
    logs (probed_encrypt v leak cf c clen m T ad A npub k) mm 0%Z m1
      (seen leak (enc_in (v_inst v) K Nn (length T) ++ mac_in (v_inst v) K Nn A (isap_enc (v_inst v) K Nn T))).
Proof. exact (p_enc_same v leak cf mm c clen m ad npub k K Nn A T). Qed.
Print Assumptions C54_encryption_states.

Theorem C54_decryption_states v leak cf mm m mlen c ad npub k K Nn A Y :
  ref_locals v cf mm -> ref_dec_valid v cf mm m mlen c ad npub k K Nn A Y ->
  exists r m1,
    runs (ref_decrypt v cf m mlen c Y ad A npub k) mm r m1 /\
    logs (probed_decrypt v leak cf m mlen c Y ad A npub k) mm r m1
      (seen leak (mac_in (v_inst v) K Nn A (firstn (length Y - 16) Y) ++
         if (r =? 0)%Z then enc_in (v_inst v) K Nn (length Y - 16) else [])) /\
    (r = 0%Z <-> skipn (length Y - 16) Y = isap_mac (v_inst v) K Nn A (firstn (length Y - 16) Y)).
Proof. exact (p_dec_same v leak cf mm m mlen c ad npub k K Nn A Y). Qed.
Print Assumptions C54_decryption_states.

(* Decryption: the calls before the last re-keying do not depend on the key (h is chosen before the key and the memory). *)
Theorem C54_hash_without_key v Nn A Y : exists h, forall cf mm m mlen c ad npub k K,
  ref_locals v cf mm -> ref_dec_valid v cf mm m mlen c ad npub k K Nn A Y ->
  exists R z r m1, length R = 129%nat /\
    forall leak, logs (probed_decrypt v leak cf m mlen c Y ad A npub k) mm r m1
      (seen leak (h ++ R ++ [z] ++ if (r =? 0)%Z then enc_in (v_inst v) K Nn (length Y - 16) else [])).
Proof. exact (p_dec_public v Nn A Y). Qed.
Print Assumptions C54_hash_without_key.

(* Any two decryptions under one key, with any nonces, associated data, ciphertexts and tags: in the re-keying each call has at most two possible
   inputs once the calls before it are fixed, and they differ in one bit. A rejected message causes no call after the tag has been computed. *)
Theorem C54_decryptions_two_limited v cf mm m mlen c ad npub k K Nn A Y cf' mm' m' mlen' c' ad' npub' k' Nn' A' Y' :
  ref_locals v cf mm -> ref_dec_valid v cf mm m mlen c ad npub k K Nn A Y ->
  ref_locals v cf' mm' -> ref_dec_valid v cf' mm' m' mlen' c' ad' npub' k' K Nn' A' Y' ->
  exists h R z e r m1 h' R' z' e' r' m1',
    two_limited R R' /\
    (forall leak, logs (probed_decrypt v leak cf m mlen c Y ad A npub k) mm r m1 (seen leak (h ++ R ++ [z] ++ e))) /\
    (forall leak, logs (probed_decrypt v leak cf' m' mlen' c' Y' ad' A' npub' k') mm' r' m1' (seen leak (h' ++ R' ++ [z'] ++ e'))) /\
    h = hash_in (v_inst v) Nn A (firstn (length Y - 16) Y) /\ h' = hash_in (v_inst v) Nn' A' (firstn (length Y' - 16) Y') /\
    (r <> 0%Z -> e = []) /\ (r' <> 0%Z -> e' = []).
Proof. exact (p_dec_two v cf mm m mlen c ad npub k K Nn A Y cf' mm' m' mlen' c' ad' npub' k' Nn' A' Y'). Qed.
Print Assumptions C54_decryptions_two_limited.

(* Any two encryptions of non-empty messages under one key: both re-keyings are limited in the same way, and the key stream's calls are the same when nonce and
   length are. *)
Theorem C54_encryptions_two_limited v cf mm c clen m ad npub k K Nn A T cf' mm' c' clen' m' ad' npub' k' Nn' A' T' :
  ref_locals v cf mm -> ref_enc_valid v cf mm c clen m ad npub k K Nn A T -> T <> [] ->
  ref_locals v cf' mm' -> ref_enc_valid v cf' mm' c' clen' m' ad' npub' k' K Nn' A' T' -> T' <> [] ->
  exists Q e h R z m1 Q' e' h' R' z' m1',
    two_limited Q Q' /\ two_limited R R' /\
    (forall leak, logs (probed_encrypt v leak cf c clen m T ad A npub k) mm 0%Z m1 (seen leak (Q ++ e ++ h ++ R ++ [z]))) /\
    (forall leak, logs (probed_encrypt v leak cf' c' clen' m' T' ad' A' npub' k') mm' 0%Z m1' (seen leak (Q' ++ e' ++ h' ++ R' ++ [z']))) /\
    length e = ((length T + i_rate (v_inst v) - 1) / i_rate (v_inst v))%nat /\
    length e' = ((length T' + i_rate (v_inst v) - 1) / i_rate (v_inst v))%nat /\
    (Nn = Nn' -> length T = length T' -> Q = Q' /\ e = e').
Proof. exact (p_enc_two v cf mm c clen m ad npub k K Nn A T cf' mm' c' clen' m' ad' npub' k' Nn' A' T'). Qed.
Print Assumptions C54_encryptions_two_limited.

(* ---- The hypotheses can be met ---- *)

Example C54_enc_case v : exists mm c clen m ad npub k,
  ref_locals v ex_cf mm /\ ref_enc_valid v ex_cf mm c clen m ad npub k ex_K ex_N ex_A ex_T /\ ex_T <> [].
Proof. eexists _, _, _, _, _, _, _. split; [apply ex_locals|]. split; [apply ex_enc|discriminate]. Qed.

(* Both decryptions under the same key: a genuine and a forged message. *)
Example C54_dec_case v t : bytes t -> length t = 16%nat -> exists mm m mlen c ad npub k mm' m' mlen' c' ad' npub' k' Y,
  ref_locals v ex_cf mm /\ ref_dec_valid v ex_cf mm m mlen c ad npub k ex_K ex_N ex_A Y /\
  Y = isap_encrypt (v_inst v) ex_K ex_N ex_A ex_T /\
  ref_locals v ex_cf mm' /\ ref_dec_valid v ex_cf mm' m' mlen' c' ad' npub' k' ex_K ex_N ex_A (ex_T ++ t).
Proof.
  intros Bt Lt. eexists _, _, _, _, _, _, _, _, _, _, _, _, _, _, _. split; [apply ex_locals|]. split; [apply ex_dec; apply ex_ct|].
  split; [reflexivity|]. split; [apply ex_locals|]. apply ex_dec; [apply bytes_app; auto using ex_bytes_T|rewrite app_length, Lt; reflexivity].
Qed.

(* What the device sees depends on what it computes: with the first byte of the state and a re-keying of two bits, 1 then 0, in a toy
   instance whose permutation adds the number of rounds to every byte. *)
Definition ex_toy : inst := Inst 40 8 12 1 6 12 (fun r s => map (fun x => (x + N.of_nat r) mod 256) s).
Example C54_seen : seen (fun s => nth 0 s 0) (rk_steps ex_toy (repeat 5 40) [true; false]) = [133; 1; 134; 12].
Proof. reflexivity. Qed.
(* The two nonces differ in their first bit: the first call is the same, the second has the first bit inverted. *)
Example C54_flip : let R := rk_in ex_toy (repeat 1 16) (repeat 2 8) (repeat 0 16) in
  let R' := rk_in ex_toy (repeat 1 16) (repeat 2 8) (128 :: repeat 0 15) in
  nth 0 R' ([], 0%nat) = nth 0 R ([], 0%nat) /\ fst (nth 1 R' ([], 0%nat)) = flip1 (fst (nth 1 R ([], 0%nat))) /\
  fst (nth 1 R' ([], 0%nat)) <> fst (nth 1 R ([], 0%nat)).
Proof. cbv. repeat split; congruence. Qed.
