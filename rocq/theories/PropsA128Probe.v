(* Property C59: the states on which the optimised ISAP-A-128 implementations (opt_64, opt_32, opt_32_armv67m) call their permutation. Only
   statements: proofs are in A128ProbeProof.v and A128ProbeTop.v. *)
From Verif Require Import Base SpecPerm Words Mem Vocab Vocab2 RefAead SpecFacts Api ApiProps ExLib VocabProbe VocabOptProbe.
From Verif Require Import OptPerm OptIsap OptImpl OptEx OptProbeTop A128Perm A128Impl A128ProbeTop.
From Verif Require A128 A128Probe OptProbe.
Import A128Probe(a128, A64, A32, A67, a128_lanes, a128_plain, probed_a128).
From Verif Require Import Spec.
Open Scope N_scope.

Notation probed_encrypt a leak cf c clen m T ad A npub k :=
  (a_enc (probed_a128 a leak cf) c clen m (N.of_nat (length T)) ad (N.of_nat (length A)) npub k) (only parsing).
Notation probed_decrypt a leak cf m mlen c Y ad A npub k :=
  (a_dec (probed_a128 a leak cf) m mlen c (N.of_nat (length Y)) ad (N.of_nat (length A)) npub k) (only parsing).

(* Without the device the model is that of C27. *)
Theorem C59_device_off cf :
  (A128Probe.isap_enc_64 a128_64 64 cf (fun _ => ret tt) = A128.isap_enc_64 a128_64 64 cf /\
   A128Probe.isap_mac_64 a128_64 64 cf (fun _ => ret tt) = A128.isap_mac_64 a128_64 64 cf) /\
  (forall a u, A128Probe.isap_enc_32 a u cf (fun _ => ret tt) = A128.isap_enc_32 a u cf /\
               A128Probe.isap_mac_32 a u cf (fun _ => ret tt) = A128.isap_mac_32 a u cf) /\
  a128_plain A64 cf = impl_a128_64 64 cf /\ a128_plain A32 cf = impl_a128_32 cf /\ a128_plain A67 cf = impl_a128_67 cf.
Proof. exact (ax_device_off cf). Qed.
Print Assumptions C59_device_off.

(* Encryption permutes exactly the listed states, in this order and in the form in which the implementation holds them, whatever the device
   computes from them; the device changes neither the result nor the memory. *)
Theorem C59_encryption_states a leak cf mm c clen m ad npub k K Nn A T : strict cf = false -> enc_valid cf cs128 mm c clen m ad npub k K Nn A T ->
  exists m1,
    runs (a_enc (a128_plain a cf) c clen m (N.of_nat (length T)) ad (N.of_nat (length A)) npub k) mm 0%Z m1 /\
    logs (probed_encrypt a leak cf c clen m T ad A npub k) mm 0%Z m1
      (seen (fun s => leak (held (a128_lanes a) s))
         (enc_in ISAP_A_128 K Nn (length T) ++ mac_in ISAP_A_128 K Nn A (isap_enc ISAP_A_128 K Nn T))).
Proof. exact (ax_enc_same a leak cf mm c clen m ad npub k K Nn A T). Qed.
Print Assumptions C59_encryption_states.

Theorem C59_decryption_states a leak cf mm m mlen c ad npub k K Nn A Y : strict cf = false -> dec_valid cf cs128 mm m mlen c ad npub k K Nn A Y ->
  exists r m1,
    runs (a_dec (a128_plain a cf) m mlen c (N.of_nat (length Y)) ad (N.of_nat (length A)) npub k) mm r m1 /\
    logs (probed_decrypt a leak cf m mlen c Y ad A npub k) mm r m1
      (seen (fun s => leak (held (a128_lanes a) s)) (mac_in ISAP_A_128 K Nn A (firstn (length Y - 16) Y) ++
         if (r =? 0)%Z then enc_in ISAP_A_128 K Nn (length Y - 16) else [])) /\
    (r = 0%Z <-> skipn (length Y - 16) Y = isap_mac ISAP_A_128 K Nn A (firstn (length Y - 16) Y)).
Proof. exact (ax_dec_same a leak cf mm m mlen c ad npub k K Nn A Y). Qed.
Print Assumptions C59_decryption_states.

(* Decryption: the calls before the last re-keying depend neither on the key nor on the implementation. *)
Theorem C59_hash_without_key Nn A Y : exists h, forall a cf mm m mlen c ad npub k K, strict cf = false -> dec_valid cf cs128 mm m mlen c ad npub k K Nn A Y ->
  exists R z r m1, length R = 129%nat /\
    forall leak, logs (probed_decrypt a leak cf m mlen c Y ad A npub k) mm r m1
      (seen (fun s => leak (held (a128_lanes a) s)) (h ++ R ++ [z] ++ if (r =? 0)%Z then enc_in ISAP_A_128 K Nn (length Y - 16) else [])).
Proof. exact (ax_dec_public Nn A Y). Qed.
Print Assumptions C59_hash_without_key.

(* Any two decryptions under one key, by the same implementation or by two different ones. *)
Theorem C59_decryptions_two_limited a cf mm m mlen c ad npub k K Nn A Y a' cf' mm' m' mlen' c' ad' npub' k' Nn' A' Y' :
  strict cf = false ->
  dec_valid cf cs128 mm m mlen c ad npub k K Nn A Y ->
  strict cf' = false ->
  dec_valid cf' cs128 mm' m' mlen' c' ad' npub' k' K Nn' A' Y' ->
  exists h R z e r m1 h' R' z' e' r' m1',
    two_limited R R' /\
    (forall leak, logs (probed_decrypt a leak cf m mlen c Y ad A npub k) mm r m1
       (seen (fun s => leak (held (a128_lanes a) s)) (h ++ R ++ [z] ++ e))) /\
    (forall leak, logs (probed_decrypt a' leak cf' m' mlen' c' Y' ad' A' npub' k') mm' r' m1'
       (seen (fun s => leak (held (a128_lanes a') s)) (h' ++ R' ++ [z'] ++ e'))) /\
    h = hash_in ISAP_A_128 Nn A (firstn (length Y - 16) Y) /\ h' = hash_in ISAP_A_128 Nn' A' (firstn (length Y' - 16) Y') /\
    (r <> 0%Z -> e = []) /\ (r' <> 0%Z -> e' = []).
Proof.
  exact (fun H1 V H1' V' => shape_dec_two A128 K _ _ mm Nn A Y _ _ mm' Nn' A' Y'
    (ax_dec_shape a cf mm m mlen c ad npub k K Nn A Y H1 V)
    (ax_dec_shape a' cf' mm' m' mlen' c' ad' npub' k' K Nn' A' Y' H1' V')).
Qed.
Print Assumptions C59_decryptions_two_limited.

(* Any two encryptions of non-empty messages under one key. *)
Theorem C59_encryptions_two_limited a cf mm c clen m ad npub k K Nn A T a' cf' mm' c' clen' m' ad' npub' k' Nn' A' T' :
  strict cf = false ->
  enc_valid cf cs128 mm c clen m ad npub k K Nn A T -> T <> [] ->
  strict cf' = false ->
  enc_valid cf' cs128 mm' c' clen' m' ad' npub' k' K Nn' A' T' -> T' <> [] ->
  exists Q e h R z m1 Q' e' h' R' z' m1',
    two_limited Q Q' /\ two_limited R R' /\
    (forall leak, logs (probed_encrypt a leak cf c clen m T ad A npub k) mm 0%Z m1
       (seen (fun s => leak (held (a128_lanes a) s)) (Q ++ e ++ h ++ R ++ [z]))) /\
    (forall leak, logs (probed_encrypt a' leak cf' c' clen' m' T' ad' A' npub' k') mm' 0%Z m1'
       (seen (fun s => leak (held (a128_lanes a') s)) (Q' ++ e' ++ h' ++ R' ++ [z']))) /\
    length e = ((length T + 8 - 1) / 8)%nat /\ length e' = ((length T' + 8 - 1) / 8)%nat /\
    (Nn = Nn' -> length T = length T' -> Q = Q' /\ e = e').
Proof.
  exact (fun H1 V HT H1' V' HT' => shape_enc_two A128 K _ _ mm Nn A T _ _ mm' Nn' A' T'
    (ax_enc_shape a cf mm c clen m ad npub k K Nn A T H1 V) HT
    (ax_enc_shape a' cf' mm' c' clen' m' ad' npub' k' K Nn' A' T' H1' V') HT').
Qed.
Print Assumptions C59_encryptions_two_limited.

(* ---- The hypotheses can be met ---- *)

Example C59_enc_case : exists mm c clen m ad npub k,
  strict lax_cf = false /\ enc_valid lax_cf cs128 mm c clen m ad npub k ex_K ex_N ex_A ex_T /\ ex_T <> [].
Proof.
  eexists _, _, _, _, _, _, _. split; [reflexivity|]. split; [|discriminate].
  apply (ex_enc_valid lax_cf cs128 ex_K ex_N ex_A ex_T); auto using ex_bytes_K, ex_bytes_N, ex_bytes_A, ex_bytes_T; reflexivity.
Qed.
Example C59_dec_case Y : bytes Y -> length Y = 35%nat -> exists mm m mlen c ad npub k,
  strict lax_cf = false /\ dec_valid lax_cf cs128 mm m mlen c ad npub k ex_K ex_N ex_A Y.
Proof.
  intros B L. eexists _, _, _, _, _, _, _. split; [reflexivity|].
  apply (ex_dec_valid lax_cf cs128 ex_K ex_N ex_A Y); auto using ex_bytes_K, ex_bytes_N, ex_bytes_A; rewrite ?L; try reflexivity; lia.
Qed.
(* The words held for one state: opt_64 and the two bit-interleaved ones. *)
Example C59_held : held (a128_lanes A64) (map N.of_nat (seq 1 40)) =
    [0x0102030405060708; 0x090a0b0c0d0e0f10; 0x1112131415161718; 0x191a1b1c1d1e1f20; 0x2122232425262728] /\
  held (a128_lanes A32) (map N.of_nat (seq 1 40)) = held (a128_lanes A67) (map N.of_nat (seq 1 40)) /\
  nth 0 (held (a128_lanes A32) (map N.of_nat (seq 1 40))) 0 <> 0x0102030405060708.
Proof. vm_compute. split; [reflexivity|]. split; [reflexivity|discriminate]. Qed.
(* Nine bytes of text and no associated data: 129 + 2 calls for the ciphertext and 1 + 1 + 2 for the hash. *)
Example C59_number K Nn T : length Nn = 16%nat -> length T = 9%nat -> length (isap_enc ISAP_A_128 K Nn T) = 9%nat ->
  length (enc_in ISAP_A_128 K Nn 9) = 131%nat /\ length (hash_in ISAP_A_128 Nn [] (isap_enc ISAP_A_128 K Nn T)) = 4%nat.
Proof.
  intros LN LT LC. destruct (isap_enc ISAP_A_128 K Nn T) as [|c0 [|c1 [|c2 [|c3 [|c4 [|c5 [|c6 [|c7 [|c8 [|c9 r]]]]]]]]]]; try discriminate.
  split; [|reflexivity].
  destruct Nn as [|n0 [|n1 [|n2 [|n3 [|n4 [|n5 [|n6 [|n7 [|n8 [|n9 [|n10 [|n11 [|n12 [|n13 [|n14 [|n15 [|n16 l]]]]]]]]]]]]]]]]]; try discriminate.
  unfold enc_in. replace (9 =? 0)%nat with false by reflexivity. rewrite app_length.
  destruct (ProbeTop.rk_two ISAP_A_128 K (iv_KE ISAP_A_128) [n0; n1; n2; n3; n4; n5; n6; n7; n8; n9; n10; n11; n12; n13; n14; n15]
    [n0; n1; n2; n3; n4; n5; n6; n7; n8; n9; n10; n11; n12; n13; n14; n15] eq_refl eq_refl) as [-> _]. reflexivity.
Qed.
