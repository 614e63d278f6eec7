(* Property C62: the states on which isapa128av20/avx_512 permutes. avx_lens UL: the condition of C31. Decryption is as in the specification;
   encryption works out the key stream and the hash side by side in vector registers (avx_enc_in of VocabAvxProbe.v). Only statements: proofs are
   in AvxAProbeProof.v, AvxAEncProbe.v and AvxAProbeTop.v. *)
From Verif Require Import Base SpecPerm Words Mem Vocab Vocab2 VocabK RefAead SpecFacts Api ApiProps ExLib VocabProbe VocabOptProbe VocabAvxProbe.
From Verif Require Import OptPerm OptIsap OptImpl OptEx OptProbeTop AvxAProof AvxAImpl AvxAProbeTop.
From Verif Require AvxA AvxAProbe.
Import AvxA(avxa).
Import AvxAProbe(probed_avxa).
From Verif Require Import Spec.
Open Scope N_scope.

Notation probed_encrypt UL leak cf c clen m T ad A npub k :=
  (a_enc (probed_avxa UL leak cf) c clen m (N.of_nat (length T)) ad (N.of_nat (length A)) npub k) (only parsing).
Notation probed_decrypt UL leak cf m mlen c Y ad A npub k :=
  (a_dec (probed_avxa UL leak cf) m mlen c (N.of_nat (length Y)) ad (N.of_nat (length A)) npub k) (only parsing).

(* Without the device the model is that of C31. *)
Theorem C62_device_off UL cf :
  AvxAProbe.crypto_aead_encryptA UL cf (fun _ => ret tt) = AvxA.crypto_aead_encryptA UL cf /\
  AvxAProbe.isap_encA UL cf (fun _ => ret tt) = AvxA.isap_encA UL cf /\
  AvxAProbe.isap_macA UL cf (fun _ => ret tt) = AvxA.isap_macA UL cf.
Proof. exact (vx_device_off UL cf). Qed.
Print Assumptions C62_device_off.

(* Encryption permutes exactly the listed states, in this order, whatever the device computes from them; the device changes neither the result nor
   the memory. *)
Theorem C62_encryption_states UL leak cf mm c clen m ad npub k K Nn A T : strict cf = false ->
  avx_lens UL mm k npub ad (length A) m c (length T) -> enc_valid cf csA mm c clen m ad npub k K Nn A T ->
  exists m1,
    runs (a_enc (impl_avxa UL cf) c clen m (N.of_nat (length T)) ad (N.of_nat (length A)) npub k) mm 0%Z m1 /\
    logs (probed_encrypt UL leak cf c clen m T ad A npub k) mm 0%Z m1
      (seen_v (fun s => leak (held avxa s)) (avx_enc_in K Nn A T)).
Proof. exact (vx_enc_same UL leak cf mm c clen m ad npub k K Nn A T). Qed.
Print Assumptions C62_encryption_states.

Theorem C62_decryption_states UL leak cf mm m mlen c ad npub k K Nn A Y : UL <= 64 -> strict cf = false ->
  avx_lens UL mm k npub ad (length A) c m (length Y - 16)%nat -> dec_valid cf csA mm m mlen c ad npub k K Nn A Y ->
  exists r m1,
    runs (a_dec (impl_avxa UL cf) m mlen c (N.of_nat (length Y)) ad (N.of_nat (length A)) npub k) mm r m1 /\
    logs (probed_decrypt UL leak cf m mlen c Y ad A npub k) mm r m1
      (seen (fun s => leak (held avxa s)) (mac_in ISAP_A_128A K Nn A (firstn (length Y - 16) Y) ++
         if (r =? 0)%Z then enc_in ISAP_A_128A K Nn (length Y - 16) else [])) /\
    (r = 0%Z <-> skipn (length Y - 16) Y = isap_mac ISAP_A_128A K Nn A (firstn (length Y - 16) Y)).
Proof. exact (vx_dec_same UL leak cf mm m mlen c ad npub k K Nn A Y). Qed.
Print Assumptions C62_decryption_states.

(* Decryption: the calls before the last re-keying do not depend on the key. *)
Theorem C62_hash_without_key Nn A Y : exists h, forall UL cf mm m mlen c ad npub k K, UL <= 64 -> strict cf = false ->
  avx_lens UL mm k npub ad (length A) c m (length Y - 16)%nat -> dec_valid cf csA mm m mlen c ad npub k K Nn A Y ->
  exists R z r m1, length R = 129%nat /\
    forall leak, logs (probed_decrypt UL leak cf m mlen c Y ad A npub k) mm r m1
      (seen (fun s => leak (held avxa s)) (h ++ R ++ [z] ++ if (r =? 0)%Z then enc_in ISAP_A_128A K Nn (length Y - 16) else [])).
Proof. exact (vx_dec_public Nn A Y). Qed.
Print Assumptions C62_hash_without_key.

(* Any two decryptions under one key. *)
Theorem C62_decryptions_two_limited UL cf mm m mlen c ad npub k K Nn A Y UL' cf' mm' m' mlen' c' ad' npub' k' Nn' A' Y' :
  UL <= 64 -> strict cf = false -> avx_lens UL mm k npub ad (length A) c m (length Y - 16)%nat -> dec_valid cf csA mm m mlen c ad npub k K Nn A Y ->
  UL' <= 64 -> strict cf' = false -> avx_lens UL' mm' k' npub' ad' (length A') c' m' (length Y' - 16)%nat ->
  dec_valid cf' csA mm' m' mlen' c' ad' npub' k' K Nn' A' Y' ->
  exists h R z e r m1 h' R' z' e' r' m1',
    two_limited R R' /\
    (forall leak, logs (probed_decrypt UL leak cf m mlen c Y ad A npub k) mm r m1 (seen (fun s => leak (held avxa s)) (h ++ R ++ [z] ++ e))) /\
    (forall leak, logs (probed_decrypt UL' leak cf' m' mlen' c' Y' ad' A' npub' k') mm' r' m1'
       (seen (fun s => leak (held avxa s)) (h' ++ R' ++ [z'] ++ e'))) /\
    h = hash_in ISAP_A_128A Nn A (firstn (length Y - 16) Y) /\ h' = hash_in ISAP_A_128A Nn' A' (firstn (length Y' - 16) Y') /\
    (r <> 0%Z -> e = []) /\ (r' <> 0%Z -> e' = []).
Proof.
  exact (fun HU Hs L V HU' Hs' L' V' => shape_dec_two A128A K _ _ mm Nn A Y _ _ mm' Nn' A' Y'
    (vx_dec_shape UL cf mm m mlen c ad npub k K Nn A Y HU Hs L V)
    (vx_dec_shape UL' cf' mm' m' mlen' c' ad' npub' k' K Nn' A' Y' HU' Hs' L' V')).
Qed.
Print Assumptions C62_decryptions_two_limited.

(* Any two encryptions under one key, of the empty message too: 129 calls first and 129 before the last one. *)
Theorem C62_encryptions_two_limited UL cf mm c clen m ad npub k K Nn A T UL' cf' mm' c' clen' m' ad' npub' k' Nn' A' T' :
  strict cf = false -> avx_lens UL mm k npub ad (length A) m c (length T) -> enc_valid cf csA mm c clen m ad npub k K Nn A T ->
  strict cf' = false -> avx_lens UL' mm' k' npub' ad' (length A') m' c' (length T') -> enc_valid cf' csA mm' c' clen' m' ad' npub' k' K Nn' A' T' ->
  exists Q e R z m1 Q' e' R' z' m1',
    two_limited Q Q' /\ two_limited R R' /\
    (forall leak, logs (probed_encrypt UL leak cf c clen m T ad A npub k) mm 0%Z m1
       (seen_v (fun s => leak (held avxa s)) (ones Q ++ e ++ ones (R ++ [z])))) /\
    (forall leak, logs (probed_encrypt UL' leak cf' c' clen' m' T' ad' A' npub' k') mm' 0%Z m1'
       (seen_v (fun s => leak (held avxa s)) (ones Q' ++ e' ++ ones (R' ++ [z'])))) /\
    (Nn = Nn' -> Q = Q') /\ (Nn = Nn' -> A = A' -> T = T' -> e = e').
Proof. exact (vx_enc_two UL cf mm c clen m ad npub k K Nn A T UL' cf' mm' c' clen' m' ad' npub' k' Nn' A' T'). Qed.
Print Assumptions C62_encryptions_two_limited.

(* The empty message: the specification and the other implementations do not derive the encryption key for it; this code does, and permutes the
   key stream state twice, beside the last block of the associated data. *)
Theorem C62_empty_message UL cf mm c clen m ad npub k K Nn A : strict cf = false ->
  avx_lens UL mm k npub ad (length A) m c 0%nat -> enc_valid cf csA mm c clen m ad npub k K Nn A [] ->
  let H := hash_in ISAP_A_128A Nn A [] in
  let b := S (length A / 8) in
  let s := isap_rk ISAP_A_128A K (iv_KE ISAP_A_128A) Nn 24 ++ Nn in
  exists m1 (x : call) R,
    (forall leak, logs (a_enc (probed_avxa UL leak cf) c clen m 0 ad (N.of_nat (length A)) npub k) mm 0%Z m1
      (seen_v (fun s => leak (held avxa s))
        (ones (rk_in ISAP_A_128A K (iv_KE ISAP_A_128A) Nn ++ firstn b H) ++
         [both s (fst x); both (ascon_p 6 s) (half (fst x))] ++
         ones (skipn (b + 1) H ++ R)))) /\
    nth_error H b = Some x /\ enc_in ISAP_A_128A K Nn 0 = [].
Proof. exact (vx_enc_empty UL cf mm c clen m ad npub k K Nn A). Qed.
Print Assumptions C62_empty_message.

(* ---- The hypotheses can be met. ---- *)

Example C62_enc_case T : T = ex_T \/ T = [] -> exists mm c clen m ad npub k,
  strict lax_cf = false /\ avx_lens 32 mm k npub ad (length ex_A) m c (length T) /\
  enc_valid lax_cf csA mm c clen m ad npub k ex_K ex_N ex_A T.
Proof.
  intros [-> | ->]; eexists _, _, _, _, _, _, _; (split; [reflexivity|]); (split; [repeat split; reflexivity|]).
  - apply (ex_enc_valid lax_cf csA ex_K ex_N ex_A ex_T); auto using ex_bytes_K, ex_bytes_N, ex_bytes_A, ex_bytes_T; reflexivity.
  - apply (ex_enc_valid lax_cf csA ex_K ex_N ex_A []); auto using ex_bytes_K, ex_bytes_N, ex_bytes_A; try reflexivity. constructor.
Qed.
Example C62_dec_case Y : bytes Y -> length Y = 35%nat -> exists mm m mlen c ad npub k,
  strict lax_cf = false /\ avx_lens 64 mm k npub ad (length ex_A) c m (length Y - 16)%nat /\
  dec_valid lax_cf csA mm m mlen c ad npub k ex_K ex_N ex_A Y.
Proof.
  intros B L. eexists _, _, _, _, _, _, _. split; [reflexivity|]. split; [rewrite L; repeat split; reflexivity|].
  apply (ex_dec_valid lax_cf csA ex_K ex_N ex_A Y); auto using ex_bytes_K, ex_bytes_N, ex_bytes_A; rewrite ?L; try reflexivity; lia.
Qed.
(* 17 bytes: two rounds of the loop, hence four calls for the key stream, where three would do. *)
Example C62_rounds : avx_rounds_n 0 = 1%nat /\ avx_rounds_n 16 = 1%nat /\ avx_rounds_n 17 = 2%nat.
Proof. repeat split. Qed.
(* half is what its name says. *)
Example C62_half s : bytes s -> length s = 40%nat -> ascon_p 6 (half s) = ascon_p 12 s.
Proof. exact (fun B L => half_12 s (conj L B)). Qed.
