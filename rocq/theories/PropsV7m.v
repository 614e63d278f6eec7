(* Property theorems: what isapa128av20/bi_32_armv7m computes (C48). It is not ISAP-A-128A (C24); these theorems say exactly what it is, and why the checks
   of the test programs do not notice. Nothing but statements, each proved by a lemma. *)
From Coq Require Import Ascii String.
From Verif Require Import Base SpecPerm Words Mem Vocab Vocab2 VocabK MemProof RefAead SpecFacts ExLib
  OptPerm OptIsap OptProof OptImpl OptEx Genkat VocabKat Trace VocabV7m V7mImpl V7mCt.
From Verif Require Spec.
Open Scope N_scope.
Local Notation length := List.length.

(* ---- C48 ---- *)

(* The permutation: on every state of five 64-bit words and for the round numbers in use, r rounds of bi_32_armv7m are the last r rounds of Ascon-p with
   the five lanes rotated by three places after each round (v7m_p). *)
Theorem C48_permutation r ws : In r [12; 1; 6]%nat -> Forall (fun v => v < 2 ^ 64) ws -> length ws = 5%nat ->
  concat (map (word_le 8) (map (WORDTOU64 bi_32_armv7m) (PROUNDS bi_32_armv7m (N.of_nat r) (map (U64TOWORD bi_32_armv7m) ws)))) =
  v7m_p r (concat (map (word_le 8) ws)).
Proof. exact (v7m_words_perm r ws). Qed.
Print Assumptions C48_permutation.

(* Encryption and decryption: ISAP_V7M, that is ISAP-A-128A with v7m_p in place of Ascon-p, for every valid call with aligned pointers. *)
Theorem C48_encrypt cf junk mm c clen m ad npub k K Nn A T :
  (forall i, (i < 4)%nat -> al8 cf (P i 0)) -> length junk = 5%nat ->
  al8_call cf mm k npub ad (length A) m c (length T) -> enc_valid cf opt_consts mm c clen m ad npub k K Nn A T ->
  runs (a_enc (opt_impl bi_32_armv7m cf junk) c clen m (N.of_nat (length T)) ad (N.of_nat (length A)) npub k) mm 0%Z
       (putp (putp mm clen (word_le 8 (N.of_nat (length T) + 16))) c (Spec.isap_encrypt ISAP_V7M K Nn A T)).
Proof. exact (fun Hc Hj => ioi_enc _ _ _ _ _ (v7m_impl cf junk Hc Hj) mm c clen m ad npub k K Nn A T). Qed.
Print Assumptions C48_encrypt.

Theorem C48_decrypt cf junk mm m mlen c ad npub k K Nn A Y :
  (forall i, (i < 4)%nat -> al8 cf (P i 0)) -> length junk = 5%nat ->
  al8_call cf mm k npub ad (length A) c m (length Y - 16)%nat -> dec_valid cf opt_consts mm m mlen c ad npub k K Nn A Y ->
  let m1 := putp mm mlen (word_le 8 (N.of_nat (length Y) - 16)) in
  runs (a_dec (opt_impl bi_32_armv7m cf junk) m mlen c (N.of_nat (length Y)) ad (N.of_nat (length A)) npub k) mm
       (match Spec.isap_decrypt ISAP_V7M K Nn A Y with Some _ => 0%Z | None => (-1)%Z end)
       (match Spec.isap_decrypt ISAP_V7M K Nn A Y with Some T => putp m1 m T | None => m1 end).
Proof. exact (fun Hc Hj => ioi_dec _ _ _ _ _ (v7m_impl cf junk Hc Hj) mm m mlen c ad npub k K Nn A Y). Qed.
Print Assumptions C48_decrypt.

(* Decrypting what it has encrypted returns the message. *)
Theorem C48_round_trip cf junk mm c clen m ad npub k mm' m' mlen' c' ad' npub' k' K Nn A T Y :
  (forall i, (i < 4)%nat -> al8 cf (P i 0)) -> length junk = 5%nat ->
  al8_call cf mm k npub ad (length A) m c (length T) -> enc_valid cf opt_consts mm c clen m ad npub k K Nn A T ->
  al8_call cf mm' k' npub' ad' (length A) c' m' (length T) -> dec_valid cf opt_consts mm' m' mlen' c' ad' npub' k' K Nn A Y ->
  (exists m1, runs (a_enc (opt_impl bi_32_armv7m cf junk) c clen m (N.of_nat (length T)) ad (N.of_nat (length A)) npub k) mm 0%Z m1 /\
     has m1 c Y /\ length Y = (length T + 16)%nat) ->
  runs (a_dec (opt_impl bi_32_armv7m cf junk) m' mlen' c' (N.of_nat (length Y)) ad' (N.of_nat (length A)) npub' k') mm' 0%Z
       (putp (putp mm' mlen' (word_le 8 (N.of_nat (length T)))) m' T).
Proof. exact (fun Hc Hj => v7m_round_trip cf junk Hc Hj mm c clen m ad npub k mm' m' mlen' c' ad' npub' k' K Nn A T Y). Qed.
Print Assumptions C48_round_trip.

(* It accepts its own ciphertexts and nothing else. *)
Theorem C48_accepts_only_its_own cf junk mm m mlen c ad npub k K Nn A Y :
  (forall i, (i < 4)%nat -> al8 cf (P i 0)) -> length junk = 5%nat ->
  al8_call cf mm k npub ad (length A) c m (length Y - 16)%nat -> dec_valid cf opt_consts mm m mlen c ad npub k K Nn A Y ->
  exists r m1, runs (a_dec (opt_impl bi_32_armv7m cf junk) m mlen c (N.of_nat (length Y)) ad (N.of_nat (length A)) npub k) mm r m1 /\
    (r = 0%Z <-> exists T, bytes T /\ Y = Spec.isap_encrypt ISAP_V7M K Nn A T).
Proof. exact (fun Hc Hj => v7m_accepts cf junk Hc Hj mm m mlen c ad npub k K Nn A Y). Qed.
Print Assumptions C48_accepts_only_its_own.

(* crypto_hash: Ascon-Hash with v7m_p in place of Ascon-p; exactly 32 bytes are written. *)
Theorem C48_hash cf m out inp X : (forall i, (i < 4)%nat -> al8 cf (P i 0)) -> consts_ok opt_consts m -> bytes_at m inp X ->
  N.of_nat (length X) < 2 ^ 64 -> room m out 32 -> al8 cf inp -> al8 cf out ->
  runs (OptIsap.crypto_hash bi_32_armv7m cf out inp (N.of_nat (length X))) m 0%Z (putp m out (v7m_hash X)) /\ length (v7m_hash X) = 32%nat.
Proof. exact (v7m_hash_ok cf m out inp X). Qed.
Print Assumptions C48_hash.

(* tests/genkat_aead.c with bi_32_armv7m: all its checks pass, it returns 0 and reports nothing, but the file it has written is not that of
   ISAP-A-128A. The same for tests/genkat_hash.c. *)
Theorem C48_test_program_reports_success cf junk mm : (forall i, al8 cf (P i 0)) -> length junk = 5%nat -> consts_ok opt_consts mm -> (4 <= length mm)%nat ->
  exists file, runs (genkat_main (opt_impl bi_32_armv7m cf junk) cf true) mm (0%Z, Some ("LWC_AEAD_KAT_128_128.txt"%string, file), ""%string) mm /\
    file = kat_file ISAP_V7M /\ file <> kat_file Spec.ISAP_A_128A.
Proof.
  exact (fun Hc Hj H4 Hl => ex_intro _ (kat_file ISAP_V7M) (conj (proj1 (v7m_genkat cf junk mm Hc Hj H4 Hl)) (conj eq_refl files_differ))).
Qed.
Print Assumptions C48_test_program_reports_success.

Theorem C48_hash_test_program_reports_success cf mm : (forall i, al8 cf (P i 0)) -> consts_ok opt_consts mm -> (4 <= length mm)%nat ->
  exists file, runs (genkat_hash_main (OptIsap.crypto_hash bi_32_armv7m cf) true) mm (0%Z, Some ("LWC_HASH_KAT_256.txt"%string, file), ""%string) mm /\
    file = hash_file v7m_hash /\ file <> hash_file Spec.ascon_hash.
Proof.
  exact (fun Hc H4 Hl => ex_intro _ (hash_file v7m_hash) (conj (v7m_genkat_hash cf mm Hc H4 Hl) (conj eq_refl hash_files_differ))).
Qed.
Print Assumptions C48_hash_test_program_reports_success.

(* Its traces depend on lengths and addresses only, and, in decryption, on the verdict, as those of the other implementations (C16-C18). *)
Theorem C48_encryption_trace cf junk mm mm' c clen m ad npub k K Nn A T K' Nn' A' T' :
  (forall i, (i < 4)%nat -> al8 cf (P i 0)) -> length junk = 5%nat ->
  al8_call cf mm k npub ad (length A) m c (length T) ->
  enc_valid cf opt_consts mm c clen m ad npub k K Nn A T -> enc_valid cf opt_consts mm' c clen m ad npub k K' Nn' A' T' ->
  length A = length A' -> length T = length T' -> layout mm mm' ->
  forall t, exists s s',
    a_enc (opt_impl bi_32_armv7m cf junk) c clen m (N.of_nat (length T)) ad (N.of_nat (length A)) npub k (St mm t) = Ok 0%Z s /\
    a_enc (opt_impl bi_32_armv7m cf junk) c clen m (N.of_nat (length T)) ad (N.of_nat (length A)) npub k (St mm' t) = Ok 0%Z s' /\
    strc s = strc s' /\
    perms (strc s) = perms t ++ calls_enc Spec.ISAP_A_128A (length T) ++ calls_mac Spec.ISAP_A_128A (length A) (length T).
Proof.
  exact (fun Hc Hj C V V' EA ET L => proj1 (v7m_traced cf junk Hc Hj) mm mm' c clen m ad npub k K Nn A T K' Nn' A' T' C C V V' EA ET L).
Qed.
Print Assumptions C48_encryption_trace.

Theorem C48_decryption_trace cf junk mm mm' m mlen c ad npub k K Nn A Y K' Nn' A' Y' :
  (forall i, (i < 4)%nat -> al8 cf (P i 0)) -> length junk = 5%nat ->
  al8_call cf mm k npub ad (length A) c m (length Y - 16)%nat ->
  dec_valid cf opt_consts mm m mlen c ad npub k K Nn A Y -> dec_valid cf opt_consts mm' m mlen c ad npub k K' Nn' A' Y' ->
  length A = length A' -> length Y = length Y' -> layout mm mm' ->
  forall t, exists r s r' s' t0 u u',
    a_dec (opt_impl bi_32_armv7m cf junk) m mlen c (N.of_nat (length Y)) ad (N.of_nat (length A)) npub k (St mm t) = Ok r s /\
    a_dec (opt_impl bi_32_armv7m cf junk) m mlen c (N.of_nat (length Y)) ad (N.of_nat (length A)) npub k (St mm' t) = Ok r' s' /\
    strc s = u ++ EBr (r =? 0)%Z :: t0 /\ strc s' = u' ++ EBr (r' =? 0)%Z :: t0 /\
    (r <> 0%Z -> u = []) /\ (r' <> 0%Z -> u' = []) /\ (r = r' -> u = u') /\
    perms (strc s) = perms t ++ calls_mac Spec.ISAP_A_128A (length A) (length Y - 16) ++
      (if (r =? 0)%Z then calls_enc Spec.ISAP_A_128A (length Y - 16) else []).
Proof.
  exact (fun Hc Hj C V V' EA ET L => proj2 (v7m_traced cf junk Hc Hj) mm mm' m mlen c ad npub k K Nn A Y K' Nn' A' Y' C C V V' EA ET L).
Qed.
Print Assumptions C48_decryption_trace.

(* The hypotheses can be met: calls with 19 bytes of text on a machine that traps misaligned accesses, and the memory in which the test program starts. *)
Example ex_C48 : (forall i, al8 strict_cf (P i 0)) /\
  al8_call strict_cf (ex_mem opt_consts ex_K ex_N ex_A ex_T 35) (ex_ptr opt_consts 0) (ex_ptr opt_consts 1) (ex_ptr opt_consts 2) (length ex_A)
    (ex_ptr opt_consts 3) (ex_ptr opt_consts 4) (length ex_T) /\
  enc_valid strict_cf opt_consts (ex_mem opt_consts ex_K ex_N ex_A ex_T 35) (ex_ptr opt_consts 4) (ex_ptr opt_consts 5) (ex_ptr opt_consts 3)
    (ex_ptr opt_consts 2) (ex_ptr opt_consts 1) (ex_ptr opt_consts 0) ex_K ex_N ex_A ex_T /\
  let mm := map (map Some) opt_consts in consts_ok opt_consts mm /\ (4 <= length mm)%nat.
Proof.
  split; [exact strict_al8|]. split; [repeat split; apply strict_al8|].
  split; [apply (ex_enc_valid strict_cf opt_consts ex_K ex_N ex_A ex_T); auto using ex_bytes_K, ex_bytes_N, ex_bytes_A, ex_bytes_T; reflexivity|].
  cbv zeta. split; [intros i Hi; unfold blk; now apply nth_map_lt|]. repeat constructor.
Qed.
(* A valid decryption call on a forged ciphertext; the first entry of the file has the tag first_v7m, that in the repository first_good. *)
Example ex_C48_dec : dec_valid strict_cf opt_consts (ex_mem opt_consts ex_K ex_N ex_A (ex_T ++ repeat 0 16) 19) (ex_ptr opt_consts 4) (ex_ptr opt_consts 5)
    (ex_ptr opt_consts 3) (ex_ptr opt_consts 2) (ex_ptr opt_consts 1) (ex_ptr opt_consts 0) ex_K ex_N ex_A (ex_T ++ repeat 0 16).
Proof.
  apply (ex_dec_valid strict_cf opt_consts ex_K ex_N ex_A (ex_T ++ repeat 0 16)); auto using ex_bytes_K, ex_bytes_N, ex_bytes_A; try reflexivity.
  - apply bytes_app. split; [apply ex_bytes_T|apply bytes_repeat; lia].
  - repeat constructor.
Qed.
Example ex_C48_first :
  Spec.isap_encrypt ISAP_V7M (count_up 16) (count_up 16) [] [] = [254; 103; 243; 110; 125; 209; 169; 100; 12; 127; 159; 158; 138; 56; 208; 201] /\
  Spec.isap_encrypt Spec.ISAP_A_128A (count_up 16) (count_up 16) [] [] = [123; 148; 239; 53; 174; 85; 171; 39; 44; 156; 68; 214; 193; 207; 1; 2].
Proof. exact (conj first_v7m_ok first_good_ok). Qed.
(* The rotation matters after one round already. *)
Example ex_C48_perm : v7m_p 1 (repeat 0 40) <> ascon_p 1 (repeat 0 40).
Proof. vm_compute. discriminate. Qed.
