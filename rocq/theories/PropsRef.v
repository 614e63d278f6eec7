(* Properties C01-C08 and C10-C14 of the reference implementation, in all four builds (v : variant), for every build
   configuration cf (assertions on or off, alignment trapping or not, any placement of the objects).
   Only statements: proofs are in ApiProps.v and RefAead.v. *)
From Verif Require Import Base SpecPerm Words Mem Vocab Spec RefAead SpecFacts Api ApiProps ExLib.
Open Scope N_scope.

Notation ref_encrypt v cf c clen m T ad A npub k :=
  (a_enc (ref_impl v cf) c clen m (N.of_nat (length T)) ad (N.of_nat (length A)) npub k) (only parsing).
Notation ref_decrypt v cf m mlen c Y ad A npub k :=
  (a_dec (ref_impl v cf) m mlen c (N.of_nat (length Y)) ad (N.of_nat (length A)) npub k) (only parsing).

(* ---- The hypotheses can be met: a strict-alignment machine, every build, every key, nonce, ad and text. ---- *)

Example ex_locals v mm : ref_locals v ex_cf mm.
Proof. intros b _. destruct v; cbn; auto; intros _; rewrite N.mul_comm; change 64 with (32 * 2);
  now rewrite N.mul_assoc, N.mod_mul. Qed.

Example ex_aligned v : aligned ex_cf (ex_ptr (ref_consts (v_macros v)) 5) 8 = true.
Proof. now destruct v. Qed.

Example ex_enc v : ref_enc_valid v ex_cf (ex_mem (ref_consts (v_macros v)) ex_K ex_N ex_A ex_T 35)
  (ex_ptr (ref_consts (v_macros v)) 4) (ex_ptr (ref_consts (v_macros v)) 5) (ex_ptr (ref_consts (v_macros v)) 3)
  (ex_ptr (ref_consts (v_macros v)) 2) (ex_ptr (ref_consts (v_macros v)) 1) (ex_ptr (ref_consts (v_macros v)) 0)
  ex_K ex_N ex_A ex_T.
Proof.
  apply (ex_enc_valid ex_cf _ ex_K ex_N ex_A ex_T); auto using ex_aligned, ex_bytes_K, ex_bytes_N, ex_bytes_A, ex_bytes_T;
  reflexivity.
Qed.

(* A decryption call on any 35 bytes, in particular on the encryption of ex_T and on its forgeries. *)
Example ex_dec v Y : bytes Y -> length Y = 35%nat ->
  ref_dec_valid v ex_cf (ex_mem (ref_consts (v_macros v)) ex_K ex_N ex_A Y 19)
  (ex_ptr (ref_consts (v_macros v)) 4) (ex_ptr (ref_consts (v_macros v)) 5) (ex_ptr (ref_consts (v_macros v)) 3)
  (ex_ptr (ref_consts (v_macros v)) 2) (ex_ptr (ref_consts (v_macros v)) 1) (ex_ptr (ref_consts (v_macros v)) 0)
  ex_K ex_N ex_A Y.
Proof.
  intros BY LY. replace 19%nat with (length Y - 16)%nat by now rewrite LY.
  apply (ex_dec_valid ex_cf _ ex_K ex_N ex_A Y); auto using ex_aligned, ex_bytes_K, ex_bytes_N, ex_bytes_A;
    rewrite ?LY; (reflexivity || lia).
Qed.

Example ex_ct v : bytes (isap_encrypt (v_inst v) ex_K ex_N ex_A ex_T) /\
                  length (isap_encrypt (v_inst v) ex_K ex_N ex_A ex_T) = 35%nat.
Proof.
  split; [apply v_encrypt_bytes|rewrite v_encrypt_length]; auto using ex_bytes_K, ex_bytes_N, ex_bytes_A, ex_bytes_T.
Qed.

(* ---- C01 ---- *)

Theorem C01_decryption_inverts_encryption v cf mm c clen m ad npub k K Nn A T :
  ref_locals v cf mm -> ref_enc_valid v cf mm c clen m ad npub k K Nn A T ->
  exists m1 CT,
    runs (ref_encrypt v cf c clen m T ad A npub k) mm 0%Z m1 /\
    length CT = (length T + 16)%nat /\ has m1 c CT /\ has m1 clen (word_le 8 (N.of_nat (length T) + 16)) /\
    forall cf' m2 mp mlen c' ad' npub' k', ref_locals v cf' m2 ->
      ref_dec_valid v cf' m2 mp mlen c' ad' npub' k' K Nn A CT ->
      exists m3,
        runs (ref_decrypt v cf' mp mlen c' CT ad' A npub' k') m2 0%Z m3 /\
        has m3 mp T /\ has m3 mlen (word_le 8 (N.of_nat (length T))).
Proof. exact (ref_roundtrip v cf mm c clen m ad npub k K Nn A T). Qed.
Print Assumptions C01_decryption_inverts_encryption.

Example C01_case v : exists mm c clen m ad npub k mm' mp mlen c' ad' npub' k' CT,
  ref_locals v ex_cf mm /\ ref_enc_valid v ex_cf mm c clen m ad npub k ex_K ex_N ex_A ex_T /\
  CT = isap_encrypt (v_inst v) ex_K ex_N ex_A ex_T /\
  ref_locals v ex_cf mm' /\ ref_dec_valid v ex_cf mm' mp mlen c' ad' npub' k' ex_K ex_N ex_A CT.
Proof.
  eexists _, _, _, _, _, _, _, _, _, _, _, _, _, _, _. split; [apply ex_locals|]. split; [apply ex_enc|].
  split; [reflexivity|]. split; [apply ex_locals|]. apply ex_dec; apply ex_ct.
Qed.

(* ---- C02 ---- *)

Theorem C02_encryption_is_isap v cf mm c clen m ad npub k K Nn A T :
  ref_locals v cf mm -> ref_enc_valid v cf mm c clen m ad npub k K Nn A T ->
  exists m1, runs (ref_encrypt v cf c clen m T ad A npub k) mm 0%Z m1 /\
             has m1 c (isap_encrypt (v_inst v) K Nn A T) /\
             length (isap_encrypt (v_inst v) K Nn A T) = (length T + 16)%nat.
Proof. exact (p_encrypts v cf _ _ _ (ref_if v cf) mm c clen m ad npub k K Nn A T). Qed.
Print Assumptions C02_encryption_is_isap.

(* ---- C03 ---- *)

Theorem C03_accepts_iff_tag_is_mac v cf mm m mlen c ad npub k K Nn A C t :
  ref_locals v cf mm -> length t = 16%nat -> ref_dec_valid v cf mm m mlen c ad npub k K Nn A (C ++ t) ->
  exists r m1, runs (ref_decrypt v cf m mlen c (C ++ t) ad A npub k) mm r m1 /\
    (r = 0%Z \/ r = (-1)%Z) /\ (r = 0%Z <-> t = isap_mac (v_inst v) K Nn A C) /\
    (r = 0%Z -> has m1 m (isap_enc (v_inst v) K Nn C) /\ length (isap_enc (v_inst v) K Nn C) = length C).
Proof. exact (p_decrypts v cf _ _ _ (ref_if v cf) mm m mlen c ad npub k K Nn A C t). Qed.
Print Assumptions C03_accepts_iff_tag_is_mac.

(* Accepted exactly when it is an encryption of something, and then that something comes out. *)
Theorem C03_accepts_only_genuine v cf mm m mlen c ad npub k K Nn A Y :
  ref_locals v cf mm -> ref_dec_valid v cf mm m mlen c ad npub k K Nn A Y ->
  exists r m1, runs (ref_decrypt v cf m mlen c Y ad A npub k) mm r m1 /\
    (r = 0%Z <-> exists T, bytes T /\ Y = isap_encrypt (v_inst v) K Nn A T) /\
    (forall T, bytes T -> Y = isap_encrypt (v_inst v) K Nn A T -> has m1 m T).
Proof. exact (p_accepts_only_genuine v cf _ _ _ (ref_if v cf) mm m mlen c ad npub k K Nn A Y). Qed.
Print Assumptions C03_accepts_only_genuine.

Example C03_case v C t : bytes C -> length C = 19%nat -> bytes t -> length t = 16%nat ->
  exists mm m mlen c ad npub k, ref_locals v ex_cf mm /\ ref_dec_valid v ex_cf mm m mlen c ad npub k ex_K ex_N ex_A (C ++ t).
Proof.
  intros BC LC Bt Lt. eexists _, _, _, _, _, _, _. split; [apply ex_locals|]. apply ex_dec.
  - now apply bytes_app.
  - rewrite app_length. lia.
Qed.

(* ---- C04 ---- *)

Theorem C04_no_unverified_plaintext v cf mm m mlen c ad npub k K Nn A Y r m1 :
  ref_locals v cf mm -> ref_dec_valid v cf mm m mlen c ad npub k K Nn A Y ->
  runs (ref_decrypt v cf m mlen c Y ad A npub k) mm r m1 -> r <> 0%Z ->
  r = (-1)%Z /\ length m1 = length mm /\ forall q, within mlen 8 q = false -> cellp m1 q = cellp mm q.
Proof. exact (p_reject_silent v cf _ _ _ (ref_if v cf) mm m mlen c ad npub k K Nn A Y r m1). Qed.
Print Assumptions C04_no_unverified_plaintext.

(* Rejections happen: for every body there is a tag that is not its MAC. *)
Example C04_case v : exists mm m mlen c ad npub k Y r m1,
  ref_locals v ex_cf mm /\ ref_dec_valid v ex_cf mm m mlen c ad npub k ex_K ex_N ex_A Y /\
  runs (ref_decrypt v ex_cf m mlen c Y ad ex_A npub k) mm r m1 /\ r <> 0%Z.
Proof.
  assert (E : exists t, bytes t /\ length t = 16%nat /\ t <> isap_mac (v_inst v) ex_K ex_N ex_A ex_T).
  { destruct (list_eq_dec N.eq_dec ex_K (isap_mac (v_inst v) ex_K ex_N ex_A ex_T)) as [H|H].
    - exists ex_N. split; [apply ex_bytes_N|]. split; [reflexivity|]. rewrite <- H. discriminate.
    - exists ex_K. split; [apply ex_bytes_K|]. split; [reflexivity|exact H]. }
  destruct E as (t & Bt & Lt & Ht).
  destruct (C03_case v ex_T t ex_bytes_T eq_refl Bt Lt) as (mm & m & mlen & c & ad & npub & k & Hl & V).
  destruct (C03_accepts_iff_tag_is_mac v ex_cf mm m mlen c ad npub k ex_K ex_N ex_A ex_T t Hl Lt V)
    as (r & m1 & R & _ & Hr & _).
  exists mm, m, mlen, c, ad, npub, k, (ex_T ++ t), r, m1. repeat (split; [assumption|]).
  intros E. apply Ht, Hr, E.
Qed.

(* ---- C05 ---- *)

Theorem C05_wrong_tag_rejected v cf mm c clen m ad npub k K Nn A T :
  ref_locals v cf mm -> ref_enc_valid v cf mm c clen m ad npub k K Nn A T ->
  exists m1 C t, runs (ref_encrypt v cf c clen m T ad A npub k) mm 0%Z m1 /\
    length C = length T /\ length t = 16%nat /\ has m1 c (C ++ t) /\
    forall t' m2 mp mlen c' ad' npub' k', length t' = 16%nat -> t' <> t -> ref_locals v cf m2 ->
      ref_dec_valid v cf m2 mp mlen c' ad' npub' k' K Nn A (C ++ t') ->
      exists m3, runs (ref_decrypt v cf mp mlen c' (C ++ t') ad' A npub' k') m2 (-1)%Z m3 /\
                 forall q, within mlen 8 q = false -> cellp m3 q = cellp m2 q.
Proof. exact (p_wrong_tag v cf _ _ _ (ref_if v cf) mm c clen m ad npub k K Nn A T). Qed.
Print Assumptions C05_wrong_tag_rejected.

(* ---- C06 ---- *)

Theorem C06_encrypt_no_undefined_behaviour v cf mm c clen m ad npub k K Nn A T :
  ref_locals v cf mm -> ref_enc_valid v cf mm c clen m ad npub k K Nn A T ->
  forall t, exists r s, ref_encrypt v cf c clen m T ad A npub k (St mm t) = Ok r s.
Proof. exact (p_no_ub_enc v cf _ _ _ (ref_if v cf) mm c clen m ad npub k K Nn A T). Qed.
Print Assumptions C06_encrypt_no_undefined_behaviour.

Theorem C06_decrypt_no_undefined_behaviour v cf mm m mlen c ad npub k K Nn A Y :
  ref_locals v cf mm -> ref_dec_valid v cf mm m mlen c ad npub k K Nn A Y ->
  forall t, exists r s, ref_decrypt v cf m mlen c Y ad A npub k (St mm t) = Ok r s.
Proof. exact (p_no_ub_dec v cf _ _ _ (ref_if v cf) mm m mlen c ad npub k K Nn A Y). Qed.
Print Assumptions C06_decrypt_no_undefined_behaviour.

(* ---- C07 ---- *)

Theorem C07_encrypt_writes_only_outputs v cf mm c clen m ad npub k K Nn A T r m1 :
  ref_locals v cf mm -> ref_enc_valid v cf mm c clen m ad npub k K Nn A T ->
  runs (ref_encrypt v cf c clen m T ad A npub k) mm r m1 ->
  length m1 = length mm /\
  (forall q, within c (length T + 16) q = false -> within clen 8 q = false -> cellp m1 q = cellp mm q) /\
  has m1 k K /\ has m1 npub Nn /\ has m1 ad A /\ (disj c (length T + 16) m (length T) -> has m1 m T).
Proof. exact (p_frame_enc v cf _ _ _ (ref_if v cf) mm c clen m ad npub k K Nn A T r m1). Qed.
Print Assumptions C07_encrypt_writes_only_outputs.

Theorem C07_decrypt_writes_only_outputs v cf mm m mlen c ad npub k K Nn A Y r m1 :
  ref_locals v cf mm -> ref_dec_valid v cf mm m mlen c ad npub k K Nn A Y ->
  runs (ref_decrypt v cf m mlen c Y ad A npub k) mm r m1 ->
  length m1 = length mm /\
  (forall q, within m (length Y - 16) q = false -> within mlen 8 q = false -> cellp m1 q = cellp mm q) /\
  has m1 k K /\ has m1 npub Nn /\ has m1 ad A /\ (disj m (length Y - 16) c (length Y) -> has m1 c Y).
Proof. exact (p_frame_dec v cf _ _ _ (ref_if v cf) mm m mlen c ad npub k K Nn A Y r m1). Qed.
Print Assumptions C07_decrypt_writes_only_outputs.

Example C07_case v : exists mm c clen m ad npub k r m1,
  ref_locals v ex_cf mm /\ ref_enc_valid v ex_cf mm c clen m ad npub k ex_K ex_N ex_A ex_T /\
  runs (ref_encrypt v ex_cf c clen m ex_T ad ex_A npub k) mm r m1.
Proof.
  destruct (C02_encryption_is_isap v ex_cf _ _ _ _ _ _ _ _ _ _ _ (ex_locals v _) (ex_enc v)) as (m1 & R & _).
  eexists _, _, _, _, _, _, _, _, m1. split; [apply ex_locals|]. split; [apply ex_enc|exact R].
Qed.

(* ---- C08 ---- *)

Theorem C08_in_place_encryption v cf mm p clen ad npub k K Nn A T mm' c' clen' m' ad' npub' k' r1 m1 r2 m2 :
  ref_locals v cf mm -> ref_locals v cf mm' ->
  ref_enc_valid v cf mm p clen p ad npub k K Nn A T ->
  ref_enc_valid v cf mm' c' clen' m' ad' npub' k' K Nn A T -> disj c' (length T + 16) m' (length T) ->
  runs (ref_encrypt v cf p clen p T ad A npub k) mm r1 m1 ->
  runs (ref_encrypt v cf c' clen' m' T ad' A npub' k') mm' r2 m2 ->
  r1 = r2 /\ forall i, (i < length T + 16)%nat ->
    rd1 m1 (padd p (N.of_nat i)) = rd1 m2 (padd c' (N.of_nat i)) /\ rd1 m1 (padd p (N.of_nat i)) <> None.
Proof. exact (p_inplace_enc v cf _ _ _ (ref_if v cf) mm p clen ad npub k K Nn A T mm' c' clen' m' ad' npub' k' r1 m1 r2 m2). Qed.
Print Assumptions C08_in_place_encryption.

Theorem C08_in_place_decryption v cf mm p mlen ad npub k K Nn A Y mm' c' mlen' m' ad' npub' k' r1 m1 r2 m2 :
  ref_locals v cf mm -> ref_locals v cf mm' ->
  ref_dec_valid v cf mm p mlen p ad npub k K Nn A Y ->
  ref_dec_valid v cf mm' m' mlen' c' ad' npub' k' K Nn A Y -> disj m' (length Y - 16) c' (length Y) ->
  runs (ref_decrypt v cf p mlen p Y ad A npub k) mm r1 m1 ->
  runs (ref_decrypt v cf m' mlen' c' Y ad' A npub' k') mm' r2 m2 ->
  r1 = r2 /\ (r1 = 0%Z -> forall i, (i < length Y - 16)%nat ->
    rd1 m1 (padd p (N.of_nat i)) = rd1 m2 (padd m' (N.of_nat i)) /\ rd1 m1 (padd p (N.of_nat i)) <> None).
Proof. exact (p_inplace_dec v cf _ _ _ (ref_if v cf) mm p mlen ad npub k K Nn A Y mm' c' mlen' m' ad' npub' k' r1 m1 r2 m2). Qed.
Print Assumptions C08_in_place_decryption.

Example C08_case v : exists mm p clen ad npub k,
  ref_enc_valid v ex_cf mm p clen p ad npub k ex_K ex_N ex_A ex_T.
Proof.
  eexists _, _, _, _, _, _. apply (ex_inplace_valid ex_cf (ref_consts (v_macros v)) ex_K ex_N ex_A ex_T);
  auto using ex_aligned, ex_bytes_K, ex_bytes_N, ex_bytes_A, ex_bytes_T; reflexivity.
Qed.

(* ---- C10 ---- *)

Theorem C10_encryption_depends_only_on_inputs v cf h1 h2 s1 s2 rs1 rs2 mm1 mm2
    c1 clen1 m1 ad1 npub1 k1 c2 clen2 m2 ad2 npub2 k2 K Nn A T :
  runs (history (ref_impl v cf) h1) s1 rs1 mm1 -> runs (history (ref_impl v cf) h2) s2 rs2 mm2 ->
  ref_locals v cf mm1 -> ref_locals v cf mm2 ->
  ref_enc_valid v cf mm1 c1 clen1 m1 ad1 npub1 k1 K Nn A T -> ref_enc_valid v cf mm2 c2 clen2 m2 ad2 npub2 k2 K Nn A T ->
  exists r f1 f2 CT n, length CT = (length T + 16)%nat /\
    runs (ref_encrypt v cf c1 clen1 m1 T ad1 A npub1 k1) mm1 r f1 /\
    runs (ref_encrypt v cf c2 clen2 m2 T ad2 A npub2 k2) mm2 r f2 /\
    has f1 c1 CT /\ has f2 c2 CT /\ has f1 clen1 (word_le 8 n) /\ has f2 clen2 (word_le 8 n).
Proof.
  exact (p_function_enc v cf _ _ _ (ref_if v cf) h1 h2 s1 s2 rs1 rs2 mm1 mm2
           c1 clen1 m1 ad1 npub1 k1 c2 clen2 m2 ad2 npub2 k2 K Nn A T).
Qed.
Print Assumptions C10_encryption_depends_only_on_inputs.

Theorem C10_decryption_depends_only_on_inputs v cf h1 h2 s1 s2 rs1 rs2 mm1 mm2
    c1 mlen1 m1 ad1 npub1 k1 c2 mlen2 m2 ad2 npub2 k2 K Nn A Y :
  runs (history (ref_impl v cf) h1) s1 rs1 mm1 -> runs (history (ref_impl v cf) h2) s2 rs2 mm2 ->
  ref_locals v cf mm1 -> ref_locals v cf mm2 ->
  ref_dec_valid v cf mm1 m1 mlen1 c1 ad1 npub1 k1 K Nn A Y -> ref_dec_valid v cf mm2 m2 mlen2 c2 ad2 npub2 k2 K Nn A Y ->
  exists r f1 f2 n,
    runs (ref_decrypt v cf m1 mlen1 c1 Y ad1 A npub1 k1) mm1 r f1 /\
    runs (ref_decrypt v cf m2 mlen2 c2 Y ad2 A npub2 k2) mm2 r f2 /\
    has f1 mlen1 (word_le 8 n) /\ has f2 mlen2 (word_le 8 n) /\
    (r = 0%Z -> exists T, length T = (length Y - 16)%nat /\ has f1 m1 T /\ has f2 m2 T).
Proof.
  exact (p_function_dec v cf _ _ _ (ref_if v cf) h1 h2 s1 s2 rs1 rs2 mm1 mm2
           c1 mlen1 m1 ad1 npub1 k1 c2 mlen2 m2 ad2 npub2 k2 K Nn A Y).
Qed.
Print Assumptions C10_decryption_depends_only_on_inputs.

(* A history of one encryption followed by a call, against no history at all. *)
Example C10_case v : exists h s rs mm,
  h <> [] /\ runs (history (ref_impl v ex_cf) h) s rs mm.
Proof.
  destruct (C07_case v) as (mm & c & clen & m & ad & npub & k & r & m1 & _ & _ & R).
  exists [CEnc c clen m (N.of_nat (length ex_T)) ad (N.of_nat (length ex_A)) npub k], mm, [r], m1.
  split; [discriminate|]. intros t. destruct (R t) as [t' E]. exists t'. cbn [history do_call].
  unfold bind. rewrite E. reflexivity.
Qed.

(* ---- C11 ---- *)

Theorem C11_encrypt_length v cf mm c clen m ad npub k K Nn A T :
  ref_locals v cf mm -> ref_enc_valid v cf mm c clen m ad npub k K Nn A T ->
  exists m1, runs (ref_encrypt v cf c clen m T ad A npub k) mm 0%Z m1 /\
    exists bs, length bs = 8%nat /\ has m1 clen bs /\ le_word bs = N.of_nat (length T) + 16.
Proof. exact (p_lengths_enc v cf _ _ _ (ref_if v cf) mm c clen m ad npub k K Nn A T). Qed.
Print Assumptions C11_encrypt_length.

Theorem C11_decrypt_length v cf mm m mlen c ad npub k K Nn A Y :
  ref_locals v cf mm -> ref_dec_valid v cf mm m mlen c ad npub k K Nn A Y ->
  exists r m1, runs (ref_decrypt v cf m mlen c Y ad A npub k) mm r m1 /\
    exists bs, length bs = 8%nat /\ has m1 mlen bs /\ le_word bs = N.of_nat (length Y) - 16.
Proof. exact (p_lengths_dec v cf _ _ _ (ref_if v cf) mm m mlen c ad npub k K Nn A Y). Qed.
Print Assumptions C11_decrypt_length.

(* ---- C12: q is any pointer whatsoever. ---- *)

Theorem C12_empty_message v cf mm c clen m ad npub k K Nn A q :
  ref_locals v cf mm -> ref_enc_valid v cf mm c clen m ad npub k K Nn A [] ->
  exists m1, runs (a_enc (ref_impl v cf) c clen q 0 ad (N.of_nat (length A)) npub k) mm 0%Z m1 /\
             has m1 c (isap_mac (v_inst v) K Nn A []).
Proof. exact (p_empty_msg v cf _ _ _ (ref_if v cf) mm c clen m ad npub k K Nn A q). Qed.
Print Assumptions C12_empty_message.

Theorem C12_empty_ad v cf mm c clen m ad npub k K Nn T q :
  ref_locals v cf mm -> ref_enc_valid v cf mm c clen m ad npub k K Nn [] T ->
  exists m1, runs (a_enc (ref_impl v cf) c clen m (N.of_nat (length T)) q 0 npub k) mm 0%Z m1 /\
             has m1 c (isap_encrypt (v_inst v) K Nn [] T).
Proof. exact (p_empty_ad v cf _ _ _ (ref_if v cf) mm c clen m ad npub k K Nn T q). Qed.
Print Assumptions C12_empty_ad.

Theorem C12_empty_ad_decryption v cf mm m mlen c ad npub k K Nn C t q :
  ref_locals v cf mm -> length t = 16%nat -> ref_dec_valid v cf mm m mlen c ad npub k K Nn [] (C ++ t) ->
  exists r m1, runs (a_dec (ref_impl v cf) m mlen c (N.of_nat (length (C ++ t))) q 0 npub k) mm r m1 /\
    (r = 0%Z <-> t = isap_mac (v_inst v) K Nn [] C) /\ (r = 0%Z -> has m1 m (isap_enc (v_inst v) K Nn C)).
Proof. exact (p_empty_ad_dec v cf _ _ _ (ref_if v cf) mm m mlen c ad npub k K Nn C t q). Qed.
Print Assumptions C12_empty_ad_decryption.

(* The plaintext pointer of an empty plaintext: any block except those of the program's own constants. *)
Theorem C12_empty_message_decryption v cf mm m mlen c ad npub k K Nn A t q :
  ref_locals v cf mm -> length t = 16%nat -> ref_dec_valid v cf mm m mlen c ad npub k K Nn A t -> (3 <= pb q)%nat ->
  exists r m1, runs (a_dec (ref_impl v cf) q mlen c 16 ad (N.of_nat (length A)) npub k) mm r m1 /\
    (r = 0%Z <-> t = isap_mac (v_inst v) K Nn A []).
Proof. exact (p_empty_msg_dec v cf _ _ _ (ref_if v cf) mm m mlen c ad npub k K Nn A t q). Qed.
Print Assumptions C12_empty_message_decryption.

Example C12_case v : exists mm c clen m ad npub k,
  ref_locals v ex_cf mm /\ ref_enc_valid v ex_cf mm c clen m ad npub k ex_K ex_N [] [] /\ rd1 mm (P 99 7) = None.
Proof.
  eexists _, _, _, _, _, _, _. split; [apply ex_locals|]. split.
  - apply (ex_enc_valid ex_cf (ref_consts (v_macros v)) ex_K ex_N [] []);
    auto using ex_aligned, ex_bytes_K, ex_bytes_N; (constructor || reflexivity).
  - now destruct v.
Qed.

(* ---- C13 ---- *)

Theorem C13_body_is_message_xor_keystream v cf K Nn : exists ks : nat -> N,
  forall mm c clen m ad npub k A T, ref_locals v cf mm -> ref_enc_valid v cf mm c clen m ad npub k K Nn A T ->
  exists m1, runs (ref_encrypt v cf c clen m T ad A npub k) mm 0%Z m1 /\
    forall i, (i < length T)%nat -> rd1 m1 (padd c (N.of_nat i)) = Some (N.lxor (nth i T 0) (ks i)).
Proof. exact (p_keystream v cf _ _ _ (ref_if v cf) K Nn). Qed.
Print Assumptions C13_body_is_message_xor_keystream.

(* ---- C14 ---- *)

Theorem C14_encryption_injective v cf mm1 c1 clen1 m1 ad1 npub1 k1 A1 T1 mm2 c2 clen2 m2 ad2 npub2 k2 A2 T2 K Nn r1 f1 r2 f2 Y :
  ref_locals v cf mm1 -> ref_locals v cf mm2 ->
  ref_enc_valid v cf mm1 c1 clen1 m1 ad1 npub1 k1 K Nn A1 T1 -> ref_enc_valid v cf mm2 c2 clen2 m2 ad2 npub2 k2 K Nn A2 T2 ->
  runs (ref_encrypt v cf c1 clen1 m1 T1 ad1 A1 npub1 k1) mm1 r1 f1 ->
  runs (ref_encrypt v cf c2 clen2 m2 T2 ad2 A2 npub2 k2) mm2 r2 f2 ->
  length Y = (length T1 + 16)%nat -> length Y = (length T2 + 16)%nat -> has f1 c1 Y -> has f2 c2 Y -> T1 = T2.
Proof.
  exact (p_injective v cf _ _ _ (ref_if v cf) mm1 c1 clen1 m1 ad1 npub1 k1 A1 T1 mm2 c2 clen2 m2 ad2 npub2 k2 A2 T2
           K Nn r1 f1 r2 f2 Y).
Qed.
Print Assumptions C14_encryption_injective.
