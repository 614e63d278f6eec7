(* Properties C16-C18 for the STP implementations crypto_aead/isapa128av20/{opt_32_stp, bi_32_stp, bi_32_armv6m_stp}; notions as in PropsCt.v
   and PropsStp.v. Only statements: proofs are in StpCt.v. *)
From Verif Require Import Base SpecPerm Words Mem Vocab Vocab2 RefAead SpecFacts ExLib OptPerm OptProof OptImpl OptEx OptStp StpProof StpEx StpCt.
Open Scope N_scope.

(* ---- The hypotheses can be met: encryptions with different data, decryptions with different verdicts. ---- *)
Example ex_stp_two_encryptions :
  let mm := ex_mem stp_blocks ex_K ex_N ex_A ex_T 35 in let mm' := ex_mem stp_blocks ex_N ex_K (rev ex_A) (rev ex_T) 35 in
  let bufs := [(ex_ptr stp_blocks 0, 16); (ex_ptr stp_blocks 1, 16); (ex_ptr stp_blocks 2, length ex_A); (ex_ptr stp_blocks 3, length ex_T);
    (ex_ptr stp_blocks 4, length ex_T + 16); (ex_ptr stp_blocks 5, 8)]%nat in
  enc_valid lax_cf opt_consts mm (ex_ptr stp_blocks 4) (ex_ptr stp_blocks 5)
    (ex_ptr stp_blocks 3) (ex_ptr stp_blocks 2) (ex_ptr stp_blocks 1) (ex_ptr stp_blocks 0) ex_K ex_N ex_A ex_T /\ apart mm S0 S1 bufs /\
  enc_valid lax_cf opt_consts mm' (ex_ptr stp_blocks 4) (ex_ptr stp_blocks 5)
    (ex_ptr stp_blocks 3) (ex_ptr stp_blocks 2) (ex_ptr stp_blocks 1) (ex_ptr stp_blocks 0) ex_N ex_K (rev ex_A) (rev ex_T) /\ apart mm' S0 S1 bufs /\
  layout mm mm' /\ ex_K <> ex_N /\ ex_T <> rev ex_T.
Proof. exact st_enc_two. Qed.
Example ex_stp_two_decryptions a junk : In a fam_stp -> length junk = 5%nat ->
  let mm := ex_mem stp_blocks ex_K ex_N [] tag_good 0 in let mm' := ex_mem stp_blocks ex_K ex_N [] (rev tag_good) 0 in
  let call := a_dec (stp_impl a lax_cf junk) (ex_ptr stp_blocks 4) (ex_ptr stp_blocks 5) (ex_ptr stp_blocks 3) 16 (ex_ptr stp_blocks 2) 0
    (ex_ptr stp_blocks 1) (ex_ptr stp_blocks 0) in
  dec_valid lax_cf opt_consts mm (ex_ptr stp_blocks 4) (ex_ptr stp_blocks 5)
    (ex_ptr stp_blocks 3) (ex_ptr stp_blocks 2) (ex_ptr stp_blocks 1) (ex_ptr stp_blocks 0) ex_K ex_N [] tag_good /\
  dec_apart mm (ex_ptr stp_blocks 4) (ex_ptr stp_blocks 5)
    (ex_ptr stp_blocks 3) (ex_ptr stp_blocks 2) (ex_ptr stp_blocks 1) (ex_ptr stp_blocks 0) [] tag_good /\
  dec_valid lax_cf opt_consts mm' (ex_ptr stp_blocks 4) (ex_ptr stp_blocks 5)
    (ex_ptr stp_blocks 3) (ex_ptr stp_blocks 2) (ex_ptr stp_blocks 1) (ex_ptr stp_blocks 0) ex_K ex_N [] (rev tag_good) /\
  dec_apart mm' (ex_ptr stp_blocks 4) (ex_ptr stp_blocks 5)
    (ex_ptr stp_blocks 3) (ex_ptr stp_blocks 2) (ex_ptr stp_blocks 1) (ex_ptr stp_blocks 0) [] (rev tag_good) /\
  layout mm mm' /\ exists m1 m2, runs call mm 0%Z m1 /\ runs call mm' (-1)%Z m2.
Proof.
  intros Ia Hj. cbv zeta. assert (B1 : bytes tag_good) by repeat constructor. assert (B2 : bytes (rev tag_good)) by repeat constructor.
  destruct (st_valid tag_good B1 eq_refl) as [V1 A1]. destruct (st_valid (rev tag_good) B2 eq_refl) as [V2 A2].
  split; [exact V1|]. split; [exact A1|]. split; [exact V2|]. split; [exact A2|]. split; [exact st_layout|exact (st_two a junk Ia Hj)].
Qed.

(* ---- C16 ---- *)
Theorem C16_stp a cf junk mm mm' c clen m ad npub k K Nn A T K' Nn' A' T' :
  In a fam_stp -> strict cf = false -> length junk = 5%nat ->
  enc_valid cf opt_consts mm c clen m ad npub k K Nn A T ->
  apart mm S0 S1 [(k, 16); (npub, 16); (ad, length A); (m, length T); (c, length T + 16); (clen, 8)]%nat ->
  enc_valid cf opt_consts mm' c clen m ad npub k K' Nn' A' T' ->
  apart mm' S0 S1 [(k, 16); (npub, 16); (ad, length A'); (m, length T'); (c, length T' + 16); (clen, 8)]%nat ->
  length A = length A' -> length T = length T' -> layout mm mm' ->
  forall t, exists s s',
    a_enc (stp_impl a cf junk) c clen m (N.of_nat (length T)) ad (N.of_nat (length A)) npub k (St mm t) = Ok 0%Z s /\
    a_enc (stp_impl a cf junk) c clen m (N.of_nat (length T)) ad (N.of_nat (length A)) npub k (St mm' t) = Ok 0%Z s' /\
    strc s = strc s'.
Proof. exact (fam_stp_enc_trace' a cf junk mm mm' c clen m ad npub k K Nn A T K' Nn' A' T'). Qed.
Print Assumptions C16_stp.

(* ---- C17. The verdict branch is the one on the number of equal bytes of the two images; the comparison itself takes no other branch. ---- *)
Theorem C17_stp a cf junk mm mm' m mlen c ad npub k K Nn A Y K' Nn' A' Y' :
  In a fam_stp -> strict cf = false -> length junk = 5%nat ->
  dec_valid cf opt_consts mm m mlen c ad npub k K Nn A Y -> dec_apart mm m mlen c ad npub k A Y ->
  dec_valid cf opt_consts mm' m mlen c ad npub k K' Nn' A' Y' -> dec_apart mm' m mlen c ad npub k A' Y' ->
  length A = length A' -> length Y = length Y' -> layout mm mm' ->
  forall t, exists r s r' s' t0 u u',
    a_dec (stp_impl a cf junk) m mlen c (N.of_nat (length Y)) ad (N.of_nat (length A)) npub k (St mm t) = Ok r s /\
    a_dec (stp_impl a cf junk) m mlen c (N.of_nat (length Y)) ad (N.of_nat (length A)) npub k (St mm' t) = Ok r' s' /\
    (* t0 is common, then the verdict branch, then u / u' *)
    strc s = u ++ EBr (r =? 0)%Z :: t0 /\ strc s' = u' ++ EBr (r' =? 0)%Z :: t0 /\
    (r <> 0%Z -> u = []) /\ (r' <> 0%Z -> u' = []) /\ (r = r' -> u = u').
Proof. exact (fam_stp_dec_trace a cf junk mm mm' m mlen c ad npub k K Nn A Y K' Nn' A' Y'). Qed.
Print Assumptions C17_stp.

(* ---- C18. Decryption makes two further calls, of 7 rounds, for the images of the tags. ---- *)
Theorem C18_stp_encryption_work a cf junk mm c clen m ad npub k K Nn A T :
  In a fam_stp -> strict cf = false -> length junk = 5%nat ->
  enc_valid cf opt_consts mm c clen m ad npub k K Nn A T ->
  apart mm S0 S1 [(k, 16); (npub, 16); (ad, length A); (m, length T); (c, length T + 16); (clen, 8)]%nat ->
  forall t, exists s,
    a_enc (stp_impl a cf junk) c clen m (N.of_nat (length T)) ad (N.of_nat (length A)) npub k (St mm t) = Ok 0%Z s /\
    perms (strc s) = perms t ++ calls_enc (v_inst A128A) (length T) ++ calls_mac (v_inst A128A) (length A) (length T).
Proof. exact (fam_stp_enc_calls a cf junk mm c clen m ad npub k K Nn A T). Qed.
Print Assumptions C18_stp_encryption_work.

Theorem C18_stp_decryption_work a cf junk mm m mlen c ad npub k K Nn A Y :
  In a fam_stp -> strict cf = false -> length junk = 5%nat ->
  dec_valid cf opt_consts mm m mlen c ad npub k K Nn A Y -> dec_apart mm m mlen c ad npub k A Y ->
  forall t, exists r s,
    a_dec (stp_impl a cf junk) m mlen c (N.of_nat (length Y)) ad (N.of_nat (length A)) npub k (St mm t) = Ok r s /\
    perms (strc s) = perms t ++ calls_mac (v_inst A128A) (length A) (length Y - 16) ++ [7; 7] ++
      (if (r =? 0)%Z then calls_enc (v_inst A128A) (length Y - 16) else []).
Proof. exact (fam_stp_dec_calls a cf junk mm m mlen c ad npub k K Nn A Y). Qed.
Print Assumptions C18_stp_decryption_work.
