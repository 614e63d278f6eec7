(* Properties C02-C08, C10-C14 and C40 for every implementation in the table of Table.v, that is for the reference and for all optimised
   implementations except isapa128av20/bi_32_armv7m (refuted in C24) and the three STP directories (C34-C36).
   impl_of v cf cs ex X: X is an implementation of instance v in build configuration cf whose global constants are cs; ex: the calls on which
   it is known to compute ISAP (any_call for most, see Table.v). Only statements: proofs are in ApiProps.v, ExtProof.v and TableProof.v. *)
From Verif Require Import Base SpecPerm Words Mem Vocab Vocab2 VocabK RefAead SpecFacts Api ExtProof ApiProps ExLib OptPerm OptProof OptImpl OptEx OptStp StpProof
  StpEx A128Impl KIsapProof K64Impl KAvxImpl KArmPerm KArmImpl AvxAProof AvxAImpl Table TableProof PropsRef PropsK64 PropsKAvx PropsKArm.
From Verif Require Spec.
Open Scope N_scope.

Theorem C02_every_implementation v cf cs ex X mm c clen m ad npub k K Nn A T :
  impl_of v cf cs ex X ->
  ex mm k npub ad (length A) m c (length T) -> enc_valid cf cs mm c clen m ad npub k K Nn A T ->
  exists m1, runs (a_enc X c clen m (N.of_nat (length T)) ad (N.of_nat (length A)) npub k) mm 0%Z m1 /\ has m1 c (Spec.isap_encrypt (v_inst v) K Nn A T) /\
             length (Spec.isap_encrypt (v_inst v) K Nn A T) = (length T + 16)%nat.
Proof. exact (fun HX => p_encrypts v cf cs ex X (impl_of_ok v cf cs ex X HX) mm c clen m ad npub k K Nn A T). Qed.
Print Assumptions C02_every_implementation.

Theorem C03_every_implementation_accepts_iff_tag_is_mac v cf cs ex X mm m mlen c ad npub k K Nn A C t :
  impl_of v cf cs ex X ->
  ex mm k npub ad (length A) c m (length (C ++ t) - 16)%nat -> length t = 16%nat -> dec_valid cf cs mm m mlen c ad npub k K Nn A (C ++ t) ->
  exists r m1, runs (a_dec X m mlen c (N.of_nat (length (C ++ t))) ad (N.of_nat (length A)) npub k) mm r m1 /\
    (r = 0%Z \/ r = (-1)%Z) /\ (r = 0%Z <-> t = Spec.isap_mac (v_inst v) K Nn A C) /\
    (r = 0%Z -> has m1 m (Spec.isap_enc (v_inst v) K Nn C) /\ length (Spec.isap_enc (v_inst v) K Nn C) = length C).
Proof. exact (fun HX => p_decrypts v cf cs ex X (impl_of_ok v cf cs ex X HX) mm m mlen c ad npub k K Nn A C t). Qed.
Print Assumptions C03_every_implementation_accepts_iff_tag_is_mac.

Theorem C03_every_implementation_accepts_only_genuine v cf cs ex X mm m mlen c ad npub k K Nn A Y :
  impl_of v cf cs ex X ->
  ex mm k npub ad (length A) c m (length Y - 16)%nat -> dec_valid cf cs mm m mlen c ad npub k K Nn A Y ->
  exists r m1, runs (a_dec X m mlen c (N.of_nat (length Y)) ad (N.of_nat (length A)) npub k) mm r m1 /\
    (r = 0%Z <-> exists T, bytes T /\ Y = Spec.isap_encrypt (v_inst v) K Nn A T) /\
    (forall T, bytes T -> Y = Spec.isap_encrypt (v_inst v) K Nn A T -> has m1 m T).
Proof. exact (fun HX => p_accepts_only_genuine v cf cs ex X (impl_of_ok v cf cs ex X HX) mm m mlen c ad npub k K Nn A Y). Qed.
Print Assumptions C03_every_implementation_accepts_only_genuine.

Theorem C04_every_implementation v cf cs ex X mm m mlen c ad npub k K Nn A Y r m1 :
  impl_of v cf cs ex X ->
  ex mm k npub ad (length A) c m (length Y - 16)%nat -> dec_valid cf cs mm m mlen c ad npub k K Nn A Y ->
  runs (a_dec X m mlen c (N.of_nat (length Y)) ad (N.of_nat (length A)) npub k) mm r m1 -> r <> 0%Z ->
  r = (-1)%Z /\ length m1 = length mm /\ forall q, within mlen 8 q = false -> cellp m1 q = cellp mm q.
Proof. exact (fun HX => p_reject_silent v cf cs ex X (impl_of_ok v cf cs ex X HX) mm m mlen c ad npub k K Nn A Y r m1). Qed.
Print Assumptions C04_every_implementation.

Theorem C05_every_implementation v cf cs ex X mm c clen m ad npub k K Nn A T :
  impl_of v cf cs ex X ->
  ex mm k npub ad (length A) m c (length T) -> enc_valid cf cs mm c clen m ad npub k K Nn A T ->
  exists m1 C t, runs (a_enc X c clen m (N.of_nat (length T)) ad (N.of_nat (length A)) npub k) mm 0%Z m1 /\
    length C = length T /\ length t = 16%nat /\ has m1 c (C ++ t) /\
    forall t' m2 mp mlen c' ad' npub' k', length t' = 16%nat -> t' <> t -> ex m2 k' npub' ad' (length A) c' mp (length (C ++ t') - 16)%nat ->
      dec_valid cf cs m2 mp mlen c' ad' npub' k' K Nn A (C ++ t') ->
      exists m3, runs (a_dec X mp mlen c' (N.of_nat (length (C ++ t'))) ad' (N.of_nat (length A)) npub' k') m2 (-1)%Z m3 /\
                 forall q, within mlen 8 q = false -> cellp m3 q = cellp m2 q.
Proof. exact (fun HX => p_wrong_tag v cf cs ex X (impl_of_ok v cf cs ex X HX) mm c clen m ad npub k K Nn A T). Qed.
Print Assumptions C05_every_implementation.

Theorem C06_every_implementation_encrypt v cf cs ex X mm c clen m ad npub k K Nn A T :
  impl_of v cf cs ex X ->
  ex mm k npub ad (length A) m c (length T) -> enc_valid cf cs mm c clen m ad npub k K Nn A T ->
  forall t, exists r s, a_enc X c clen m (N.of_nat (length T)) ad (N.of_nat (length A)) npub k (St mm t) = Ok r s.
Proof. exact (fun HX => p_no_ub_enc v cf cs ex X (impl_of_ok v cf cs ex X HX) mm c clen m ad npub k K Nn A T). Qed.
Print Assumptions C06_every_implementation_encrypt.

Theorem C06_every_implementation_decrypt v cf cs ex X mm m mlen c ad npub k K Nn A Y :
  impl_of v cf cs ex X ->
  ex mm k npub ad (length A) c m (length Y - 16)%nat -> dec_valid cf cs mm m mlen c ad npub k K Nn A Y ->
  forall t, exists r s, a_dec X m mlen c (N.of_nat (length Y)) ad (N.of_nat (length A)) npub k (St mm t) = Ok r s.
Proof. exact (fun HX => p_no_ub_dec v cf cs ex X (impl_of_ok v cf cs ex X HX) mm m mlen c ad npub k K Nn A Y). Qed.
Print Assumptions C06_every_implementation_decrypt.

Theorem C07_every_implementation_encrypt v cf cs ex X mm c clen m ad npub k K Nn A T r m1 :
  impl_of v cf cs ex X ->
  ex mm k npub ad (length A) m c (length T) -> enc_valid cf cs mm c clen m ad npub k K Nn A T ->
  runs (a_enc X c clen m (N.of_nat (length T)) ad (N.of_nat (length A)) npub k) mm r m1 ->
  length m1 = length mm /\
  (forall q, within c (length T + 16) q = false -> within clen 8 q = false -> cellp m1 q = cellp mm q) /\
  has m1 k K /\ has m1 npub Nn /\ has m1 ad A /\ (disj c (length T + 16) m (length T) -> has m1 m T).
Proof. exact (fun HX => p_frame_enc v cf cs ex X (impl_of_ok v cf cs ex X HX) mm c clen m ad npub k K Nn A T r m1). Qed.
Print Assumptions C07_every_implementation_encrypt.

Theorem C07_every_implementation_decrypt v cf cs ex X mm m mlen c ad npub k K Nn A Y r m1 :
  impl_of v cf cs ex X ->
  ex mm k npub ad (length A) c m (length Y - 16)%nat -> dec_valid cf cs mm m mlen c ad npub k K Nn A Y ->
  runs (a_dec X m mlen c (N.of_nat (length Y)) ad (N.of_nat (length A)) npub k) mm r m1 ->
  length m1 = length mm /\
  (forall q, within m (length Y - 16) q = false -> within mlen 8 q = false -> cellp m1 q = cellp mm q) /\
  has m1 k K /\ has m1 npub Nn /\ has m1 ad A /\ (disj m (length Y - 16) c (length Y) -> has m1 c Y).
Proof. exact (fun HX => p_frame_dec v cf cs ex X (impl_of_ok v cf cs ex X HX) mm m mlen c ad npub k K Nn A Y r m1). Qed.
Print Assumptions C07_every_implementation_decrypt.

Theorem C08_every_implementation_encrypt v cf cs ex X mm p clen ad npub k K Nn A T mm' c' clen' m' ad' npub' k' r1 m1 r2 m2 :
  impl_of v cf cs ex X ->
  ex mm k npub ad (length A) p p (length T) -> ex mm' k' npub' ad' (length A) m' c' (length T) ->
  enc_valid cf cs mm p clen p ad npub k K Nn A T ->
  enc_valid cf cs mm' c' clen' m' ad' npub' k' K Nn A T -> disj c' (length T + 16) m' (length T) ->
  runs (a_enc X p clen p (N.of_nat (length T)) ad (N.of_nat (length A)) npub k) mm r1 m1 -> runs (a_enc X c' clen' m' (N.of_nat (length T)) ad' (N.of_nat (length A)) npub' k') mm' r2 m2 ->
  r1 = r2 /\ forall i, (i < length T + 16)%nat ->
    rd1 m1 (padd p (N.of_nat i)) = rd1 m2 (padd c' (N.of_nat i)) /\ rd1 m1 (padd p (N.of_nat i)) <> None.
Proof. exact (fun HX => p_inplace_enc v cf cs ex X (impl_of_ok v cf cs ex X HX) mm p clen ad npub k K Nn A T mm' c' clen' m' ad' npub' k' r1 m1 r2 m2). Qed.
Print Assumptions C08_every_implementation_encrypt.

Theorem C08_every_implementation_decrypt v cf cs ex X mm p mlen ad npub k K Nn A Y mm' c' mlen' m' ad' npub' k' r1 m1 r2 m2 :
  impl_of v cf cs ex X ->
  ex mm k npub ad (length A) p p (length Y - 16)%nat -> ex mm' k' npub' ad' (length A) c' m' (length Y - 16)%nat ->
  dec_valid cf cs mm p mlen p ad npub k K Nn A Y ->
  dec_valid cf cs mm' m' mlen' c' ad' npub' k' K Nn A Y -> disj m' (length Y - 16) c' (length Y) ->
  runs (a_dec X p mlen p (N.of_nat (length Y)) ad (N.of_nat (length A)) npub k) mm r1 m1 -> runs (a_dec X m' mlen' c' (N.of_nat (length Y)) ad' (N.of_nat (length A)) npub' k') mm' r2 m2 ->
  r1 = r2 /\ (r1 = 0%Z -> forall i, (i < length Y - 16)%nat ->
    rd1 m1 (padd p (N.of_nat i)) = rd1 m2 (padd m' (N.of_nat i)) /\ rd1 m1 (padd p (N.of_nat i)) <> None).
Proof. exact (fun HX => p_inplace_dec v cf cs ex X (impl_of_ok v cf cs ex X HX) mm p mlen ad npub k K Nn A Y mm' c' mlen' m' ad' npub' k' r1 m1 r2 m2). Qed.
Print Assumptions C08_every_implementation_decrypt.

Theorem C10_every_implementation_encrypt v cf cs ex X h1 h2 s1 s2 rs1 rs2 mm1 mm2 c1 clen1 m1 ad1 npub1 k1 c2 clen2 m2 ad2 npub2 k2 K Nn A T :
  impl_of v cf cs ex X ->
  runs (history X h1) s1 rs1 mm1 -> runs (history X h2) s2 rs2 mm2 ->
  ex mm1 k1 npub1 ad1 (length A) m1 c1 (length T) -> ex mm2 k2 npub2 ad2 (length A) m2 c2 (length T) ->
  enc_valid cf cs mm1 c1 clen1 m1 ad1 npub1 k1 K Nn A T -> enc_valid cf cs mm2 c2 clen2 m2 ad2 npub2 k2 K Nn A T ->
  exists r f1 f2 CT n, length CT = (length T + 16)%nat /\
    runs (a_enc X c1 clen1 m1 (N.of_nat (length T)) ad1 (N.of_nat (length A)) npub1 k1) mm1 r f1 /\ runs (a_enc X c2 clen2 m2 (N.of_nat (length T)) ad2 (N.of_nat (length A)) npub2 k2) mm2 r f2 /\
    has f1 c1 CT /\ has f2 c2 CT /\ has f1 clen1 (word_le 8 n) /\ has f2 clen2 (word_le 8 n).
Proof. exact (fun HX => p_function_enc v cf cs ex X (impl_of_ok v cf cs ex X HX) h1 h2 s1 s2 rs1 rs2 mm1 mm2 c1 clen1 m1 ad1 npub1 k1 c2 clen2 m2 ad2 npub2 k2 K Nn A T). Qed.
Print Assumptions C10_every_implementation_encrypt.

Theorem C10_every_implementation_decrypt v cf cs ex X h1 h2 s1 s2 rs1 rs2 mm1 mm2 c1 mlen1 m1 ad1 npub1 k1 c2 mlen2 m2 ad2 npub2 k2 K Nn A Y :
  impl_of v cf cs ex X ->
  runs (history X h1) s1 rs1 mm1 -> runs (history X h2) s2 rs2 mm2 ->
  ex mm1 k1 npub1 ad1 (length A) c1 m1 (length Y - 16)%nat -> ex mm2 k2 npub2 ad2 (length A) c2 m2 (length Y - 16)%nat ->
  dec_valid cf cs mm1 m1 mlen1 c1 ad1 npub1 k1 K Nn A Y -> dec_valid cf cs mm2 m2 mlen2 c2 ad2 npub2 k2 K Nn A Y ->
  exists r f1 f2 n,
    runs (a_dec X m1 mlen1 c1 (N.of_nat (length Y)) ad1 (N.of_nat (length A)) npub1 k1) mm1 r f1 /\ runs (a_dec X m2 mlen2 c2 (N.of_nat (length Y)) ad2 (N.of_nat (length A)) npub2 k2) mm2 r f2 /\
    has f1 mlen1 (word_le 8 n) /\ has f2 mlen2 (word_le 8 n) /\
    (r = 0%Z -> exists T, length T = (length Y - 16)%nat /\ has f1 m1 T /\ has f2 m2 T).
Proof. exact (fun HX => p_function_dec v cf cs ex X (impl_of_ok v cf cs ex X HX) h1 h2 s1 s2 rs1 rs2 mm1 mm2 c1 mlen1 m1 ad1 npub1 k1 c2 mlen2 m2 ad2 npub2 k2 K Nn A Y). Qed.
Print Assumptions C10_every_implementation_decrypt.

Theorem C11_every_implementation_encrypt v cf cs ex X mm c clen m ad npub k K Nn A T :
  impl_of v cf cs ex X ->
  ex mm k npub ad (length A) m c (length T) -> enc_valid cf cs mm c clen m ad npub k K Nn A T ->
  exists m1, runs (a_enc X c clen m (N.of_nat (length T)) ad (N.of_nat (length A)) npub k) mm 0%Z m1 /\
    exists bs, length bs = 8%nat /\ has m1 clen bs /\ le_word bs = N.of_nat (length T) + 16.
Proof. exact (fun HX => p_lengths_enc v cf cs ex X (impl_of_ok v cf cs ex X HX) mm c clen m ad npub k K Nn A T). Qed.
Print Assumptions C11_every_implementation_encrypt.

Theorem C11_every_implementation_decrypt v cf cs ex X mm m mlen c ad npub k K Nn A Y :
  impl_of v cf cs ex X ->
  ex mm k npub ad (length A) c m (length Y - 16)%nat -> dec_valid cf cs mm m mlen c ad npub k K Nn A Y ->
  exists r m1, runs (a_dec X m mlen c (N.of_nat (length Y)) ad (N.of_nat (length A)) npub k) mm r m1 /\
    exists bs, length bs = 8%nat /\ has m1 mlen bs /\ le_word bs = N.of_nat (length Y) - 16.
Proof. exact (fun HX => p_lengths_dec v cf cs ex X (impl_of_ok v cf cs ex X HX) mm m mlen c ad npub k K Nn A Y). Qed.
Print Assumptions C11_every_implementation_decrypt.

Theorem C12_every_implementation_empty_message v cf cs ex X mm c clen m ad npub k K Nn A q :
  impl_of v cf cs ex X ->
  ex mm k npub ad (length A) q c 0%nat -> enc_valid cf cs mm c clen m ad npub k K Nn A [] ->
  exists m1, runs (a_enc X c clen q 0 ad (N.of_nat (length A)) npub k) mm 0%Z m1 /\
             has m1 c (Spec.isap_mac (v_inst v) K Nn A []).
Proof. exact (fun HX => p_empty_msg v cf cs ex X (impl_of_ok v cf cs ex X HX) mm c clen m ad npub k K Nn A q). Qed.
Print Assumptions C12_every_implementation_empty_message.

Theorem C12_every_implementation_empty_ad v cf cs ex X mm c clen m ad npub k K Nn T q :
  impl_of v cf cs ex X ->
  ex mm k npub q 0%nat m c (length T) -> enc_valid cf cs mm c clen m ad npub k K Nn [] T ->
  exists m1, runs (a_enc X c clen m (N.of_nat (length T)) q 0 npub k) mm 0%Z m1 /\
             has m1 c (Spec.isap_encrypt (v_inst v) K Nn [] T).
Proof. exact (fun HX => p_empty_ad v cf cs ex X (impl_of_ok v cf cs ex X HX) mm c clen m ad npub k K Nn T q). Qed.
Print Assumptions C12_every_implementation_empty_ad.

Theorem C12_every_implementation_empty_ad_decryption v cf cs ex X mm m mlen c ad npub k K Nn C t q :
  impl_of v cf cs ex X ->
  ex mm k npub q 0%nat c m (length (C ++ t) - 16)%nat -> length t = 16%nat -> dec_valid cf cs mm m mlen c ad npub k K Nn [] (C ++ t) ->
  exists r m1, runs (a_dec X m mlen c (N.of_nat (length (C ++ t))) q 0 npub k) mm r m1 /\
    (r = 0%Z <-> t = Spec.isap_mac (v_inst v) K Nn [] C) /\ (r = 0%Z -> has m1 m (Spec.isap_enc (v_inst v) K Nn C)).
Proof. exact (fun HX => p_empty_ad_dec v cf cs ex X (impl_of_ok v cf cs ex X HX) mm m mlen c ad npub k K Nn C t q). Qed.
Print Assumptions C12_every_implementation_empty_ad_decryption.

Theorem C12_every_implementation_empty_message_decryption v cf cs ex X mm m mlen c ad npub k K Nn A t q :
  impl_of v cf cs ex X ->
  ex mm k npub ad (length A) c q 0%nat -> length t = 16%nat -> dec_valid cf cs mm m mlen c ad npub k K Nn A t ->
  (length cs <= pb q)%nat ->
  exists r m1, runs (a_dec X q mlen c 16 ad (N.of_nat (length A)) npub k) mm r m1 /\
    (r = 0%Z <-> t = Spec.isap_mac (v_inst v) K Nn A []).
Proof. exact (fun HX => p_empty_msg_dec v cf cs ex X (impl_of_ok v cf cs ex X HX) mm m mlen c ad npub k K Nn A t q). Qed.
Print Assumptions C12_every_implementation_empty_message_decryption.

Theorem C13_every_implementation v cf cs ex X K Nn :
  impl_of v cf cs ex X ->
  exists ks : nat -> N,
  forall mm c clen m ad npub k A T, ex mm k npub ad (length A) m c (length T) -> enc_valid cf cs mm c clen m ad npub k K Nn A T ->
  exists m1, runs (a_enc X c clen m (N.of_nat (length T)) ad (N.of_nat (length A)) npub k) mm 0%Z m1 /\
    forall i, (i < length T)%nat -> rd1 m1 (padd c (N.of_nat i)) = Some (N.lxor (nth i T 0) (ks i)).
Proof. exact (fun HX => p_keystream v cf cs ex X (impl_of_ok v cf cs ex X HX) K Nn). Qed.
Print Assumptions C13_every_implementation.

Theorem C14_every_implementation v cf cs ex X mm1 c1 clen1 m1 ad1 npub1 k1 A1 T1 mm2 c2 clen2 m2 ad2 npub2 k2 A2 T2 K Nn r1 f1 r2 f2 Y :
  impl_of v cf cs ex X ->
  ex mm1 k1 npub1 ad1 (length A1) m1 c1 (length T1) -> ex mm2 k2 npub2 ad2 (length A2) m2 c2 (length T2) ->
  enc_valid cf cs mm1 c1 clen1 m1 ad1 npub1 k1 K Nn A1 T1 -> enc_valid cf cs mm2 c2 clen2 m2 ad2 npub2 k2 K Nn A2 T2 ->
  runs (a_enc X c1 clen1 m1 (N.of_nat (length T1)) ad1 (N.of_nat (length A1)) npub1 k1) mm1 r1 f1 -> runs (a_enc X c2 clen2 m2 (N.of_nat (length T2)) ad2 (N.of_nat (length A2)) npub2 k2) mm2 r2 f2 ->
  length Y = (length T1 + 16)%nat -> length Y = (length T2 + 16)%nat -> has f1 c1 Y -> has f2 c2 Y -> T1 = T2.
Proof. exact (fun HX => p_injective v cf cs ex X (impl_of_ok v cf cs ex X HX) mm1 c1 clen1 m1 ad1 npub1 k1 A1 T1 mm2 c2 clen2 m2 ad2 npub2 k2 A2 T2 K Nn r1 f1 r2 f2 Y). Qed.
Print Assumptions C14_every_implementation.

(* ---- The hypotheses can be met. A call with 24 bytes of associated data and 19 bytes of text, and a decryption of 35 bytes, for
   implementations of all four instances. ---- *)

Definition a_call (v : variant) (cf : cfg) (cs : list (list N)) (ex : ext) (X : aead) : Prop :=
  impl_of v cf cs ex X /\
  (enc_valid cf cs (ex_mem cs ex_K ex_N ex_A24 ex_T 35) (ex_ptr cs 4) (ex_ptr cs 5) (ex_ptr cs 3) (ex_ptr cs 2) (ex_ptr cs 1) (ex_ptr cs 0)
     ex_K ex_N ex_A24 ex_T /\
   ex (ex_mem cs ex_K ex_N ex_A24 ex_T 35) (ex_ptr cs 0) (ex_ptr cs 1) (ex_ptr cs 2) (length ex_A24) (ex_ptr cs 3) (ex_ptr cs 4) (length ex_T)) /\
  forall Y, bytes Y -> length Y = 35%nat ->
   dec_valid cf cs (ex_mem cs ex_K ex_N ex_A24 Y 19) (ex_ptr cs 4) (ex_ptr cs 5) (ex_ptr cs 3) (ex_ptr cs 2) (ex_ptr cs 1) (ex_ptr cs 0)
     ex_K ex_N ex_A24 Y /\
   ex (ex_mem cs ex_K ex_N ex_A24 Y 19) (ex_ptr cs 0) (ex_ptr cs 1) (ex_ptr cs 2) (length ex_A24) (ex_ptr cs 3) (ex_ptr cs 4) (length Y - 16)%nat.

Example a_call_of v cf cs ex X : impl_of v cf cs ex X -> aligned cf (ex_ptr cs 5) 8 = true ->
  (forall T n, ex (ex_mem cs ex_K ex_N ex_A24 T n) (ex_ptr cs 0) (ex_ptr cs 1) (ex_ptr cs 2) 24%nat (ex_ptr cs 3) (ex_ptr cs 4) 19%nat) ->
  a_call v cf cs ex X.
Proof.
  assert (BA : bytes ex_A24) by (unfold ex_A24; repeat constructor; cbn; lia).
  intros HX Al He. split; [exact HX|]. split; [split|intros Y BY LY; split].
  - apply (ex_enc_valid cf cs ex_K ex_N ex_A24 ex_T); auto using ex_bytes_K, ex_bytes_N, ex_bytes_T; reflexivity.
  - apply He.
  - replace 19%nat with (length Y - 16)%nat by now rewrite LY.
    apply (ex_dec_valid cf cs ex_K ex_N ex_A24 Y); auto using ex_bytes_K, ex_bytes_N; rewrite ?LY; (reflexivity || lia).
  - rewrite LY. apply He.
Qed.

Example ex_ref v : a_call v strict_cf (ref_consts (v_macros v)) (loc_ext (v_loc v strict_cf)) (ref_impl v strict_cf).
Proof. apply a_call_of; [apply io_ref|now destruct v|]. intros T n. exact (ex_locals v _). Qed.
Example ex_fam a : In a fam_opt -> a_call A128A lax_cf opt_consts any_call (opt_impl a lax_cf [1; 2; 3; 4; 5]).
Proof. intros H. apply a_call_of; [now apply io_opt|reflexivity|]. intros; exact Logic.I. Qed.
Example ex_fam_strict : a_call A128A strict_cf opt_consts
  (fun _ k npub ad _ p q _ => al8 strict_cf k /\ al8 strict_cf npub /\ al8 strict_cf ad /\ al8 strict_cf p /\ al8 strict_cf q)
  (opt_impl opt_64 strict_cf [1; 2; 3; 4; 5]).
Proof.
  apply a_call_of; [apply io_opt_aligned; [now left|reflexivity|intros; apply strict_al8]|reflexivity|].
  intros; repeat split; apply strict_al8.
Qed.
Example ex_avx_512 : a_call A128A lax_cf csA (avx_lens 64) (impl_avxa 64 lax_cf).
Proof. apply a_call_of; [apply io_avxa; [discriminate|reflexivity]|reflexivity|]. intros; repeat split; reflexivity. Qed.
Example ex_a128v20 : a_call A128 lax_cf cs128 any_call (impl_a128_64 64 lax_cf) /\ a_call A128 lax_cf cs128 any_call (impl_a128_32 lax_cf) /\
  a_call A128 lax_cf cs128 any_call (impl_a128_67 lax_cf).
Proof.
  split; [|split]; (apply a_call_of; [|reflexivity|intros; exact Logic.I]).
  - exact (io_a64 lax_cf eq_refl).
  - exact (io_a32 lax_cf eq_refl).
  - exact (io_a67 lax_cf eq_refl).
Qed.
Example ex_kopt_64 v : kv v -> a_call v lax_cf (csK v) six_more (impl_k64 v ex_scr lax_cf).
Proof. intros H. apply a_call_of; [apply io_k64; [exact H|exact ex_scr_ok|reflexivity]|now destruct H as [-> | ->]|]. intros. right. apply ex_room. cbn. lia. Qed.
Example ex_kavx512 : a_call K128A lax_cf (csK K128A) any_call (impl_kavx ex_junk ex_vscr lax_cf).
Proof. apply a_call_of; [apply io_kavx; [exact ex_junk_ok|exact ex_vscr_ok|reflexivity]|reflexivity|]. intros; exact Logic.I. Qed.
Example ex_karm_table v f : kv v -> a_call v strict_cf (csK v) (arm_call strict_cf) (impl_karm v f ex_regs strict_cf).
Proof.
  intros H. apply a_call_of; [apply io_karm; [exact H|exact ex_regs_ok]|now destruct H as [-> | ->]|].
  intros. split; [split; [split; reflexivity|]|].
  - intros b _ _. cbn [strict_cf base]. lia.
  - repeat split; intros _ _; destruct H as [-> | ->]; reflexivity.
Qed.

(* ---- C40 ---- *)

(* Encryption by one implementation of an instance, decryption by any other (in another process: m2 is any memory). *)
Theorem C40_decryption_inverts_encryption_of_any_other v cf cs ex X cf' cs' ex' X' mm c clen m ad npub k K Nn A T :
  impl_of v cf cs ex X -> impl_of v cf' cs' ex' X' ->
  ex mm k npub ad (length A) m c (length T) -> enc_valid cf cs mm c clen m ad npub k K Nn A T ->
  exists m1 CT,
    runs (a_enc X c clen m (N.of_nat (length T)) ad (N.of_nat (length A)) npub k) mm 0%Z m1 /\
    length CT = (length T + 16)%nat /\ has m1 c CT /\ has m1 clen (word_le 8 (N.of_nat (length T) + 16)) /\
    forall m2 mp mlen c' ad' npub' k', ex' m2 k' npub' ad' (length A) c' mp (length CT - 16)%nat ->
      dec_valid cf' cs' m2 mp mlen c' ad' npub' k' K Nn A CT ->
      exists m3,
        runs (a_dec X' mp mlen c' (N.of_nat (length CT)) ad' (N.of_nat (length A)) npub' k') m2 0%Z m3 /\
        has m3 mp T /\ has m3 mlen (word_le 8 (N.of_nat (length T))).
Proof.
  exact (fun HX HX' => api_roundtrip v cf cs ex X cf' cs' ex' X' mm c clen m ad npub k K Nn A T
                         (impl_of_ok v cf cs ex X HX) (impl_of_ok v cf' cs' ex' X' HX')).
Qed.
Print Assumptions C40_decryption_inverts_encryption_of_any_other.

(* Two implementations of an instance write the same bytes and return the same value; in particular what one rejects the other rejects. *)
Theorem C40_same_outputs v cf cs ex X cf' cs' ex' X' :
  impl_of v cf cs ex X -> impl_of v cf' cs' ex' X' -> agree_if cf cs ex X cf' cs' ex' X'.
Proof.
  exact (fun HX HX' => impls_agree_if v cf cs ex X cf' cs' ex' X' (impl_of_ok v cf cs ex X HX) (impl_of_ok v cf' cs' ex' X' HX')).
Qed.
Print Assumptions C40_same_outputs.

(* The STP directories, as sender and as receiver. *)
Theorem C40_stp_ciphertexts_decrypted_by_all a cf junk cf' cs' ex' X' mm c clen m ad npub k K Nn A T :
  In a fam_stp -> strict cf = false -> length junk = 5%nat -> impl_of A128A cf' cs' ex' X' ->
  enc_valid cf opt_consts mm c clen m ad npub k K Nn A T ->
  apart mm S0 S1 [(k, 16); (npub, 16); (ad, length A); (m, length T); (c, length T + 16); (clen, 8)]%nat ->
  exists m1 CT,
    runs (a_enc (stp_impl a cf junk) c clen m (N.of_nat (length T)) ad (N.of_nat (length A)) npub k) mm 0%Z m1 /\
    length CT = (length T + 16)%nat /\ has m1 c CT /\ has m1 clen (word_le 8 (N.of_nat (length T) + 16)) /\
    forall m2 mp mlen c' ad' npub' k', ex' m2 k' npub' ad' (length A) c' mp (length CT - 16)%nat ->
      dec_valid cf' cs' m2 mp mlen c' ad' npub' k' K Nn A CT ->
      exists m3,
        runs (a_dec X' mp mlen c' (N.of_nat (length CT)) ad' (N.of_nat (length A)) npub' k') m2 0%Z m3 /\
        has m3 mp T /\ has m3 mlen (word_le 8 (N.of_nat (length T))).
Proof. exact (stp_to_table a cf junk cf' cs' ex' X' mm c clen m ad npub k K Nn A T). Qed.
Print Assumptions C40_stp_ciphertexts_decrypted_by_all.

Theorem C40_stp_decrypts_ciphertexts_of_all b cf cs ex X cf' junk' mm c clen m ad npub k K Nn A T :
  impl_of A128A cf cs ex X -> In b fam_stp -> strict cf' = false -> length junk' = 5%nat ->
  ex mm k npub ad (length A) m c (length T) -> enc_valid cf cs mm c clen m ad npub k K Nn A T ->
  exists m1 CT,
    runs (a_enc X c clen m (N.of_nat (length T)) ad (N.of_nat (length A)) npub k) mm 0%Z m1 /\
    length CT = (length T + 16)%nat /\ has m1 c CT /\ has m1 clen (word_le 8 (N.of_nat (length T) + 16)) /\
    forall m2 mp mlen c' ad' npub' k',
      dec_valid cf' opt_consts m2 mp mlen c' ad' npub' k' K Nn A CT -> dec_apart m2 mp mlen c' ad' npub' k' A CT ->
      exists m3,
        runs (a_dec (stp_impl b cf' junk') mp mlen c' (N.of_nat (length CT)) ad' (N.of_nat (length A)) npub' k') m2 0%Z m3 /\
        has m3 mp T /\ has m3 mlen (word_le 8 (N.of_nat (length T))).
Proof. exact (table_to_stp b cf cs ex X cf' junk' mm c clen m ad npub k K Nn A T). Qed.
Print Assumptions C40_stp_decrypts_ciphertexts_of_all.

(* What an STP directory rejects all others reject. (The converse fails only on collisions of the tag images, see C35.) *)
Theorem C40_stp_rejection_is_rejection_by_all a cf junk cf' cs' ex' X' mm m mlen c ad npub k mm' m' mlen' c' ad' npub' k' K Nn A Y m1 :
  In a fam_stp -> strict cf = false -> length junk = 5%nat -> impl_of A128A cf' cs' ex' X' ->
  dec_valid cf opt_consts mm m mlen c ad npub k K Nn A Y -> dec_apart mm m mlen c ad npub k A Y ->
  runs (a_dec (stp_impl a cf junk) m mlen c (N.of_nat (length Y)) ad (N.of_nat (length A)) npub k) mm (-1)%Z m1 ->
  ex' mm' k' npub' ad' (length A) c' m' (length Y - 16)%nat -> dec_valid cf' cs' mm' m' mlen' c' ad' npub' k' K Nn A Y ->
  exists m1', runs (a_dec X' m' mlen' c' (N.of_nat (length Y)) ad' (N.of_nat (length A)) npub' k') mm' (-1)%Z m1'.
Proof. exact (stp_reject_table a cf junk cf' cs' ex' X' mm m mlen c ad npub k mm' m' mlen' c' ad' npub' k' K Nn A Y m1). Qed.
Print Assumptions C40_stp_rejection_is_rejection_by_all.
