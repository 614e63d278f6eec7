(* Every implementation in the table computes ISAP; consequences for pairs of implementations. Proofs only. *)
From Verif Require Import Base SpecPerm Words Mem Vocab Vocab2 VocabK MemProof RefIsap RefProof RefAead SpecFacts Api ExtProof ApiProps
  OptPerm OptPermProof OptIsap OptProof OptImpl OptStp StpProof StpEx A128Impl KIsapProof K64Impl KAvxImpl KArmImpl AvxAProof AvxAImpl Table.
From Verif Require Spec.
Open Scope N_scope.

Lemma ioi_any I cf cs X : impl_ok I cf cs no_cond X -> impl_ok_if I cf cs any_call X.
Proof. intros H. apply (ioi_weaken _ _ _ (loc_ext no_cond)); [intros; intros b _; exact Logic.I|now apply ioi_of_ok]. Qed.

Lemma impl_of_ok v cf cs ex X : impl_of v cf cs ex X -> impl_ok_if (v_inst v) cf cs ex X.
Proof.
  intros [v' cf'|a junk cf' H1 H2 H3|a junk cf' H1 H2 H3|UL cf' H1 H2|cf' H|UL cf' H1 H2|cf' H|cf' H|v' scr cf' H1 H2 H3|junk scr cf' H1 H2 H3|v' f scr cf' H1 H2].
  - apply ref_if.
  - now apply ioi_any, fam_correct.
  - constructor.
    + intros mm c clen m ad npub k K Nn A T (Ak & An & Aa & Am & Ac) V. now apply fam_aligned_enc.
    + intros mm m mlen c ad npub k K Nn A Y (Ak & An & Aa & Am & Ac) V. now apply fam_aligned_dec.
  - now apply avxa_correct.
  - now apply ioi_any, a128_64_correct.
  - constructor.
    + intros mm c clen m ad npub k K Nn A T (LA & LT) V. now apply ul_enc.
    + intros mm m mlen c ad npub k K Nn A Y (LA & LT) V. apply ul_dec; auto.
      destruct V as [_ _ _ _ [_ [Ly Gy]] _ _ _ _ _]. lia.
  - now apply ioi_any, a128_32_correct.
  - now apply ioi_any, a128_67_correct.
  - now apply k64_correct.
  - now apply ioi_any, kavx_correct.
  - now apply karm_correct.
Qed.

(* ---------- with the STP directories ---------- *)

Lemma stp_to_table a cf junk cf' cs' ex' X' mm c clen m ad npub k K Nn A T :
  In a fam_stp -> strict cf = false -> length junk = 5%nat -> impl_of A128A cf' cs' ex' X' ->
  enc_valid cf opt_consts mm c clen m ad npub k K Nn A T ->
  apart mm S0 S1 [(k, 16); (npub, 16); (ad, length A); (m, length T); (c, length T + 16); (clen, 8)]%nat ->
  exists m1 CT,
    runs (a_enc (stp_impl a cf junk) c clen m (N.of_nat (length T)) ad (N.of_nat (length A)) npub k) mm 0%Z m1 /\
    length CT = (length T + 16)%nat /\ has m1 c CT /\ has m1 clen (word_le 8 (N.of_nat (length T) + 16)) /\
    forall m2 mp mlen c' ad' npub' k', ex' m2 k' npub' ad' (length A) c' mp (length CT - 16)%nat ->
      dec_valid cf' cs' m2 mp mlen c' ad' npub' k' K Nn A CT ->
      exists m3,
        runs (a_dec X' mp mlen c' (N.of_nat (length CT)) ad' (N.of_nat (length A)) npub' k') m2 0%Z m3 /\
        has m3 mp T /\ has m3 mlen (word_le 8 (N.of_nat (length T))).
Proof.
  intros Ia Hs Hj HX V Hap.
  destruct (fam_stp_enc_out a cf junk mm c clen m ad npub k K Nn A T Ia Hs Hj V Hap) as (m1 & R & H1 & H2).
  destruct (e_CT A128A cf opt_consts mm c clen m ad npub k K Nn A T V) as [L B].
  exists m1, (Spec.isap_encrypt Spec.ISAP_A_128A K Nn A T).
  split; [exact R|]. split; [exact L|]. split; [exact H1|]. split; [exact H2|].
  intros m2 mp mlen c' ad' npub' k' Hx V'. apply impl_of_ok in HX.
  assert (E : Spec.isap_decrypt (v_inst A128A) K Nn A (Spec.isap_encrypt (v_inst A128A) K Nn A T) = Some T).
  { destruct V as [Vc [[Bk Hk] Lk] [[Bn Hn] Ln] [[Ba Ha] La] [[Bt Ht] Lt] _ _ _ _ _]. now apply v_decrypt_encrypt. }
  eexists. split; [exact (di_accept A128A cf' cs' ex' X' HX m2 mp mlen c' ad' npub' k' K Nn A _ Hx V' T E)|].
  split; [exact (d_has_m A128A cf' cs' m2 mp mlen c' ad' npub' k' K Nn A _ V' T E)|].
  pose proof (d_has_mlen2 A128A cf' cs' m2 mp mlen c' ad' npub' k' K Nn A _ V' T E) as H.
  rewrite L in H at 2. replace (N.of_nat (length T + 16) - 16) with (N.of_nat (length T)) in H by lia. exact H.
Qed.

Lemma table_to_stp b cf cs ex X cf' junk' mm c clen m ad npub k K Nn A T :
  impl_of A128A cf cs ex X -> In b fam_stp -> strict cf' = false -> length junk' = 5%nat ->
  ex mm k npub ad (length A) m c (length T) -> enc_valid cf cs mm c clen m ad npub k K Nn A T ->
  exists m1 CT,
    runs (a_enc X c clen m (N.of_nat (length T)) ad (N.of_nat (length A)) npub k) mm 0%Z m1 /\
    length CT = (length T + 16)%nat /\ has m1 c CT /\ has m1 clen (word_le 8 (N.of_nat (length T) + 16)) /\
    forall m2 mp mlen c' ad' npub' k',
      dec_valid cf' opt_consts m2 mp mlen c' ad' npub' k' K Nn A CT -> dec_apart m2 mp mlen c' ad' npub' k' A CT ->
      exists m3,
        runs (a_dec (stp_impl b cf' junk') mp mlen c' (N.of_nat (length CT)) ad' (N.of_nat (length A)) npub' k') m2 0%Z m3 /\
        has m3 mp T /\ has m3 mlen (word_le 8 (N.of_nat (length T))).
Proof.
  intros HX Ib Hs Hj Hx V. apply impl_of_ok in HX. eexists _, (Spec.isap_encrypt (v_inst A128A) K Nn A T).
  split; [exact (ei_runs A128A cf cs ex X HX mm c clen m ad npub k K Nn A T Hx V)|].
  split; [apply (e_CT A128A cf cs mm c clen m ad npub k K Nn A T V)|].
  split; [exact (e_has_c A128A cf cs mm c clen m ad npub k K Nn A T V)|].
  split; [exact (e_has_clen A128A cf cs mm c clen m ad npub k K Nn A T V)|].
  intros m2 mp mlen c' ad' npub' k' V' Hap'.
  apply (fam_stp_dec_genuine b cf' junk' K Nn A T m2); auto. apply (ev_msg _ _ _ _ _ _ _ _ _ _ _ _ _ V).
Qed.

(* A ciphertext rejected by an STP directory is rejected by every implementation in the table. *)
Lemma genuine_accepts cf cs mm m mlen c ad npub k K Nn A Y : dec_valid cf cs mm m mlen c ad npub k K Nn A Y ->
  Spec.isap_decrypt Spec.ISAP_A_128A K Nn A Y <> None -> accepts K Nn A Y.
Proof.
  intros V H. destruct (Spec.isap_decrypt Spec.ISAP_A_128A K Nn A Y) as [T|] eqn:E; [|contradiction].
  destruct V as [_ [[Bk _] Lk] [[Bn _] Ln] [[Ba _] _] [[By _] _] _ _ _ _ _].
  destruct (v_decrypt_Some A128A K Nn A Lk Ln Bk Bn Y T By E) as [BT ->]. now apply accepts_genuine.
Qed.

Lemma stp_reject_table a cf junk cf' cs' ex' X' mm m mlen c ad npub k mm' m' mlen' c' ad' npub' k' K Nn A Y m1 :
  In a fam_stp -> strict cf = false -> length junk = 5%nat -> impl_of A128A cf' cs' ex' X' ->
  dec_valid cf opt_consts mm m mlen c ad npub k K Nn A Y -> dec_apart mm m mlen c ad npub k A Y ->
  runs (a_dec (stp_impl a cf junk) m mlen c (N.of_nat (length Y)) ad (N.of_nat (length A)) npub k) mm (-1)%Z m1 ->
  ex' mm' k' npub' ad' (length A) c' m' (length Y - 16)%nat -> dec_valid cf' cs' mm' m' mlen' c' ad' npub' k' K Nn A Y ->
  exists m1', runs (a_dec X' m' mlen' c' (N.of_nat (length Y)) ad' (N.of_nat (length A)) npub' k') mm' (-1)%Z m1'.
Proof.
  intros Ia Hs Hj HX V Hap R Hx V'. apply impl_of_ok in HX.
  destruct (Spec.isap_decrypt (v_inst A128A) K Nn A Y) as [T|] eqn:E.
  - exfalso. destruct (fam_stp_accept a cf junk mm m mlen c ad npub k K Nn A Y Ia Hs Hj V Hap) as (h0 & h1 & _ & _ & H & _).
    assert (Acc : accepts K Nn A Y).
    { apply (genuine_accepts cf opt_consts mm m mlen c ad npub k K Nn A Y V). change (v_inst A128A) with Spec.ISAP_A_128A in E. now rewrite E. }
    destruct (runs_det _ _ _ _ _ _ R (H Acc)) as [Q _]. discriminate.
  - eexists. exact (di_reject A128A cf' cs' ex' X' HX mm' m' mlen' c' ad' npub' k' K Nn A Y Hx V' E).
Qed.
