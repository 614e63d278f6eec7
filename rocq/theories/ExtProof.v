(* Consequences of impl_ok_if. Proofs only. *)
From Verif Require Import Base SpecPerm Words Mem Vocab VocabK MemProof RefProof RefAead SpecFacts Api.
From Verif Require Spec.
Open Scope N_scope.

Lemma ioi_of_ok I cf cs loc X : impl_ok I cf cs loc X -> impl_ok_if I cf cs (loc_ext loc) X.
Proof.
  intros H. constructor.
  - intros mm c clen m ad npub k K Nn A T L V. now apply (io_enc _ _ _ _ _ H).
  - intros mm m mlen c ad npub k K Nn A Y L V. now apply (io_dec _ _ _ _ _ H).
Qed.

Lemma ioi_weaken I cf cs (ex ex' : ext) X : (forall mm k npub ad a p q n, ex' mm k npub ad a p q n -> ex mm k npub ad a p q n) ->
  impl_ok_if I cf cs ex X -> impl_ok_if I cf cs ex' X.
Proof.
  intros Hw H. constructor.
  - intros mm c clen m ad npub k K Nn A T L V. apply (ioi_enc _ _ _ _ _ H); auto.
  - intros mm m mlen c ad npub k K Nn A Y L V. apply (ioi_dec _ _ _ _ _ H); auto.
Qed.

Lemma impls_agree_if v cf cs ex X cf' cs' ex' X' :
  impl_ok_if (v_inst v) cf cs ex X -> impl_ok_if (v_inst v) cf' cs' ex' X' -> agree_if cf cs ex X cf' cs' ex' X'.
Proof.
  intros H H'. split.
  - intros mm c clen m ad npub k mm' c' clen' m' ad' npub' k' K Nn A T L V L' V'.
    exists 0%Z, (Spec.isap_encrypt (v_inst v) K Nn A T), (word_le 8 (N.of_nat (length T) + 16)).
    split; [apply (e_CT v cf cs mm c clen m ad npub k K Nn A T V)|]. split; [apply word_le_length|].
    split; [now apply (ioi_enc _ _ _ _ _ H)|now apply (ioi_enc _ _ _ _ _ H')].
  - intros mm m mlen c ad npub k mm' m' mlen' c' ad' npub' k' K Nn A Y L V L' V'.
    pose proof (ioi_dec _ _ _ _ _ H mm m mlen c ad npub k K Nn A Y L V) as R.
    pose proof (ioi_dec _ _ _ _ _ H' mm' m' mlen' c' ad' npub' k' K Nn A Y L' V') as R'.
    destruct (Spec.isap_decrypt (v_inst v) K Nn A Y) as [T|] eqn:E.
    + exists 0%Z, T, (word_le 8 (N.of_nat (length Y) - 16)). cbn [Z.eqb].
      split; [exact (d_length v cf cs mm m mlen c ad npub k K Nn A Y V T E)|]. split; [apply word_le_length|]. split; auto.
    + exists (-1)%Z, [], (word_le 8 (N.of_nat (length Y) - 16)). rewrite !putp_nil.
      split; [reflexivity|]. split; [apply word_le_length|]. split; auto.
Qed.

Section If.
  Variables (v : variant) (cf : cfg) (cs : list (list N)) (ex : ext) (X : aead).
  Hypothesis HX : impl_ok_if (v_inst v) cf cs ex X.
  Notation I := (v_inst v).

  Lemma ei_runs mm c clen m ad npub k K Nn A T :
    ex mm k npub ad (length A) m c (length T) -> enc_valid cf cs mm c clen m ad npub k K Nn A T ->
    runs (a_enc X c clen m (N.of_nat (length T)) ad (N.of_nat (length A)) npub k) mm 0%Z
         (putp (putp mm clen (word_le 8 (N.of_nat (length T) + 16))) c (Spec.isap_encrypt I K Nn A T)).
  Proof. exact (ioi_enc _ _ _ _ _ HX mm c clen m ad npub k K Nn A T). Qed.
  Lemma di_accept mm m mlen c ad npub k K Nn A Y :
    ex mm k npub ad (length A) c m (length Y - 16)%nat -> dec_valid cf cs mm m mlen c ad npub k K Nn A Y ->
    forall T, Spec.isap_decrypt I K Nn A Y = Some T ->
    runs (a_dec X m mlen c (N.of_nat (length Y)) ad (N.of_nat (length A)) npub k) mm 0%Z
         (putp (putp mm mlen (word_le 8 (N.of_nat (length Y) - 16))) m T).
  Proof. intros L V T E. pose proof (ioi_dec _ _ _ _ _ HX mm m mlen c ad npub k K Nn A Y L V) as R. now rewrite E in R. Qed.
  Lemma di_reject mm m mlen c ad npub k K Nn A Y :
    ex mm k npub ad (length A) c m (length Y - 16)%nat -> dec_valid cf cs mm m mlen c ad npub k K Nn A Y ->
    Spec.isap_decrypt I K Nn A Y = None ->
    runs (a_dec X m mlen c (N.of_nat (length Y)) ad (N.of_nat (length A)) npub k) mm (-1)%Z
         (putp mm mlen (word_le 8 (N.of_nat (length Y) - 16))).
  Proof. intros L V E. pose proof (ioi_dec _ _ _ _ _ HX mm m mlen c ad npub k K Nn A Y L V) as R. now rewrite E in R. Qed.
End If.

(* Encryption with one implementation, decryption with another. *)
Lemma api_roundtrip v cf cs ex X cf' cs' ex' X' mm c clen m ad npub k K Nn A T :
  impl_ok_if (v_inst v) cf cs ex X -> impl_ok_if (v_inst v) cf' cs' ex' X' ->
  ex mm k npub ad (length A) m c (length T) -> enc_valid cf cs mm c clen m ad npub k K Nn A T ->
  exists m1 CT,
    runs (a_enc X c clen m (N.of_nat (length T)) ad (N.of_nat (length A)) npub k) mm 0%Z m1 /\
    length CT = (length T + 16)%nat /\ has m1 c CT /\ has m1 clen (word_le 8 (N.of_nat (length T) + 16)) /\
    forall m2 mp mlen c' ad' npub' k', ex' m2 k' npub' ad' (length A) c' mp (length CT - 16)%nat ->
      dec_valid cf' cs' m2 mp mlen c' ad' npub' k' K Nn A CT ->
      exists m3,
        runs (a_dec X' mp mlen c' (N.of_nat (length CT)) ad' (N.of_nat (length A)) npub' k') m2 0%Z m3 /\
        has m3 mp T /\ has m3 mlen (word_le 8 (N.of_nat (length T))).
Proof.
  intros HX HX' Hl V. eexists. exists (Spec.isap_encrypt (v_inst v) K Nn A T).
  pose proof (e_CT v cf cs mm c clen m ad npub k K Nn A T V) as [L B].
  split; [exact (ei_runs v cf cs ex X HX mm c clen m ad npub k K Nn A T Hl V)|].
  split; [exact L|]. split; [exact (e_has_c v cf cs mm c clen m ad npub k K Nn A T V)|].
  split; [exact (e_has_clen v cf cs mm c clen m ad npub k K Nn A T V)|].
  intros m2 mp mlen c' ad' npub' k' Hl' V'.
  assert (E : Spec.isap_decrypt (v_inst v) K Nn A (Spec.isap_encrypt (v_inst v) K Nn A T) = Some T).
  { destruct V as [Vc [[Bk Hk] Lk] [[Bn Hn] Ln] [[Ba Ha] La] [[Bt Ht] Lt] _ _ _ _ _]. now apply v_decrypt_encrypt. }
  eexists. split; [apply (di_accept v cf' cs' ex' X' HX' _ _ _ _ _ _ _ _ _ _ _ Hl' V' _ E)|].
  split; [apply (d_has_m v cf' cs' m2 mp mlen c' ad' npub' k' K Nn A _ V' _ E)|].
  pose proof (d_has_mlen2 v cf' cs' m2 mp mlen c' ad' npub' k' K Nn A _ V' _ E) as H.
  rewrite L in H at 2. replace (N.of_nat (length T + 16) - 16) with (N.of_nat (length T)) in H by lia. exact H.
Qed.
