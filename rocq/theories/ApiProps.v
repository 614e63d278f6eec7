(* The API-level properties, for every implementation of one of the four instances. Proofs only. *)
From Verif Require Import Base SpecPerm Words Mem Vocab VocabK MemProof RefLib Spec RefProof RefAead SpecFacts Api ExtProof.
Open Scope N_scope.

Section Props.
  Variables (v : variant) (cf : cfg) (cs : list (list N)) (ex : ext) (X : aead).
  Hypothesis HX : impl_ok_if (v_inst v) cf cs ex X.
  Notation I := (v_inst v).
  Notation exe mm k npub ad A m c T := (ex mm k npub ad (length A) m c (length T)).
  Notation exd mm k npub ad A c m Y := (ex mm k npub ad (length A) c m (length Y - 16)%nat).
  Notation enc_ c clen m T ad A npub k := (a_enc X c clen m (N.of_nat (length T)) ad (N.of_nat (length A)) npub k).
  Notation dec_ m mlen c Y ad A npub k := (a_dec X m mlen c (N.of_nat (length Y)) ad (N.of_nat (length A)) npub k).

  Lemma p_encrypts mm c clen m ad npub k K Nn A T :
    exe mm k npub ad A m c T -> enc_valid cf cs mm c clen m ad npub k K Nn A T ->
    exists m1, runs (enc_ c clen m T ad A npub k) mm 0%Z m1 /\ has m1 c (isap_encrypt I K Nn A T) /\
               length (isap_encrypt I K Nn A T) = (length T + 16)%nat.
  Proof.
    intros Hl V. eexists. split; [exact (ei_runs v cf cs ex X HX mm c clen m ad npub k K Nn A T Hl V)|].
    split; [exact (e_has_c v cf cs mm c clen m ad npub k K Nn A T V)|].
    exact (proj1 (e_CT v cf cs mm c clen m ad npub k K Nn A T V)).
  Qed.

  (* Exactly which ciphertexts are accepted, and what comes out. *)
  Lemma p_decrypts mm m mlen c ad npub k K Nn A C t :
    exd mm k npub ad A c m (C ++ t) -> length t = 16%nat -> dec_valid cf cs mm m mlen c ad npub k K Nn A (C ++ t) ->
    exists r m1, runs (dec_ m mlen c (C ++ t) ad A npub k) mm r m1 /\
      (r = 0%Z \/ r = (-1)%Z) /\ (r = 0%Z <-> t = isap_mac I K Nn A C) /\
      (r = 0%Z -> has m1 m (isap_enc I K Nn C) /\ length (isap_enc I K Nn C) = length C).
  Proof.
    intros Hl Ht V.
    assert (E : isap_decrypt I K Nn A (C ++ t) =
                if list_eq_dec N.eq_dec t (isap_mac I K Nn A C) then Some (isap_enc I K Nn C) else None).
    { now apply v_decrypt_app. }
    destruct (list_eq_dec N.eq_dec t (isap_mac I K Nn A C)) as [Et|Et].
    - eexists _, _. split; [exact (di_accept v cf cs ex X HX _ _ _ _ _ _ _ _ _ _ _ Hl V _ E)|].
      split; [now left|]. split; [tauto|]. intros _.
      split; [exact (d_has_m v cf cs mm m mlen c ad npub k K Nn A _ V _ E)|].
      destruct V as [_ [[Bk _] Lk] [[Bn _] Ln] _ _ _ _ _ _ _]. now apply v_enc_length.
    - eexists _, _. split; [exact (di_reject v cf cs ex X HX _ _ _ _ _ _ _ _ _ _ _ Hl V E)|].
      split; [now right|]. split; [|discriminate]. split; [discriminate|contradiction].
  Qed.

  Lemma p_accepts_only_genuine mm m mlen c ad npub k K Nn A Y :
    exd mm k npub ad A c m Y -> dec_valid cf cs mm m mlen c ad npub k K Nn A Y ->
    exists r m1, runs (dec_ m mlen c Y ad A npub k) mm r m1 /\
      (r = 0%Z <-> exists T, bytes T /\ Y = isap_encrypt I K Nn A T) /\
      (forall T, bytes T -> Y = isap_encrypt I K Nn A T -> has m1 m T).
  Proof.
    intros Hl V. destruct (isap_decrypt I K Nn A Y) as [T|] eqn:E.
    - eexists _, _. split; [exact (di_accept v cf cs ex X HX _ _ _ _ _ _ _ _ _ _ _ Hl V _ E)|].
      assert (H := v_decrypt_Some v K Nn A). destruct V as [V0 V1 V2 V3 V4 V5 V6 V7 V8 V9].
      assert (Q := Build_dec_valid _ _ _ _ _ _ _ _ _ _ _ _ _ V0 V1 V2 V3 V4 V5 V6 V7 V8 V9).
      destruct V1 as [[Bk _] Lk], V2 as [[Bn _] Ln], V3 as [[Ba _] _], V4 as [[By _] _].
      destruct (H Lk Ln Bk Bn Y T By E) as [BT EY]. split.
      + split; [intros _; exists T; auto|auto].
      + intros T' BT' ET'. assert (T' = T) as ->.
        { rewrite ET' in E. rewrite v_decrypt_encrypt in E by auto. congruence. }
        exact (d_has_m v cf cs mm m mlen c ad npub k K Nn A _ Q _ E).
    - eexists _, _. split; [exact (di_reject v cf cs ex X HX _ _ _ _ _ _ _ _ _ _ _ Hl V E)|].
      destruct V as [_ [[Bk _] Lk] [[Bn _] Ln] [[Ba _] _] _ _ _ _ _ _].
      assert (F : forall T, bytes T -> Y <> isap_encrypt I K Nn A T).
      { intros T BT ->. rewrite v_decrypt_encrypt in E by auto. discriminate. }
      split; [split; [discriminate|intros (T & BT & EY); destruct (F T BT EY)]|].
      intros T BT EY. destruct (F T BT EY).
  Qed.

  Lemma p_reject_silent mm m mlen c ad npub k K Nn A Y r m1 :
    exd mm k npub ad A c m Y -> dec_valid cf cs mm m mlen c ad npub k K Nn A Y ->
    runs (dec_ m mlen c Y ad A npub k) mm r m1 -> r <> 0%Z ->
    r = (-1)%Z /\ length m1 = length mm /\ forall q, within mlen 8 q = false -> cellp m1 q = cellp mm q.
  Proof.
    intros Hl V R Hr. destruct (isap_decrypt I K Nn A Y) as [T|] eqn:E.
    - destruct (runs_det _ _ _ _ _ _ R (di_accept v cf cs ex X HX _ _ _ _ _ _ _ _ _ _ _ Hl V _ E)). contradiction.
    - destruct (runs_det _ _ _ _ _ _ R (di_reject v cf cs ex X HX _ _ _ _ _ _ _ _ _ _ _ Hl V E)) as [-> ->].
      split; auto. split; [apply putp_length|]. intros q Hq.
      exact (d_frame1 cf cs mm m mlen c ad npub k K Nn A Y V q Hq).
  Qed.

  Lemma p_wrong_tag mm c clen m ad npub k K Nn A T :
    exe mm k npub ad A m c T -> enc_valid cf cs mm c clen m ad npub k K Nn A T ->
    exists m1 C t, runs (enc_ c clen m T ad A npub k) mm 0%Z m1 /\
      length C = length T /\ length t = 16%nat /\ has m1 c (C ++ t) /\
      forall t' m2 mp mlen c' ad' npub' k', length t' = 16%nat -> t' <> t -> exd m2 k' npub' ad' A c' mp (C ++ t') ->
        dec_valid cf cs m2 mp mlen c' ad' npub' k' K Nn A (C ++ t') ->
        exists m3, runs (dec_ mp mlen c' (C ++ t') ad' A npub' k') m2 (-1)%Z m3 /\
                   forall q, within mlen 8 q = false -> cellp m3 q = cellp m2 q.
  Proof.
    intros Hl V. eexists _, (isap_enc I K Nn T), (isap_mac I K Nn A (isap_enc I K Nn T)).
    split; [exact (ei_runs v cf cs ex X HX mm c clen m ad npub k K Nn A T Hl V)|].
    pose proof (e_has_c v cf cs mm c clen m ad npub k K Nn A T V) as Hc.
    destruct V as [_ [[Bk _] Lk] [[Bn _] Ln] [[Ba _] _] [[Bt _] _] _ _ _ _ _].
    split; [now apply v_enc_length|]. split; [apply v_mac; auto; now apply v_enc_bytes|].
    split; [exact Hc|].
    intros t' m2 mp mlen c' ad' npub' k' Lt' Ht' Hl' V'.
    assert (E : isap_decrypt I K Nn A (isap_enc I K Nn T ++ t') = None).
    { rewrite v_decrypt_app by auto. now destruct (list_eq_dec _ _ _). }
    eexists. split; [exact (di_reject v cf cs ex X HX _ _ _ _ _ _ _ _ _ _ _ Hl' V' E)|].
    intros q Hq. exact (d_frame1 cf cs m2 mp mlen c' ad' npub' k' K Nn A _ V' q Hq).
  Qed.

  Lemma p_no_ub_enc mm c clen m ad npub k K Nn A T :
    exe mm k npub ad A m c T -> enc_valid cf cs mm c clen m ad npub k K Nn A T ->
    forall t, exists r s, enc_ c clen m T ad A npub k (St mm t) = Ok r s.
  Proof.
    intros Hl V t. destruct (ei_runs v cf cs ex X HX mm c clen m ad npub k K Nn A T Hl V t) as [t' E]. eauto.
  Qed.
  Lemma p_no_ub_dec mm m mlen c ad npub k K Nn A Y :
    exd mm k npub ad A c m Y -> dec_valid cf cs mm m mlen c ad npub k K Nn A Y ->
    forall t, exists r s, dec_ m mlen c Y ad A npub k (St mm t) = Ok r s.
  Proof.
    intros Hl V t. destruct (ioi_dec _ _ _ _ _ HX _ _ _ _ _ _ _ _ _ _ _ Hl V t) as [t' E]. eauto.
  Qed.

  Lemma p_frame_enc mm c clen m ad npub k K Nn A T r m1 :
    exe mm k npub ad A m c T -> enc_valid cf cs mm c clen m ad npub k K Nn A T ->
    runs (enc_ c clen m T ad A npub k) mm r m1 ->
    length m1 = length mm /\
    (forall q, within c (length T + 16) q = false -> within clen 8 q = false -> cellp m1 q = cellp mm q) /\
    has m1 k K /\ has m1 npub Nn /\ has m1 ad A /\ (disj c (length T + 16) m (length T) -> has m1 m T).
  Proof.
    intros Hl V R. pose proof (ei_runs v cf cs ex X HX mm c clen m ad npub k K Nn A T Hl V) as R'.
    destruct (runs_det _ _ _ _ _ _ R R') as [-> ->].
    pose proof (e_frame v cf cs mm c clen m ad npub k K Nn A T V) as F.
    split; [now rewrite !putp_length|]. split; [exact F|].
    destruct V as [_ [[Bk Hk] Lk] [[Bn Hn] Ln] [[Ba Ha] La] [[Bt Ht] Lt] _ _ (D1 & D2 & D3 & D4 & D5) (D6 & D7 & D8) _].
    assert (G : forall q bs, has mm q bs -> disj clen 8 q (length bs) -> disj c (length T + 16) q (length bs) ->
      has (putp (putp mm clen (word_le 8 (N.of_nat (length T) + 16))) c (isap_encrypt I K Nn A T)) q bs).
    { intros q bs Hq Q1 Q2 i Hi. rewrite <- (Hq i Hi). rewrite !rd1_cell, F; auto;
      apply disj_not_within with (k := length bs); auto. }
    repeat split; [| | |intros D9]; apply G; rewrite ?Lk, ?Ln; auto.
  Qed.

  Lemma p_frame_dec mm m mlen c ad npub k K Nn A Y r m1 :
    exd mm k npub ad A c m Y -> dec_valid cf cs mm m mlen c ad npub k K Nn A Y ->
    runs (dec_ m mlen c Y ad A npub k) mm r m1 ->
    length m1 = length mm /\
    (forall q, within m (length Y - 16) q = false -> within mlen 8 q = false -> cellp m1 q = cellp mm q) /\
    has m1 k K /\ has m1 npub Nn /\ has m1 ad A /\ (disj m (length Y - 16) c (length Y) -> has m1 c Y).
  Proof.
    intros Hl V R.
    assert (F : length m1 = length mm /\
      forall q, within m (length Y - 16) q = false -> within mlen 8 q = false -> cellp m1 q = cellp mm q).
    { destruct (isap_decrypt I K Nn A Y) as [T|] eqn:E.
      - destruct (runs_det _ _ _ _ _ _ R (di_accept v cf cs ex X HX _ _ _ _ _ _ _ _ _ _ _ Hl V _ E)) as [-> ->].
        split; [now rewrite !putp_length|]. intros q H1 H2.
        exact (d_frame2 v cf cs mm m mlen c ad npub k K Nn A Y V T q E H1 H2).
      - destruct (runs_det _ _ _ _ _ _ R (di_reject v cf cs ex X HX _ _ _ _ _ _ _ _ _ _ _ Hl V E)) as [-> ->].
        split; [now rewrite !putp_length|]. intros q H1 H2.
        exact (d_frame1 cf cs mm m mlen c ad npub k K Nn A Y V q H2). }
    destruct F as [Fl F]. split; [exact Fl|]. split; [exact F|].
    destruct V as [_ [[Bk Hk] Lk] [[Bn Hn] Ln] [[Ba Ha] La] [[By Hy] [Ly Gy]] _ _ (D1 & D2 & D3 & D4 & D5) (D6 & D7 & D8) _].
    assert (G : forall q bs, has mm q bs -> disj mlen 8 q (length bs) -> disj m (length Y - 16) q (length bs) -> has m1 q bs).
    { intros q bs Hq Q1 Q2 i Hi. rewrite <- (Hq i Hi). rewrite !rd1_cell, F; auto;
      apply disj_not_within with (k := length bs); auto. }
    repeat split; [| | |intros D9]; apply G; rewrite ?Lk, ?Ln; auto.
  Qed.

  Lemma p_inplace_enc mm p clen ad npub k K Nn A T mm' c' clen' m' ad' npub' k' r1 m1 r2 m2 :
    exe mm k npub ad A p p T -> exe mm' k' npub' ad' A m' c' T ->
    enc_valid cf cs mm p clen p ad npub k K Nn A T ->
    enc_valid cf cs mm' c' clen' m' ad' npub' k' K Nn A T -> disj c' (length T + 16) m' (length T) ->
    runs (enc_ p clen p T ad A npub k) mm r1 m1 -> runs (enc_ c' clen' m' T ad' A npub' k') mm' r2 m2 ->
    r1 = r2 /\ forall i, (i < length T + 16)%nat ->
      rd1 m1 (padd p (N.of_nat i)) = rd1 m2 (padd c' (N.of_nat i)) /\ rd1 m1 (padd p (N.of_nat i)) <> None.
  Proof.
    intros Hl Hl' V V' _ R1 R2.
    destruct (runs_det _ _ _ _ _ _ R1 (ei_runs v cf cs ex X HX mm p clen p ad npub k K Nn A T Hl V)) as [-> ->].
    destruct (runs_det _ _ _ _ _ _ R2 (ei_runs v cf cs ex X HX mm' c' clen' m' ad' npub' k' K Nn A T Hl' V')) as [-> ->].
    split; auto. intros i Hi. pose proof (e_CT v cf cs mm p clen p ad npub k K Nn A T V) as [L _].
    rewrite (e_has_c v cf cs mm p clen p ad npub k K Nn A T V i) by lia.
    rewrite (e_has_c v cf cs mm' c' clen' m' ad' npub' k' K Nn A T V' i) by lia. split; [reflexivity|discriminate].
  Qed.

  Lemma p_inplace_dec mm p mlen ad npub k K Nn A Y mm' c' mlen' m' ad' npub' k' r1 m1 r2 m2 :
    exd mm k npub ad A p p Y -> exd mm' k' npub' ad' A c' m' Y ->
    dec_valid cf cs mm p mlen p ad npub k K Nn A Y ->
    dec_valid cf cs mm' m' mlen' c' ad' npub' k' K Nn A Y -> disj m' (length Y - 16) c' (length Y) ->
    runs (dec_ p mlen p Y ad A npub k) mm r1 m1 -> runs (dec_ m' mlen' c' Y ad' A npub' k') mm' r2 m2 ->
    r1 = r2 /\ (r1 = 0%Z -> forall i, (i < length Y - 16)%nat ->
      rd1 m1 (padd p (N.of_nat i)) = rd1 m2 (padd m' (N.of_nat i)) /\ rd1 m1 (padd p (N.of_nat i)) <> None).
  Proof.
    intros Hl Hl' V V' _ R1 R2. destruct (isap_decrypt I K Nn A Y) as [T|] eqn:E.
    - destruct (runs_det _ _ _ _ _ _ R1 (di_accept v cf cs ex X HX _ _ _ _ _ _ _ _ _ _ _ Hl V _ E)) as [-> ->].
      destruct (runs_det _ _ _ _ _ _ R2 (di_accept v cf cs ex X HX _ _ _ _ _ _ _ _ _ _ _ Hl' V' _ E)) as [-> ->].
      split; auto. intros _ i Hi. pose proof (d_length v cf cs mm p mlen p ad npub k K Nn A Y V T E) as L.
      rewrite (d_has_m v cf cs mm p mlen p ad npub k K Nn A Y V T E i) by lia.
      rewrite (d_has_m v cf cs mm' m' mlen' c' ad' npub' k' K Nn A Y V' T E i) by lia. split; [reflexivity|discriminate].
    - destruct (runs_det _ _ _ _ _ _ R1 (di_reject v cf cs ex X HX _ _ _ _ _ _ _ _ _ _ _ Hl V E)) as [-> ->].
      destruct (runs_det _ _ _ _ _ _ R2 (di_reject v cf cs ex X HX _ _ _ _ _ _ _ _ _ _ _ Hl' V' E)) as [-> ->].
      split; [auto|discriminate].
  Qed.

  (* Whatever calls were made before, in whatever memory. *)
  Lemma p_function_enc h1 h2 s1 s2 rs1 rs2 mm1 mm2 c1 clen1 m1 ad1 npub1 k1 c2 clen2 m2 ad2 npub2 k2 K Nn A T :
    runs (history X h1) s1 rs1 mm1 -> runs (history X h2) s2 rs2 mm2 ->
    exe mm1 k1 npub1 ad1 A m1 c1 T -> exe mm2 k2 npub2 ad2 A m2 c2 T ->
    enc_valid cf cs mm1 c1 clen1 m1 ad1 npub1 k1 K Nn A T -> enc_valid cf cs mm2 c2 clen2 m2 ad2 npub2 k2 K Nn A T ->
    exists r f1 f2 CT n, length CT = (length T + 16)%nat /\
      runs (enc_ c1 clen1 m1 T ad1 A npub1 k1) mm1 r f1 /\ runs (enc_ c2 clen2 m2 T ad2 A npub2 k2) mm2 r f2 /\
      has f1 c1 CT /\ has f2 c2 CT /\ has f1 clen1 (word_le 8 n) /\ has f2 clen2 (word_le 8 n).
  Proof.
    intros _ _ Hl1 Hl2 V1 V2. eexists _, _, _, (isap_encrypt I K Nn A T), _.
    split; [exact (proj1 (e_CT v cf cs _ _ _ _ _ _ _ _ _ _ _ V1))|].
    split; [exact (ei_runs v cf cs ex X HX _ _ _ _ _ _ _ _ _ _ _ Hl1 V1)|].
    split; [exact (ei_runs v cf cs ex X HX _ _ _ _ _ _ _ _ _ _ _ Hl2 V2)|].
    split; [exact (e_has_c v cf cs _ _ _ _ _ _ _ _ _ _ _ V1)|].
    split; [exact (e_has_c v cf cs _ _ _ _ _ _ _ _ _ _ _ V2)|].
    split; [exact (e_has_clen v cf cs _ _ _ _ _ _ _ _ _ _ _ V1)|].
    exact (e_has_clen v cf cs _ _ _ _ _ _ _ _ _ _ _ V2).
  Qed.

  Lemma p_function_dec h1 h2 s1 s2 rs1 rs2 mm1 mm2 c1 mlen1 m1 ad1 npub1 k1 c2 mlen2 m2 ad2 npub2 k2 K Nn A Y :
    runs (history X h1) s1 rs1 mm1 -> runs (history X h2) s2 rs2 mm2 ->
    exd mm1 k1 npub1 ad1 A c1 m1 Y -> exd mm2 k2 npub2 ad2 A c2 m2 Y ->
    dec_valid cf cs mm1 m1 mlen1 c1 ad1 npub1 k1 K Nn A Y -> dec_valid cf cs mm2 m2 mlen2 c2 ad2 npub2 k2 K Nn A Y ->
    exists r f1 f2 n,
      runs (dec_ m1 mlen1 c1 Y ad1 A npub1 k1) mm1 r f1 /\ runs (dec_ m2 mlen2 c2 Y ad2 A npub2 k2) mm2 r f2 /\
      has f1 mlen1 (word_le 8 n) /\ has f2 mlen2 (word_le 8 n) /\
      (r = 0%Z -> exists T, length T = (length Y - 16)%nat /\ has f1 m1 T /\ has f2 m2 T).
  Proof.
    intros _ _ Hl1 Hl2 V1 V2. destruct (isap_decrypt I K Nn A Y) as [T|] eqn:E.
    - eexists _, _, _, _.
      split; [exact (di_accept v cf cs ex X HX _ _ _ _ _ _ _ _ _ _ _ Hl1 V1 _ E)|].
      split; [exact (di_accept v cf cs ex X HX _ _ _ _ _ _ _ _ _ _ _ Hl2 V2 _ E)|].
      split; [exact (d_has_mlen2 v cf cs _ _ _ _ _ _ _ _ _ _ _ V1 _ E)|].
      split; [exact (d_has_mlen2 v cf cs _ _ _ _ _ _ _ _ _ _ _ V2 _ E)|].
      intros _. exists T. split; [exact (d_length v cf cs _ _ _ _ _ _ _ _ _ _ _ V1 _ E)|].
      split; [exact (d_has_m v cf cs _ _ _ _ _ _ _ _ _ _ _ V1 _ E)|exact (d_has_m v cf cs _ _ _ _ _ _ _ _ _ _ _ V2 _ E)].
    - eexists _, _, _, _.
      split; [exact (di_reject v cf cs ex X HX _ _ _ _ _ _ _ _ _ _ _ Hl1 V1 E)|].
      split; [exact (di_reject v cf cs ex X HX _ _ _ _ _ _ _ _ _ _ _ Hl2 V2 E)|].
      split; [exact (d_has_mlen1 cf cs _ _ _ _ _ _ _ _ _ _ _ V1)|].
      split; [exact (d_has_mlen1 cf cs _ _ _ _ _ _ _ _ _ _ _ V2)|]. discriminate.
  Qed.

  Lemma p_lengths_enc mm c clen m ad npub k K Nn A T :
    exe mm k npub ad A m c T -> enc_valid cf cs mm c clen m ad npub k K Nn A T ->
    exists m1, runs (enc_ c clen m T ad A npub k) mm 0%Z m1 /\
      exists bs, length bs = 8%nat /\ has m1 clen bs /\ le_word bs = N.of_nat (length T) + 16.
  Proof.
    intros Hl V. eexists. split; [exact (ei_runs v cf cs ex X HX mm c clen m ad npub k K Nn A T Hl V)|].
    exists (word_le 8 (N.of_nat (length T) + 16)). split; [apply word_le_length|].
    split; [exact (e_has_clen v cf cs mm c clen m ad npub k K Nn A T V)|].
    apply le_word_word_le. destruct V as [_ _ _ _ [_ Lt] _ _ _ _ _]. exact Lt.
  Qed.
  Lemma p_lengths_dec mm m mlen c ad npub k K Nn A Y :
    exd mm k npub ad A c m Y -> dec_valid cf cs mm m mlen c ad npub k K Nn A Y ->
    exists r m1, runs (dec_ m mlen c Y ad A npub k) mm r m1 /\
      exists bs, length bs = 8%nat /\ has m1 mlen bs /\ le_word bs = N.of_nat (length Y) - 16.
  Proof.
    intros Hl V. assert (L : N.of_nat (length Y) < 2 ^ 64) by (destruct V as [_ _ _ _ [_ [Ly _]] _ _ _ _ _]; exact Ly).
    assert (W : le_word (word_le 8 (N.of_nat (length Y) - 16)) = N.of_nat (length Y) - 16)
      by (apply le_word_word_le; change (8 * N.of_nat 8) with 64; lia).
    destruct (isap_decrypt I K Nn A Y) as [T|] eqn:E.
    - eexists _, _. split; [exact (di_accept v cf cs ex X HX _ _ _ _ _ _ _ _ _ _ _ Hl V _ E)|].
      exists (word_le 8 (N.of_nat (length Y) - 16)). split; [apply word_le_length|].
      split; [exact (d_has_mlen2 v cf cs _ _ _ _ _ _ _ _ _ _ _ V _ E)|exact W].
    - eexists _, _. split; [exact (di_reject v cf cs ex X HX _ _ _ _ _ _ _ _ _ _ _ Hl V E)|].
      exists (word_le 8 (N.of_nat (length Y) - 16)). split; [apply word_le_length|].
      split; [exact (d_has_mlen1 cf cs _ _ _ _ _ _ _ _ _ _ _ V)|exact W].
  Qed.

  Lemma has_nil m p : has m p [].
  Proof. intros i Hi. cbn in Hi. lia. Qed.
  Lemma disj_nil p n q : disj p n q 0.
  Proof. intros i j _ Hj. lia. Qed.
  Lemma disj_nil_l p q n : disj p 0 q n.
  Proof. intros i j Hi. lia. Qed.
  Lemma room_nil m p : room m p 0.
  Proof. intros i Hi. lia. Qed.

  (* Replacing the pointer of an empty string by any pointer at all keeps the call valid. *)
  Lemma enc_valid_empty_msg mm c clen m ad npub k K Nn A q :
    enc_valid cf cs mm c clen m ad npub k K Nn A [] -> enc_valid cf cs mm c clen q ad npub k K Nn A [].
  Proof.
    intros [V0 V1 V2 V3 [[B _] L] V5 V6 (D1 & D2 & D3 & D4 & D5) V8 V9]. constructor; auto.
    - split; auto. split; auto. apply has_nil.
    - repeat split; auto. apply disj_nil.
    - intros i j H. cbn in H. lia.
  Qed.
  Lemma enc_valid_empty_ad mm c clen m ad npub k K Nn T q :
    enc_valid cf cs mm c clen m ad npub k K Nn [] T -> enc_valid cf cs mm c clen m q npub k K Nn [] T.
  Proof.
    intros [V0 V1 V2 [[B _] L] V4 V5 V6 (D1 & D2 & D3 & D4 & D5) (D6 & D7 & D8) V9]. constructor; auto.
    - split; auto. split; auto. apply has_nil.
    - repeat split; auto; apply disj_nil.
    - repeat split; auto; apply disj_nil.
  Qed.
  Lemma dec_valid_empty_ad mm m mlen c ad npub k K Nn Y q :
    dec_valid cf cs mm m mlen c ad npub k K Nn [] Y -> dec_valid cf cs mm m mlen c q npub k K Nn [] Y.
  Proof.
    intros [V0 V1 V2 [[B _] L] V4 V5 V6 (D1 & D2 & D3 & D4 & D5) (D6 & D7 & D8) V9]. constructor; auto.
    - split; auto. split; auto. apply has_nil.
    - repeat split; auto; apply disj_nil.
    - repeat split; auto; apply disj_nil.
  Qed.
  Lemma dec_valid_empty_msg mm m mlen c ad npub k K Nn A Y q : length Y = 16%nat -> (length cs <= pb q)%nat ->
    dec_valid cf cs mm m mlen c ad npub k K Nn A Y -> dec_valid cf cs mm q mlen c ad npub k K Nn A Y.
  Proof.
    intros LY Hq [V0 V1 V2 V3 V4 V5 V6 (D1 & D2 & D3 & D4 & D5) (D6 & D7 & D8) V9].
    rewrite LY in *. change (16 - 16)%nat with 0%nat in *. constructor; rewrite ?LY; auto;
      change (16 - 16)%nat with 0%nat.
    - split; [apply room_nil|exact Hq].
    - repeat split; auto. apply disj_nil.
    - repeat split; apply disj_nil_l.
    - intros i j H. lia.
  Qed.

  Lemma p_empty_msg mm c clen m ad npub k K Nn A q :
    ex mm k npub ad (length A) q c 0%nat -> enc_valid cf cs mm c clen m ad npub k K Nn A [] ->
    exists m1, runs (a_enc X c clen q 0 ad (N.of_nat (length A)) npub k) mm 0%Z m1 /\
               has m1 c (isap_mac I K Nn A []).
  Proof.
    intros Hl V. apply (enc_valid_empty_msg _ _ _ _ _ _ _ _ _ _ q) in V.
    destruct (p_encrypts mm c clen q ad npub k K Nn A [] Hl V) as (m1 & R & H & _).
    exists m1. split; auto.
  Qed.
  Lemma p_empty_ad mm c clen m ad npub k K Nn T q :
    ex mm k npub q 0%nat m c (length T) -> enc_valid cf cs mm c clen m ad npub k K Nn [] T ->
    exists m1, runs (a_enc X c clen m (N.of_nat (length T)) q 0 npub k) mm 0%Z m1 /\
               has m1 c (isap_encrypt I K Nn [] T).
  Proof.
    intros Hl V. apply (enc_valid_empty_ad _ _ _ _ _ _ _ _ _ _ q) in V.
    destruct (p_encrypts mm c clen m q npub k K Nn [] T Hl V) as (m1 & R & H & _).
    exists m1. split; auto.
  Qed.
  Lemma p_empty_ad_dec mm m mlen c ad npub k K Nn C t q :
    ex mm k npub q 0%nat c m (length (C ++ t) - 16)%nat -> length t = 16%nat -> dec_valid cf cs mm m mlen c ad npub k K Nn [] (C ++ t) ->
    exists r m1, runs (a_dec X m mlen c (N.of_nat (length (C ++ t))) q 0 npub k) mm r m1 /\
      (r = 0%Z <-> t = isap_mac I K Nn [] C) /\ (r = 0%Z -> has m1 m (isap_enc I K Nn C)).
  Proof.
    intros Hl Ht V. apply (dec_valid_empty_ad _ _ _ _ _ _ _ _ _ _ q) in V.
    destruct (p_decrypts mm m mlen c q npub k K Nn [] C t Hl Ht V) as (r & m1 & R & _ & H1 & H2).
    exists r, m1. split; auto. split; auto. intros H. now apply H2.
  Qed.
  Lemma p_empty_msg_dec mm m mlen c ad npub k K Nn A t q :
    ex mm k npub ad (length A) c q 0%nat -> length t = 16%nat -> dec_valid cf cs mm m mlen c ad npub k K Nn A t ->
    (length cs <= pb q)%nat ->
    exists r m1, runs (a_dec X q mlen c 16 ad (N.of_nat (length A)) npub k) mm r m1 /\
      (r = 0%Z <-> t = isap_mac I K Nn A []).
  Proof.
    intros Hl Ht V Hq. apply (dec_valid_empty_msg _ _ _ _ _ _ _ _ _ _ _ q Ht Hq) in V.
    assert (Hl' : exd mm k npub ad A c q ([] ++ t)) by (cbn [app]; now rewrite Ht).
    destruct (p_decrypts mm q mlen c ad npub k K Nn A [] t Hl' Ht V) as (r & m1 & R & _ & H1 & _).
    exists r, m1. split; auto. cbn [app] in R. now rewrite Ht in R.
  Qed.

  (* The keystream. *)
  Lemma p_keystream K Nn : exists ks : nat -> N,
    forall mm c clen m ad npub k A T, exe mm k npub ad A m c T -> enc_valid cf cs mm c clen m ad npub k K Nn A T ->
    exists m1, runs (enc_ c clen m T ad A npub k) mm 0%Z m1 /\
      forall i, (i < length T)%nat -> rd1 m1 (padd c (N.of_nat i)) = Some (N.lxor (nth i T 0) (ks i)).
  Proof.
    exists (v_ks v K Nn). intros mm c clen m ad npub k A T Hl V.
    eexists. split; [exact (ei_runs v cf cs ex X HX mm c clen m ad npub k K Nn A T Hl V)|].
    intros i Hi. pose proof (e_CT v cf cs mm c clen m ad npub k K Nn A T V) as [L _].
    rewrite (e_has_c v cf cs mm c clen m ad npub k K Nn A T V i) by lia. f_equal.
    destruct V as [_ [[Bk _] Lk] [[Bn _] Ln] [[Ba _] _] [[Bt _] _] _ _ _ _ _].
    unfold isap_encrypt. rewrite app_nth1 by now rewrite v_enc_length. now apply v_enc_nth.
  Qed.

  Lemma p_injective mm1 c1 clen1 m1 ad1 npub1 k1 A1 T1 mm2 c2 clen2 m2 ad2 npub2 k2 A2 T2 K Nn r1 f1 r2 f2 Y :
    exe mm1 k1 npub1 ad1 A1 m1 c1 T1 -> exe mm2 k2 npub2 ad2 A2 m2 c2 T2 ->
    enc_valid cf cs mm1 c1 clen1 m1 ad1 npub1 k1 K Nn A1 T1 -> enc_valid cf cs mm2 c2 clen2 m2 ad2 npub2 k2 K Nn A2 T2 ->
    runs (enc_ c1 clen1 m1 T1 ad1 A1 npub1 k1) mm1 r1 f1 -> runs (enc_ c2 clen2 m2 T2 ad2 A2 npub2 k2) mm2 r2 f2 ->
    length Y = (length T1 + 16)%nat -> length Y = (length T2 + 16)%nat -> has f1 c1 Y -> has f2 c2 Y -> T1 = T2.
  Proof.
    intros Hl1 Hl2 V1 V2 R1 R2 LY1 LY2 H1 H2.
    destruct (runs_det _ _ _ _ _ _ R1 (ei_runs v cf cs ex X HX _ _ _ _ _ _ _ _ _ _ _ Hl1 V1)) as [-> ->].
    destruct (runs_det _ _ _ _ _ _ R2 (ei_runs v cf cs ex X HX _ _ _ _ _ _ _ _ _ _ _ Hl2 V2)) as [-> ->].
    pose proof (e_has_c v cf cs _ _ _ _ _ _ _ _ _ _ _ V1) as G1.
    pose proof (e_has_c v cf cs _ _ _ _ _ _ _ _ _ _ _ V2) as G2.
    pose proof (proj1 (e_CT v cf cs _ _ _ _ _ _ _ _ _ _ _ V1)) as L1.
    pose proof (proj1 (e_CT v cf cs _ _ _ _ _ _ _ _ _ _ _ V2)) as L2.
    destruct V1 as [_ [[Bk _] Lk] [[Bn _] Ln] [[Ba1 _] _] [[Bt1 _] _] _ _ _ _ _].
    destruct V2 as [_ _ _ [[Ba2 _] _] [[Bt2 _] _] _ _ _ _ _].
    apply (nth_ext_le _ _ 0); [lia|]. intros i Hi.
    specialize (G1 i ltac:(lia)). specialize (G2 i ltac:(lia)). specialize (H1 i ltac:(lia)). specialize (H2 i ltac:(lia)).
    rewrite G1 in H1. rewrite G2 in H2. rewrite <- H2 in H1. injection H1 as H1.
    unfold isap_encrypt in H1. rewrite !app_nth1 in H1 by (rewrite v_enc_length; auto; lia).
    rewrite !v_enc_nth in H1 by (auto; lia).
    apply (f_equal (fun x => N.lxor x (v_ks v K Nn i))) in H1.
    now rewrite !N.lxor_assoc, !N.lxor_nilpotent, !N.lxor_0_r in H1.
  Qed.
End Props.

Lemma ref_if v cf : impl_ok_if (v_inst v) cf (ref_consts (v_macros v)) (loc_ext (v_loc v cf)) (ref_impl v cf).
Proof. exact (ioi_of_ok _ _ _ _ _ (ref_correct v cf)). Qed.

Lemma ref_roundtrip v cf mm c clen m ad npub k K Nn A T :
  ref_locals v cf mm -> ref_enc_valid v cf mm c clen m ad npub k K Nn A T ->
  exists m1 CT,
    runs (a_enc (ref_impl v cf) c clen m (N.of_nat (length T)) ad (N.of_nat (length A)) npub k) mm 0%Z m1 /\
    length CT = (length T + 16)%nat /\ has m1 c CT /\ has m1 clen (word_le 8 (N.of_nat (length T) + 16)) /\
    forall cf' m2 mp mlen c' ad' npub' k', ref_locals v cf' m2 ->
      ref_dec_valid v cf' m2 mp mlen c' ad' npub' k' K Nn A CT ->
      exists m3,
        runs (a_dec (ref_impl v cf') mp mlen c' (N.of_nat (length CT)) ad' (N.of_nat (length A)) npub' k') m2 0%Z m3 /\
        has m3 mp T /\ has m3 mlen (word_le 8 (N.of_nat (length T))).
Proof.
  intros Hl V. exists (putp (putp mm clen (word_le 8 (N.of_nat (length T) + 16))) c (isap_encrypt (v_inst v) K Nn A T)).
  exists (isap_encrypt (v_inst v) K Nn A T).
  destruct (e_CT v cf _ mm c clen m ad npub k K Nn A T V) as [L B].
  split; [exact (ei_runs v cf _ _ _ (ref_if v cf) mm c clen m ad npub k K Nn A T Hl V)|].
  split; [exact L|]. split; [exact (e_has_c v cf _ mm c clen m ad npub k K Nn A T V)|].
  split; [exact (e_has_clen v cf _ mm c clen m ad npub k K Nn A T V)|].
  intros cf' m2 mp mlen c' ad' npub' k' Hl' V'.
  destruct (api_roundtrip v cf _ _ _ cf' _ _ _ mm c clen m ad npub k K Nn A T (ref_if v cf) (ref_if v cf') Hl V)
    as (m1 & CT & R & L1 & Hc & _ & H).
  destruct (runs_det _ _ _ _ _ _ R (ei_runs v cf _ _ _ (ref_if v cf) mm c clen m ad npub k K Nn A T Hl V)) as [_ ->].
  assert (CT = isap_encrypt (v_inst v) K Nn A T) as ->.
  { pose proof (e_has_c v cf _ mm c clen m ad npub k K Nn A T V) as Hc'. apply (nth_ext_le _ _ 0); [lia|].
    intros i Hi. specialize (Hc i Hi). rewrite (Hc' i) in Hc by lia. congruence. }
  now apply H.
Qed.
