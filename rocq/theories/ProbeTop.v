(* What the record of ProbeProof.v says about the four builds. Proofs only. *)
From Verif Require Import Base SpecPerm Words Mem Vocab MemProof RefLib Trace Spec Sponge RefProof RefAead RefTrace RefTrace2 SpecFacts Api ApiProps Probe VocabProbe ProbeProof.
Open Scope N_scope.

Lemma v_sz v : N.to_nat (RefIsap.ISAP_STATE_SZ (v_macros v)) = i_sz (v_inst v).
Proof. now destruct v. Qed.

Lemma p_enc v leak cf mm c clen m ad npub k K Nn A T :
  ref_locals v cf mm -> ref_enc_valid v cf mm c clen m ad npub k K Nn A T ->
  logs (a_enc (probed_ref v leak cf) c clen m (N.of_nat (length T)) ad (N.of_nat (length A)) npub k) mm 0%Z
       (putp (putp mm clen (word_le 8 (N.of_nat (length T) + 16))) c (isap_encrypt (v_inst v) K Nn A T))
       (seen leak (enc_in (v_inst v) K Nn (length T) ++ mac_in (v_inst v) K Nn A (isap_enc (v_inst v) K Nn T))).
Proof.
  intros Hl V. unfold probed_ref. rewrite v_sz.
  exact (l_enc _ _ _ _ _ leak (v_libok v cf) (v_macok v) (v_calls v cf) cf mm c clen m ad npub k K Nn A T Hl V).
Qed.

Lemma p_dec v leak cf mm m mlen c ad npub k K Nn A Y :
  ref_locals v cf mm -> ref_dec_valid v cf mm m mlen c ad npub k K Nn A Y ->
  logs (a_dec (probed_ref v leak cf) m mlen c (N.of_nat (length Y)) ad (N.of_nat (length A)) npub k) mm
       (match isap_decrypt (v_inst v) K Nn A Y with Some _ => 0%Z | None => (-1)%Z end)
       (let m1 := putp mm mlen (word_le 8 (N.of_nat (length Y) - 16)) in
        match isap_decrypt (v_inst v) K Nn A Y with Some T => putp m1 m T | None => m1 end)
       (seen leak (mac_in (v_inst v) K Nn A (firstn (length Y - 16) Y) ++
          match isap_decrypt (v_inst v) K Nn A Y with Some _ => enc_in (v_inst v) K Nn (length Y - 16) | None => [] end)).
Proof.
  intros Hl V. unfold probed_ref. rewrite v_sz.
  exact (l_dec _ _ _ _ _ leak (v_libok v cf) (v_macok v) (v_calls v cf) cf mm m mlen c ad npub k K Nn A Y Hl V).
Qed.

Lemma p_enc_same v leak cf mm c clen m ad npub k K Nn A T :
  ref_locals v cf mm -> ref_enc_valid v cf mm c clen m ad npub k K Nn A T ->
  exists m1,
    runs (a_enc (ref_impl v cf) c clen m (N.of_nat (length T)) ad (N.of_nat (length A)) npub k) mm 0%Z m1 /\
    logs (a_enc (probed_ref v leak cf) c clen m (N.of_nat (length T)) ad (N.of_nat (length A)) npub k) mm 0%Z m1
      (seen leak (enc_in (v_inst v) K Nn (length T) ++ mac_in (v_inst v) K Nn A (isap_enc (v_inst v) K Nn T))).
Proof.
  intros Hl V. eexists. split; [|apply p_enc; eauto]. apply (io_enc _ _ _ _ _ (ref_correct v cf)); auto.
Qed.

Lemma p_dec_same v leak cf mm m mlen c ad npub k K Nn A Y :
  ref_locals v cf mm -> ref_dec_valid v cf mm m mlen c ad npub k K Nn A Y ->
  exists r m1,
    runs (a_dec (ref_impl v cf) m mlen c (N.of_nat (length Y)) ad (N.of_nat (length A)) npub k) mm r m1 /\
    logs (a_dec (probed_ref v leak cf) m mlen c (N.of_nat (length Y)) ad (N.of_nat (length A)) npub k) mm r m1
      (seen leak (mac_in (v_inst v) K Nn A (firstn (length Y - 16) Y) ++
         if (r =? 0)%Z then enc_in (v_inst v) K Nn (length Y - 16) else [])) /\
    (r = 0%Z <-> skipn (length Y - 16) Y = isap_mac (v_inst v) K Nn A (firstn (length Y - 16) Y)).
Proof.
  intros Hl V. do 2 eexists. split; [apply (io_dec _ _ _ _ _ (ref_correct v cf)); eauto|].
  split; [pose proof (p_dec v leak cf mm m mlen c ad npub k K Nn A Y Hl V) as P; cbv zeta in P;
    destruct (isap_decrypt (v_inst v) K Nn A Y); exact P|].
  assert (G : (16 <= length Y)%nat) by apply V.
  unfold isap_decrypt. destruct (Nat.ltb_spec (length Y) 16); [lia|].
  destruct (list_eq_dec _ _ _) as [E|E]; split; intros H1; congruence.
Qed.

(* ---- The re-keying ---- *)

Lemma flip1_twice s : flip1 (flip1 s) = s.
Proof. destruct s as [|x s]; cbn; auto. now rewrite N.lxor_assoc, N.lxor_nilpotent, N.lxor_0_r. Qed.

Lemma rk_steps_cons I s b c Y : rk_steps I s (b :: c :: Y) =
  (if b then flip1 s else s, i_sB I) :: rk_steps I (i_perm I (i_sB I) (if b then flip1 s else s)) (c :: Y).
Proof. reflexivity. Qed.

Lemma rk_steps_length I s Y : length (rk_steps I s Y) = length Y.
Proof.
  revert s. induction Y as [|b Y IH]; intros s; auto. destruct Y as [|c Y]; auto.
  rewrite rk_steps_cons. cbn [length]. f_equal. apply IH.
Qed.

Lemma rk_steps_two I Y Y' s i x r x' r' : length Y = length Y' ->
  firstn i (rk_steps I s Y) = firstn i (rk_steps I s Y') ->
  nth_error (rk_steps I s Y) i = Some (x, r) -> nth_error (rk_steps I s Y') i = Some (x', r') ->
  r' = r /\ (x' = x \/ x' = flip1 x).
Proof.
  revert s Y Y'. induction i as [|i IH]; intros s Y Y' HL HF H1 H2.
  - destruct Y as [|b [|c Y]], Y' as [|b' [|c' Y']]; try discriminate; cbn in H1, H2;
      injection H1 as <- <-; injection H2 as <- <-; split; auto; destruct b, b'; auto; right; now rewrite flip1_twice.
  - destruct Y as [|b [|c Y]], Y' as [|b' [|c' Y']]; try discriminate; try (destruct i; discriminate).
    rewrite !rk_steps_cons in HF. rewrite rk_steps_cons in H1, H2. rewrite !firstn_cons in HF. injection HF as E HF. cbn [nth_error] in H1, H2.
    rewrite <- E in HF, H2. apply (IH (i_perm I (i_sB I) (if b then flip1 s else s)) (c :: Y) (c' :: Y')); auto.
Qed.

Lemma msb_bits_length bs : length (msb_bits bs) = (8 * length bs)%nat.
Proof.
  unfold msb_bits. induction bs as [|b bs IH]; auto. cbn [map concat]. rewrite app_length, IH, map_length, seq_length.
  cbn [length]. lia.
Qed.

Lemma rk_two I k iv Y Y' : length Y = 16%nat -> length Y' = 16%nat -> two_limited (rk_in I k iv Y) (rk_in I k iv Y').
Proof.
  intros L1 L2. unfold two_limited, rk_in. cbn [length]. rewrite !rk_steps_length, !msb_bits_length, L1, L2.
  split; [reflexivity|]. split; [reflexivity|]. intros [|i] x r x' r' HF H1 H2.
  - cbn in H1, H2. injection H1 as <- <-. injection H2 as <- <-. auto.
  - rewrite !firstn_cons in HF. injection HF as HF. cbn [nth_error] in H1, H2.
    eapply rk_steps_two; [|exact HF|exact H1|exact H2]. now rewrite !msb_bits_length, L1, L2.
Qed.

Lemma seen_app leak a b : seen leak (a ++ b) = seen leak a ++ seen leak b.
Proof. unfold seen. now rewrite map_app, concat_app. Qed.

Lemma hash_end_16 v n a c : length n = 16%nat -> bytes n -> bytes a -> bytes c ->
  length (firstn 16 (hash_end (v_inst v) n a c)) = 16%nat.
Proof.
  intros Ln Bn Ba Bc. pose proof (v_libok v cf0) as HL. pose proof (v_macok v) as Hmc.
  assert (BivA : bytes (iv_A (v_inst v))) by (apply (bytes_iv _ _ _ Hmc); lia).
  assert (W : wf (v_inst v) (hash_end (v_inst v) n a c)).
  { unfold hash_end. apply (wf_absorb _ _ _ _ _ HL Hmc); auto. unfold hash_mid.
    assert (W1 : wf (v_inst v) (absorb (v_inst v) (i_perm (v_inst v) (i_sH (v_inst v)) (hash_start (v_inst v) n))
              (chunks (i_rate (v_inst v)) (pad (i_rate (v_inst v)) a)))).
    { apply (wf_absorb _ _ _ _ _ HL Hmc); auto. apply (wf_pH _ _ _ _ _ HL Hmc). apply wf_zpad; [now apply bytes_app|].
      rewrite app_length, Ln. destruct v; cbn; lia. }
    rewrite (dom_sep_addat _ _ _ Hmc) by apply W1. apply wf_add1; auto. lia. }
  rewrite firstn_length, (proj1 W). destruct v; reflexivity.
Qed.

(* ---- Decryption: a hash without the key, 129 calls of the re-keying, one call on the authentication key ---- *)

Lemma p_dec_public v Nn A Y : exists h, forall cf mm m mlen c ad npub k K,
  ref_locals v cf mm -> ref_dec_valid v cf mm m mlen c ad npub k K Nn A Y ->
  exists R z r m1, length R = 129%nat /\
    forall leak, logs (a_dec (probed_ref v leak cf) m mlen c (N.of_nat (length Y)) ad (N.of_nat (length A)) npub k) mm r m1
      (seen leak (h ++ R ++ [z] ++ if (r =? 0)%Z then enc_in (v_inst v) K Nn (length Y - 16) else [])).
Proof.
  exists (hash_in (v_inst v) Nn A (firstn (length Y - 16) Y)). intros cf mm m mlen c ad npub k K Hl V.
  set (C := firstn (length Y - 16) Y). set (hs := firstn 16 (hash_end (v_inst v) Nn A C)).
  exists (rk_in (v_inst v) K (iv_KA (v_inst v)) hs).
  exists (isap_rk (v_inst v) K (iv_KA (v_inst v)) hs 16 ++ skipn 16 (hash_end (v_inst v) Nn A C), i_sH (v_inst v)).
  assert (L : length hs = 16%nat).
  { pose proof (dv_nonce _ _ _ _ _ _ _ _ _ _ _ _ _ V) as [[Bn _] Ln]. pose proof (dv_ad _ _ _ _ _ _ _ _ _ _ _ _ _ V) as [[Ba _] _].
    pose proof (dv_ct _ _ _ _ _ _ _ _ _ _ _ _ _ V) as [[By _] _]. apply hash_end_16; auto. now apply bytes_firstn. }
  pose proof (fun leak => p_dec v leak cf mm m mlen c ad npub k K Nn A Y Hl V) as P. cbv zeta in P.
  unfold mac_in in P. fold C in P. fold hs in P. setoid_rewrite <- app_assoc in P. setoid_rewrite <- app_assoc in P.
  destruct (isap_decrypt (v_inst v) K Nn A Y) as [T|]; do 2 eexists; (split; [apply (rk_two (v_inst v) K (iv_KA (v_inst v)) hs hs); auto|]);
    intros leak; exact (P leak).
Qed.

(* ---- Two decryptions under one key ---- *)

Lemma p_dec_two v cf mm m mlen c ad npub k K Nn A Y cf' mm' m' mlen' c' ad' npub' k' Nn' A' Y' :
  ref_locals v cf mm -> ref_dec_valid v cf mm m mlen c ad npub k K Nn A Y ->
  ref_locals v cf' mm' -> ref_dec_valid v cf' mm' m' mlen' c' ad' npub' k' K Nn' A' Y' ->
  exists h R z e r m1 h' R' z' e' r' m1',
    two_limited R R' /\
    (forall leak, logs (a_dec (probed_ref v leak cf) m mlen c (N.of_nat (length Y)) ad (N.of_nat (length A)) npub k) mm r m1
      (seen leak (h ++ R ++ [z] ++ e))) /\
    (forall leak, logs (a_dec (probed_ref v leak cf') m' mlen' c' (N.of_nat (length Y')) ad' (N.of_nat (length A')) npub' k') mm' r' m1'
      (seen leak (h' ++ R' ++ [z'] ++ e'))) /\
    h = hash_in (v_inst v) Nn A (firstn (length Y - 16) Y) /\ h' = hash_in (v_inst v) Nn' A' (firstn (length Y' - 16) Y') /\
    (r <> 0%Z -> e = []) /\ (r' <> 0%Z -> e' = []).
Proof.
  intros Hl V Hl' V'.
  assert (G : forall cf mm m mlen c ad npub k Nn A Y, ref_locals v cf mm -> ref_dec_valid v cf mm m mlen c ad npub k K Nn A Y ->
    exists hs z e r m1, length hs = 16%nat /\
      (forall leak, logs (a_dec (probed_ref v leak cf) m mlen c (N.of_nat (length Y)) ad (N.of_nat (length A)) npub k) mm r m1
        (seen leak (hash_in (v_inst v) Nn A (firstn (length Y - 16) Y) ++ rk_in (v_inst v) K (iv_KA (v_inst v)) hs ++ [z] ++ e))) /\
      (r <> 0%Z -> e = [])).
  { clear. intros cf mm m mlen c ad npub k Nn A Y Hl V.
    set (C := firstn (length Y - 16) Y). set (hs := firstn 16 (hash_end (v_inst v) Nn A C)).
    exists hs, (isap_rk (v_inst v) K (iv_KA (v_inst v)) hs 16 ++ skipn 16 (hash_end (v_inst v) Nn A C), i_sH (v_inst v)).
    do 3 eexists. split; [|split].
    - pose proof (dv_nonce _ _ _ _ _ _ _ _ _ _ _ _ _ V) as [[Bn _] Ln]. pose proof (dv_ad _ _ _ _ _ _ _ _ _ _ _ _ _ V) as [[Ba _] _].
      pose proof (dv_ct _ _ _ _ _ _ _ _ _ _ _ _ _ V) as [[By _] _]. apply hash_end_16; auto. now apply bytes_firstn.
    - intros leak. pose proof (p_dec v leak cf mm m mlen c ad npub k K Nn A Y Hl V) as P. cbv zeta in P.
      unfold mac_in in P. fold C hs in P. rewrite <- !app_assoc in P. exact P.
    - destruct (isap_decrypt (v_inst v) K Nn A Y); congruence. }
  destruct (G _ _ _ _ _ _ _ _ _ _ _ Hl V) as (hs & z & e & r & m1 & L & P & E).
  destruct (G _ _ _ _ _ _ _ _ _ _ _ Hl' V') as (hs' & z' & e' & r' & m1' & L' & P' & E').
  exists (hash_in (v_inst v) Nn A (firstn (length Y - 16) Y)), (rk_in (v_inst v) K (iv_KA (v_inst v)) hs), z, e, r, m1.
  exists (hash_in (v_inst v) Nn' A' (firstn (length Y' - 16) Y')), (rk_in (v_inst v) K (iv_KA (v_inst v)) hs'), z', e', r', m1'.
  split; [now apply rk_two|]. auto 10.
Qed.

(* ---- Two encryptions under one key ---- *)

Lemma p_enc_two v cf mm c clen m ad npub k K Nn A T cf' mm' c' clen' m' ad' npub' k' Nn' A' T' :
  ref_locals v cf mm -> ref_enc_valid v cf mm c clen m ad npub k K Nn A T -> T <> [] ->
  ref_locals v cf' mm' -> ref_enc_valid v cf' mm' c' clen' m' ad' npub' k' K Nn' A' T' -> T' <> [] ->
  exists Q e h R z m1 Q' e' h' R' z' m1',
    two_limited Q Q' /\ two_limited R R' /\
    (forall leak, logs (a_enc (probed_ref v leak cf) c clen m (N.of_nat (length T)) ad (N.of_nat (length A)) npub k) mm 0%Z m1
      (seen leak (Q ++ e ++ h ++ R ++ [z]))) /\
    (forall leak, logs (a_enc (probed_ref v leak cf') c' clen' m' (N.of_nat (length T')) ad' (N.of_nat (length A')) npub' k') mm' 0%Z m1'
      (seen leak (Q' ++ e' ++ h' ++ R' ++ [z']))) /\
    length e = ((length T + i_rate (v_inst v) - 1) / i_rate (v_inst v))%nat /\
    length e' = ((length T' + i_rate (v_inst v) - 1) / i_rate (v_inst v))%nat /\
    (Nn = Nn' -> length T = length T' -> Q = Q' /\ e = e').
Proof.
  intros Hl V HT Hl' V' HT'.
  assert (G : forall cf mm c clen m ad npub k Nn A T, ref_locals v cf mm -> ref_enc_valid v cf mm c clen m ad npub k K Nn A T -> T <> [] ->
    exists hs h z m1, length hs = 16%nat /\ length Nn = 16%nat /\
      (forall leak, logs (a_enc (probed_ref v leak cf) c clen m (N.of_nat (length T)) ad (N.of_nat (length A)) npub k) mm 0%Z m1
        (seen leak (rk_in (v_inst v) K (iv_KE (v_inst v)) Nn ++
           stream (v_inst v) (isap_rk (v_inst v) K (iv_KE (v_inst v)) Nn (i_sz (v_inst v) - 16) ++ Nn)
             ((length T + i_rate (v_inst v) - 1) / i_rate (v_inst v)) ++
           h ++ rk_in (v_inst v) K (iv_KA (v_inst v)) hs ++ [z])))).
  { clear. intros cf mm c clen m ad npub k Nn A T Hl V HT.
    set (C := isap_enc (v_inst v) K Nn T). set (hs := firstn 16 (hash_end (v_inst v) Nn A C)).
    exists hs, (hash_in (v_inst v) Nn A C),
      (isap_rk (v_inst v) K (iv_KA (v_inst v)) hs 16 ++ skipn 16 (hash_end (v_inst v) Nn A C), i_sH (v_inst v)).
    pose proof (ev_nonce _ _ _ _ _ _ _ _ _ _ _ _ _ V) as [[Bn _] Ln]. pose proof (ev_ad _ _ _ _ _ _ _ _ _ _ _ _ _ V) as [[Ba _] _].
    pose proof (ev_key _ _ _ _ _ _ _ _ _ _ _ _ _ V) as [[Bk _] Lk].
    pose proof (ev_msg _ _ _ _ _ _ _ _ _ _ _ _ _ V) as [[Bt _] _].
    eexists. split; [|split; auto].
    - apply hash_end_16; auto. now apply v_enc_bytes.
    - intros leak. pose proof (p_enc v leak cf mm c clen m ad npub k K Nn A T Hl V) as P.
      unfold mac_in, enc_in in P. fold C in P. fold hs in P. destruct (Nat.eqb_spec (length T) 0) as [E|E]; [now destruct T|].
      rewrite <- !app_assoc in P. exact P. }
  assert (LS : forall n s, length (stream (v_inst v) s n) = n).
  { clear. induction n as [|n IH]; intros s; cbn; auto. }
  destruct (G _ _ _ _ _ _ _ _ _ _ _ Hl V HT) as (hs & h & z & m1 & L & LN & P).
  destruct (G _ _ _ _ _ _ _ _ _ _ _ Hl' V' HT') as (hs' & h' & z' & m1' & L' & LN' & P').
  do 2 eexists. exists h. eexists. exists z, m1. do 2 eexists. exists h'. eexists. exists z', m1'.
  split; [|split; [|split; [exact P|split; [exact P'|]]]].
  - now apply rk_two.
  - now apply rk_two.
  - rewrite !LS. split; [reflexivity|]. split; [reflexivity|]. intros -> ->. auto.
Qed.
