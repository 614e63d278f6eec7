(* isapa128v20/opt_64 and isapa128av20/avx_512 when unsigned long is narrower than the lengths: what crypto_aead.c computes over functions
   isap_mac that take lengths modulo 2^UL. Apart from the definition of tr, proofs only. *)
From Verif Require Import Base Prog SpecPerm Words Mem Vocab Vocab2 VocabK MemProof RefLib Sponge RefProof RefAead SpecFacts.
From Verif Require Import Api ApiProof ExtProof ExLib OptPerm OptRep OptPermProof OptIsap OptLanes OptProof OptImpl OptEx.
From Verif Require Import A128Perm A128PermProof A128 A128Proof A128Impl AvxA AvxAProof AvxAImpl.
From Verif Require Spec RefIsap ApiCode.
Open Scope N_scope.

(* What is left of X when its length is kept in UL bits. *)
Definition tr (UL : N) (X : list N) : list N := firstn (N.to_nat (N.of_nat (length X) mod 2 ^ UL)) X.

Lemma tr_length UL X : N.of_nat (length (tr UL X)) = N.of_nat (length X) mod 2 ^ UL.
Proof.
  unfold tr. rewrite firstn_length. assert (P0 : 2 ^ UL <> 0) by (apply N.pow_nonzero; lia).
  pose proof (N.mod_le (N.of_nat (length X)) (2 ^ UL) P0) as H. rewrite Nat.min_l by lia. apply N2Nat.id.
Qed.
Lemma tr_le UL X : (length (tr UL X) <= length X)%nat.
Proof. unfold tr. rewrite firstn_length. lia. Qed.
Lemma tr_lt UL X : N.of_nat (length (tr UL X)) < 2 ^ UL.
Proof. rewrite tr_length. apply N.mod_lt, N.pow_nonzero. lia. Qed.
Lemma tr_bytes UL X : bytes X -> bytes (tr UL X).
Proof. apply bytes_firstn. Qed.
Lemma tr_small UL X : N.of_nat (length X) < 2 ^ UL -> tr UL X = X.
Proof. intros H. unfold tr. rewrite N.mod_small, Nat2N.id by auto. apply firstn_all. Qed.
Lemma tr_app UL X B : N.of_nat (length X) < 2 ^ UL -> N.of_nat (length B) mod 2 ^ UL = 0 -> tr UL (X ++ B) = X.
Proof.
  intros H1 H2. unfold tr. rewrite app_length, Nat2N.inj_add, N.add_mod, H2, N.add_0_r, N.mod_mod, N.mod_small, Nat2N.id
    by (auto; apply N.pow_nonzero; lia).
  rewrite firstn_app, Nat.sub_diag, firstn_all. cbn [firstn]. apply app_nil_r.
Qed.
Lemma tr_split UL X : X = tr UL X ++ skipn (length (tr UL X)) X.
Proof.
  assert (E : tr UL X = firstn (length (tr UL X)) X).
  { unfold tr at 2. rewrite firstn_length. unfold tr. rewrite <- (firstn_firstn X). f_equal. symmetry. apply firstn_all. }
  rewrite E at 1. symmetry. apply firstn_skipn.
Qed.
Lemma tr_rest UL X : N.of_nat (length (skipn (length (tr UL X)) X)) mod 2 ^ UL = 0.
Proof.
  assert (P0 : 2 ^ UL <> 0) by (apply N.pow_nonzero; lia).
  rewrite skipn_length, Nat2N.inj_sub, tr_length.
  pose proof (N.div_mod (N.of_nat (length X)) (2 ^ UL) P0) as H.
  set (n := N.of_nat (length X)) in *. set (r := n mod 2 ^ UL) in *. set (q := n / 2 ^ UL) in *. clearbody r q.
  rewrite H, N.add_sub, N.mul_comm. now apply N.mod_mul.
Qed.

Section LenWrap.
  Variables (v : variant) (cf : cfg) (cs : list (list N)) (UL : N).
  Variable enc : forall (k npub m : ptr) (mlen : N) (c : ptr), M unit.
  Variable mac : forall (k npub ad : ptr) (adlen : N) (c : ptr) (clen : N) (tag : ptr), M unit.
  Notation I := (v_inst v).
  Definition enc_len_spec : Prop := forall mm k npub mp c K Nn T, consts_ok cs mm ->
    bytes_at mm k K -> length K = 16%nat -> bytes_at mm npub Nn -> length Nn = 16%nat -> bytes_at mm mp T ->
    enc_len UL (length T) -> (0 < length T)%nat -> room mm c (length T) -> fwd_ok c mp (length T) ->
    runs (enc k npub mp (N.of_nat (length T)) c) mm tt (putp mm c (Spec.isap_enc I K Nn T)).
  Definition mac_len_spec : Prop := forall mm k npub ad alen c clen tag K Nn A C, consts_ok cs mm ->
    bytes_at mm k K -> length K = 16%nat -> bytes_at mm npub Nn -> length Nn = 16%nat -> bytes_at mm ad A -> bytes_at mm c C ->
    ul UL alen = N.of_nat (length A) -> ul UL clen = N.of_nat (length C) -> room mm tag 16 ->
    runs (mac k npub ad alen c clen tag) mm tt (putp mm tag (Spec.isap_mac I K Nn A C)).
  Hypothesis Henc : enc_len_spec.
  Hypothesis Hmac : mac_len_spec.
  Hypothesis Hne : forall i, (i < length cs)%nat -> nth i cs [] <> [].

  Let macf K Nn A C := Spec.isap_mac I K Nn (tr UL A) (tr UL C).
  Let mac' d k npub ad adlen := mac k npub ad (adlen + d).
  Lemma lw_macf : macf_ok macf.
  Proof. intros K Nn A C. intros. unfold macf. apply v_mac; auto using tr_bytes. Qed.
  Lemma lw_enc_spec : enc_spec_g v cs (fun _ => True) (fun _ n => enc_len UL n) no_cond (2 ^ 64) enc.
  Proof. intros mm k npub m c K Nn T H1 _ H2 H3 H4 H5 H6 _ H7 H8 _ _ _ H9 _ _ H10 _. now apply Henc. Qed.
  Lemma lw_mac_spec d : d mod 2 ^ UL = 0 ->
    mac_spec_f cs (fun _ => True) (fun _ n => enc_len UL n) no_cond (2 ^ 64) (fun n => n) (mac' d) macf.
  Proof.
    intros Hd mm k npub ad c tag K Nn A C H1 _ Hk Lk Hn Ln [BA HA] [BC HC] _ _ Rt _ _ _ _ _ _ _ _ _ _ _.
    apply Hmac; auto.
    - split; [now apply tr_bytes|now apply has_firstn].
    - split; [now apply tr_bytes|now apply has_firstn].
    - rewrite tr_length. now apply mod_add.
    - now rewrite tr_length.
  Qed.

  Lemma lw_enc mm c clen m ad npub k K Nn A T : enc_valid cf cs mm c clen m ad npub k K Nn A T -> enc_len UL (length T) ->
    let ct := Spec.isap_enc I K Nn T in
    runs (ApiCode.crypto_aead_encrypt enc mac cf c clen m (N.of_nat (length T)) ad (N.of_nat (length A)) npub k) mm 0%Z
         (putp (putp mm clen (word_le 8 (N.of_nat (length T) + 16))) c (ct ++ Spec.isap_mac I K Nn (tr UL A) (tr UL ct))).
  Proof.
    intros V LT. cbv zeta. set (B := skipn (length (tr UL A)) A).
    assert (V' : enc_valid cf cs mm c clen m ad npub k K Nn (tr UL A ++ B) T) by (unfold B; rewrite <- tr_split; exact V).
    apply enc_prefix in V'.
    pose proof (api_enc_ok_f v cf cs (fun _ => True) (fun _ n => enc_len UL n) no_cond (2 ^ 64) (fun n => n) enc (mac' (N.of_nat (length B))) macf
      lw_enc_spec (lw_mac_spec _ (tr_rest UL A)) lw_macf Hne (fun n => Nat.le_add_r n 16) mm c clen m ad npub k K Nn (tr UL A) T (locs_any mm) V') as H.
    replace (N.of_nat (length A)) with (N.of_nat (length (tr UL A)) + N.of_nat (length B)).
    - unfold macf in H. rewrite (tr_small UL (tr UL A)) in H by apply tr_lt. unfold mac' in H. apply H; auto.
      + apply (ev_ad _ _ _ _ _ _ _ _ _ _ _ _ _ V').
      + pose proof (proj2 (ev_msg _ _ _ _ _ _ _ _ _ _ _ _ _ V)). lia.
      + left. apply tr_lt.
      + apply room_has, (ev_ad _ _ _ _ _ _ _ _ _ _ _ _ _ V').
    - unfold B. rewrite skipn_length. pose proof (tr_le UL A). lia.
  Qed.
  Lemma lw_dec mm m mlen c ad npub k K Nn A Y : dec_valid cf cs mm m mlen c ad npub k K Nn A Y -> enc_len UL (length Y - 16) ->
    let m1 := putp mm mlen (word_le 8 (N.of_nat (length Y) - 16)) in
    let C := firstn (length Y - 16) Y in
    let good := list_eq_dec N.eq_dec (skipn (length Y - 16) Y) (Spec.isap_mac I K Nn (tr UL A) (tr UL C)) in
    runs (ApiCode.crypto_aead_decrypt enc mac cf m mlen c (N.of_nat (length Y)) ad (N.of_nat (length A)) npub k) mm
         (if good then 0%Z else (-1)%Z) (if good then putp m1 m (Spec.isap_enc I K Nn C) else m1).
  Proof.
    intros V LT. cbv zeta. set (B := skipn (length (tr UL A)) A).
    assert (V' : dec_valid cf cs mm m mlen c ad npub k K Nn (tr UL A ++ B) Y) by (unfold B; rewrite <- tr_split; exact V).
    apply dec_prefix in V'.
    pose proof (api_dec_ok_f v cf cs (fun _ => True) (fun _ n => enc_len UL n) no_cond (2 ^ 64) (fun n => n) enc (mac' (N.of_nat (length B))) macf
      lw_enc_spec (lw_mac_spec _ (tr_rest UL A)) lw_macf Hne (fun n => Nat.le_add_r n 16) mm m mlen c ad npub k K Nn (tr UL A) Y (locs_any mm) V') as H.
    replace (N.of_nat (length A)) with (N.of_nat (length (tr UL A)) + N.of_nat (length B)).
    - cbv zeta in H. unfold macf in H. rewrite (tr_small UL (tr UL A)) in H by apply tr_lt. unfold mac' in H. apply H; auto.
      + apply (dv_ad _ _ _ _ _ _ _ _ _ _ _ _ _ V').
      + destruct V as [_ _ _ _ [_ [Ly _]] _ _ _ _ _]. lia.
      + left. apply tr_lt.
      + apply room_has, (dv_ad _ _ _ _ _ _ _ _ _ _ _ _ _ V').
    - unfold B. rewrite skipn_length. pose proof (tr_le UL A). lia.
  Qed.

  (* Bytes inserted between a genuine ciphertext and its tag. *)
  Lemma lw_insert mm m mlen c ad npub k K Nn A T X : bytes T ->
    N.of_nat (length A) < 2 ^ UL -> N.of_nat (length T) < 2 ^ UL -> N.of_nat (length X) mod 2 ^ UL = 0 -> enc_len UL (length T + length X) ->
    let ct := Spec.isap_enc I K Nn T in
    let t := Spec.isap_mac I K Nn A ct in
    dec_valid cf cs mm m mlen c ad npub k K Nn A ((ct ++ X) ++ t) ->
    runs (ApiCode.crypto_aead_decrypt enc mac cf m mlen c (N.of_nat (length ((ct ++ X) ++ t))) ad (N.of_nat (length A)) npub k) mm 0%Z
         (putp (putp mm mlen (word_le 8 (N.of_nat (length T + length X)))) m (Spec.isap_enc I K Nn (ct ++ X))).
  Proof.
    intros BT LA LT LX LE. cbv zeta. set (ct := Spec.isap_enc I K Nn T). set (t := Spec.isap_mac I K Nn A ct). intros V.
    assert (V' := V). destruct V' as [_ [[Bk Hk] Lk] [[Bn Hn] Ln] [[Ba Ha] La] _ _ _ _ _ _].
    assert (Lct : length ct = length T) by now apply v_enc_length.
    assert (Bct : bytes ct) by now apply v_enc_bytes.
    destruct (v_mac v K Nn A ct) as [Bt Lt]; auto. fold t in Bt, Lt.
    assert (L : (length ((ct ++ X) ++ t) - 16 = length (ct ++ X))%nat) by (rewrite (app_length (ct ++ X)), Lt; lia).
    assert (L' : length (ct ++ X) = (length T + length X)%nat) by (rewrite app_length; lia).
    pose proof (lw_dec mm m mlen c ad npub k K Nn A _ V) as H. cbv zeta in H. rewrite L in H.
    replace (N.of_nat (length ((ct ++ X) ++ t)) - 16) with (N.of_nat (length T + length X)) in H by lia.
    assert (E1 : firstn (length (ct ++ X)) ((ct ++ X) ++ t) = ct ++ X).
    { rewrite firstn_app, Nat.sub_diag, firstn_all. cbn [firstn]. apply app_nil_r. }
    assert (E2 : skipn (length (ct ++ X)) ((ct ++ X) ++ t) = t).
    { rewrite skipn_app, Nat.sub_diag, skipn_all. reflexivity. }
    rewrite E1, E2, (tr_small UL A), (tr_app UL ct X) in H by (auto; rewrite ?Lct; auto).
    fold t in H. destruct (list_eq_dec N.eq_dec t t) as [_|N]; [|now elim N]. apply H. now rewrite L'.
  Qed.
  Lemma lw_dec_iff mm m mlen c ad npub k K Nn A C t : length t = 16%nat ->
    dec_valid cf cs mm m mlen c ad npub k K Nn A (C ++ t) -> enc_len UL (length C) ->
    exists r m1, runs (ApiCode.crypto_aead_decrypt enc mac cf m mlen c (N.of_nat (length (C ++ t))) ad (N.of_nat (length A)) npub k) mm r m1 /\
      (r = 0%Z \/ r = (-1)%Z) /\ (r = 0%Z <-> t = Spec.isap_mac I K Nn (tr UL A) (tr UL C)) /\
      (r = 0%Z -> has m1 m (Spec.isap_enc I K Nn C)).
  Proof.
    intros Lt V LC. pose proof (lw_dec mm m mlen c ad npub k K Nn A (C ++ t) V) as H. cbv zeta in H.
    assert (L : (length (C ++ t) - 16 = length C)%nat) by (rewrite app_length; lia). rewrite L in H.
    rewrite firstn_app, Nat.sub_diag, firstn_all, app_nil_r, skipn_app, Nat.sub_diag, skipn_all in H. cbn [skipn app] in H.
    specialize (H LC). destruct (list_eq_dec N.eq_dec t _) as [E|E].
    - eexists _, _. split; [exact H|]. split; [now left|]. split; [tauto|]. intros _.
      destruct V as [_ [[Bk Hk] Lk] [[Bn Hn] Ln] _ _ [Rm _] [Rl _] _ _ _].
      apply has_putp_same. rewrite v_enc_length by auto. rewrite L in Rm. apply room_putp; auto.
    - eexists _, _. split; [exact H|]. split; [now right|]. split; [split; [discriminate|now intros]|discriminate].
  Qed.

  (* A ciphertext that encryption makes, into which any 2^UL bytes are inserted. *)
  Lemma lw_forge A T : aligned cf (ex_ptr cs 5) 8 = true -> bytes A -> bytes T -> (length T mod 8 = 0)%nat ->
    3 <= UL <= 60 -> N.of_nat (length A) < 2 ^ UL -> N.of_nat (length T) < 2 ^ UL ->
    let ct := Spec.isap_enc I ex_K ex_N T in let t := Spec.isap_mac I ex_K ex_N A ct in
    forall X, bytes X -> N.of_nat (length X) = 2 ^ UL ->
    exists dmm dm dmlen dc dad dnpub dk m2 T', dec_valid cf cs dmm dm dmlen dc dad dnpub dk ex_K ex_N A ((ct ++ X) ++ t) /\
      runs (ApiCode.crypto_aead_decrypt enc mac cf dm dmlen dc (N.of_nat (length ((ct ++ X) ++ t))) dad (N.of_nat (length A)) dnpub dk) dmm 0%Z m2 /\
      has m2 dm T' /\ length T' = (length T + length X)%nat.
  Proof.
    intros Al BA BT L8 HU LA LT ct t X BX LX.
    assert (Lct : length ct = length T) by (apply v_enc_length; auto using ex_bytes_K, ex_bytes_N).
    assert (Bct : bytes ct) by (apply v_enc_bytes; auto using ex_bytes_K, ex_bytes_N).
    destruct (v_mac v ex_K ex_N A ct) as [Bt Lt]; auto using ex_bytes_K, ex_bytes_N. fold t in Bt, Lt.
    set (Y := (ct ++ X) ++ t). assert (LY : length Y = (length T + length X + 16)%nat) by (unfold Y; rewrite !app_length; lia).
    assert (P8 : 2 ^ UL = 8 * 2 ^ (UL - 3)).
    { change 8 with (2 ^ 3). rewrite <- N.pow_add_r. f_equal. lia. }
    assert (PU : 2 ^ UL <= 2 ^ 60) by (apply N.pow_le_mono_r; lia).
    assert (P64 : 2 ^ 64 = 16 * 2 ^ 60) by reflexivity.
    assert (P60 : 2 ^ 60 = 1152921504606846976) by reflexivity.
    assert (V : dec_valid cf cs (ex_mem cs ex_K ex_N A Y (length Y - 16)) (ex_ptr cs 4) (ex_ptr cs 5) (ex_ptr cs 3) (ex_ptr cs 2)
            (ex_ptr cs 1) (ex_ptr cs 0) ex_K ex_N A Y).
    { apply ex_dec_valid; auto using ex_bytes_K, ex_bytes_N; try lia. unfold Y. rewrite !bytes_app. auto. }
    exists (ex_mem cs ex_K ex_N A Y (length Y - 16)), (ex_ptr cs 4), (ex_ptr cs 5), (ex_ptr cs 3), (ex_ptr cs 2), (ex_ptr cs 1), (ex_ptr cs 0).
    eexists _, _. split; [exact V|]. split; [apply lw_insert; auto|].
    - rewrite LX. apply N.mod_same, N.pow_nonzero. lia.
    - right. rewrite N.pow_add_r. change (2 ^ 3) with 8. split; [|lia].
      assert (E : (N.of_nat (length T + length X)) mod 8 = 0); [|lia].
      rewrite Nat2N.inj_add, LX, P8, (N.mul_comm 8), N.mod_add by lia. lia.
    - assert (L : length (Spec.isap_enc I ex_K ex_N (ct ++ X)) = (length T + length X)%nat).
      { rewrite v_enc_length by auto using ex_bytes_K, ex_bytes_N. rewrite app_length. lia. }
      split; [|exact L]. apply has_putp_same. rewrite L. destruct V as [_ _ _ _ _ [Rm _] [Rl _] _ _ _].
      apply room_putp; [now rewrite word_le_length|]. now replace (length T + length X)%nat with (length Y - 16)%nat by lia.
  Qed.
End LenWrap.

Lemma a128_64_len UL cf : UL <= 64 -> strict cf = false -> enc_len_spec A128 cs12 UL (isap_enc_64 a128_64 UL cf) /\
  mac_len_spec A128 cs12 UL (isap_mac_64 a128_64 UL cf).
Proof.
  intros HU Hs. split.
  - exact (enc64_gen f_id a128_64 rounds12 cf UL a128_64_ok in12 (cal_lax cf Hs) Hs HU).
  - exact (mac64_len f_id a128_64 rounds12 cf UL a128_64_ok in12 (cal_lax cf Hs) Hs).
Qed.
Lemma avxa_len UL cf : UL <= 64 -> strict cf = false -> enc_len_spec A128A csA UL (isap_encA UL cf) /\ mac_len_spec A128A csA UL (isap_macA UL cf).
Proof.
  intros HU Hs. split.
  - exact (encA_gen cf UL (cal_lax cf Hs) Hs HU).
  - exact (macA_len cf UL (cal_lax cf Hs) Hs).
Qed.

(* ---------- what the two implementations compute ---------- *)

Lemma a64_enc_len UL cf mm c clen m ad npub k K Nn A T : UL <= 64 -> strict cf = false ->
  enc_valid cf cs128 mm c clen m ad npub k K Nn A T -> enc_len UL (length T) ->
  let ct := Spec.isap_enc Spec.ISAP_A_128 K Nn T in
  runs (a_enc (impl_a128_64 UL cf) c clen m (N.of_nat (length T)) ad (N.of_nat (length A)) npub k) mm 0%Z
       (putp (putp mm clen (word_le 8 (N.of_nat (length T) + 16))) c (ct ++ Spec.isap_mac Spec.ISAP_A_128 K Nn (tr UL A) (tr UL ct))).
Proof. intros HU Hs. destruct (a128_64_len UL cf HU Hs) as [H1 H2]. exact (lw_enc A128 cf cs12 UL _ _ H1 H2 cs12_ne mm c clen m ad npub k K Nn A T). Qed.
Lemma a64_dec_len UL cf mm m mlen c ad npub k K Nn A C t : UL <= 64 -> strict cf = false -> length t = 16%nat ->
  dec_valid cf cs128 mm m mlen c ad npub k K Nn A (C ++ t) -> enc_len UL (length C) ->
  exists r m1, runs (a_dec (impl_a128_64 UL cf) m mlen c (N.of_nat (length (C ++ t))) ad (N.of_nat (length A)) npub k) mm r m1 /\
    (r = 0%Z \/ r = (-1)%Z) /\ (r = 0%Z <-> t = Spec.isap_mac Spec.ISAP_A_128 K Nn (tr UL A) (tr UL C)) /\
    (r = 0%Z -> has m1 m (Spec.isap_enc Spec.ISAP_A_128 K Nn C)).
Proof. intros HU Hs. destruct (a128_64_len UL cf HU Hs) as [H1 H2]. exact (lw_dec_iff A128 cf cs12 UL _ _ H1 H2 cs12_ne mm m mlen c ad npub k K Nn A C t). Qed.
Lemma avxa_dec_len UL cf mm m mlen c ad npub k K Nn A C t : UL <= 64 -> strict cf = false -> length t = 16%nat ->
  dec_valid cf csA mm m mlen c ad npub k K Nn A (C ++ t) -> enc_len UL (length C) ->
  exists r m1, runs (a_dec (impl_avxa UL cf) m mlen c (N.of_nat (length (C ++ t))) ad (N.of_nat (length A)) npub k) mm r m1 /\
    (r = 0%Z \/ r = (-1)%Z) /\ (r = 0%Z <-> t = Spec.isap_mac Spec.ISAP_A_128A K Nn (tr UL A) (tr UL C)) /\
    (r = 0%Z -> has m1 m (Spec.isap_enc Spec.ISAP_A_128A K Nn C)).
Proof. intros HU Hs. destruct (avxa_len UL cf HU Hs) as [H1 H2]. exact (lw_dec_iff A128A cf csA UL _ _ H1 H2 csA_ne mm m mlen c ad npub k K Nn A C t). Qed.

(* A text of one block. *)
Definition ex_T8 : list N := firstn 8 (ex_T ++ repeat 5 8).
Lemma ex_T8_bytes : bytes ex_T8.
Proof. repeat constructor. Qed.

Lemma encrypt_split I K Nn A T : Spec.isap_encrypt I K Nn A T = Spec.isap_enc I K Nn T ++ Spec.isap_mac I K Nn A (Spec.isap_enc I K Nn T).
Proof. reflexivity. Qed.

Section Forgery.
  Variables (v : variant) (cs : list (list N)) (X : aead) (enc : forall (k npub m : ptr) (mlen : N) (c : ptr), M unit).
  Variable mac : forall (k npub ad : ptr) (adlen : N) (c : ptr) (clen : N) (tag : ptr), M unit.
  Notation I := (v_inst v).
  Hypothesis Hne : forall i, (i < length cs)%nat -> nth i cs [] <> [].
  Hypothesis Hlen : enc_len_spec v cs 32 enc /\ mac_len_spec v cs 32 mac.
  Hypothesis Hdec : a_dec X = ApiCode.crypto_aead_decrypt enc mac lax_cf.
  Hypothesis Henc : forall mm c clen m ad npub k K Nn A T, enc_valid lax_cf cs mm c clen m ad npub k K Nn A T ->
    N.of_nat (length A) < 2 ^ 32 -> N.of_nat (length T) < 2 ^ 32 ->
    runs (a_enc X c clen m (N.of_nat (length T)) ad (N.of_nat (length A)) npub k) mm 0%Z
         (putp (putp mm clen (word_le 8 (N.of_nat (length T) + 16))) c (Spec.isap_encrypt I K Nn A T)).

  Lemma text_forgery : exists K Nn A T mm c clen m ad npub k m1 ct t,
    enc_valid lax_cf cs mm c clen m ad npub k K Nn A T /\
    runs (a_enc X c clen m (N.of_nat (length T)) ad (N.of_nat (length A)) npub k) mm 0%Z m1 /\
    has m1 c (ct ++ t) /\ length ct = length T /\ length t = 16%nat /\
    forall B, bytes B -> N.of_nat (length B) = 2 ^ 32 ->
      exists dmm dm dmlen dc dad dnpub dk m2 T', dec_valid lax_cf cs dmm dm dmlen dc dad dnpub dk K Nn A ((ct ++ B) ++ t) /\
        runs (a_dec X dm dmlen dc (N.of_nat (length ((ct ++ B) ++ t))) dad (N.of_nat (length A)) dnpub dk) dmm 0%Z m2 /\
        has m2 dm T' /\ length T' = (length T + length B)%nat.
  Proof.
    assert (V : enc_valid lax_cf cs (ex_mem cs ex_K ex_N ex_A ex_T8 (length ex_T8 + 16)) (ex_ptr cs 4) (ex_ptr cs 5)
      (ex_ptr cs 3) (ex_ptr cs 2) (ex_ptr cs 1) (ex_ptr cs 0) ex_K ex_N ex_A ex_T8).
    { apply (ex_enc_valid lax_cf cs ex_K ex_N ex_A ex_T8); auto using ex_bytes_K, ex_bytes_N, ex_bytes_A, ex_T8_bytes; reflexivity. }
    pose proof (Henc _ _ _ _ _ _ _ _ _ _ _ V eq_refl eq_refl) as R1.
    destruct Hlen as [H1 H2].
    pose proof (lw_forge v lax_cf cs 32 _ _ H1 H2 Hne ex_A ex_T8 eq_refl ex_bytes_A ex_T8_bytes eq_refl ltac:(lia) eq_refl eq_refl) as F.
    cbv zeta in F. rewrite encrypt_split in R1.
    assert (Le : length (Spec.isap_enc I ex_K ex_N ex_T8) = length ex_T8) by (apply v_enc_length; auto using ex_bytes_K, ex_bytes_N).
    assert (Be : bytes (Spec.isap_enc I ex_K ex_N ex_T8)) by (apply v_enc_bytes; auto using ex_bytes_K, ex_bytes_N, ex_T8_bytes).
    set (ct := Spec.isap_enc I ex_K ex_N ex_T8) in *. clearbody ct.
    destruct (v_mac v ex_K ex_N ex_A ct) as [Bt Lt]; auto using ex_bytes_K, ex_bytes_N, ex_bytes_A.
    set (t := Spec.isap_mac I ex_K ex_N ex_A ct) in *. clearbody t.
    rewrite <- Hdec in F.
    exists ex_K, ex_N, ex_A, ex_T8. do 8 eexists. exists ct, t.
    split; [exact V|]. split; [exact R1|]. split; [|split; [exact Le|split; [exact Lt|exact F]]].
    apply has_putp_same. rewrite app_length, Le, Lt. destruct V as [_ _ _ _ _ [Rc _] [Rl _] _ _ _].
    apply room_putp; [now rewrite word_le_length|exact Rc].
  Qed.
End Forgery.

Lemma a64_text_forgery : exists cf K Nn A T mm c clen m ad npub k m1 ct t,
  strict cf = false /\ enc_valid cf cs128 mm c clen m ad npub k K Nn A T /\
  runs (a_enc (impl_a128_64 32 cf) c clen m (N.of_nat (length T)) ad (N.of_nat (length A)) npub k) mm 0%Z m1 /\
  has m1 c (ct ++ t) /\ length ct = length T /\ length t = 16%nat /\
  forall B, bytes B -> N.of_nat (length B) = 2 ^ 32 ->
    exists dmm dm dmlen dc dad dnpub dk m2 T', dec_valid cf cs128 dmm dm dmlen dc dad dnpub dk K Nn A ((ct ++ B) ++ t) /\
      runs (a_dec (impl_a128_64 32 cf) dm dmlen dc (N.of_nat (length ((ct ++ B) ++ t))) dad (N.of_nat (length A)) dnpub dk) dmm 0%Z m2 /\
      has m2 dm T' /\ length T' = (length T + length B)%nat.
Proof.
  assert (LE : 32 <= 64) by lia.
  destruct (text_forgery A128 cs128 (impl_a128_64 32 lax_cf) _ _ cs12_ne (a128_64_len 32 lax_cf LE eq_refl) eq_refl) as (K & Nn & A & T & H).
  - intros. now apply ul_enc.
  - exists lax_cf, K, Nn, A, T. do 10 (let x := fresh in destruct H as (x & H); exists x). split; [reflexivity|exact H].
Qed.
Lemma avxa_text_forgery : exists cf K Nn A T mm c clen m ad npub k m1 ct t,
  strict cf = false /\ enc_valid cf csA mm c clen m ad npub k K Nn A T /\
  runs (a_enc (impl_avxa 32 cf) c clen m (N.of_nat (length T)) ad (N.of_nat (length A)) npub k) mm 0%Z m1 /\
  has m1 c (ct ++ t) /\ length ct = length T /\ length t = 16%nat /\
  forall B, bytes B -> N.of_nat (length B) = 2 ^ 32 ->
    exists dmm dm dmlen dc dad dnpub dk m2 T', dec_valid cf csA dmm dm dmlen dc dad dnpub dk K Nn A ((ct ++ B) ++ t) /\
      runs (a_dec (impl_avxa 32 cf) dm dmlen dc (N.of_nat (length ((ct ++ B) ++ t))) dad (N.of_nat (length A)) dnpub dk) dmm 0%Z m2 /\
      has m2 dm T' /\ length T' = (length T + length B)%nat.
Proof.
  assert (LE : 32 <= 64) by lia.
  destruct (text_forgery A128A csA (impl_avxa 32 lax_cf) _ _ csA_ne (avxa_len 32 lax_cf LE eq_refl) eq_refl) as (K & Nn & A & T & H).
  - intros mm c clen m ad npub k K Nn A T V LA LT. apply avxa_enc; auto. split; [exact LA|]. split; [exact LT|].
    now apply (N.lt_trans _ (2 ^ 32)).
  - exists lax_cf, K, Nn, A, T. do 10 (let x := fresh in destruct H as (x & H); exists x). split; [reflexivity|exact H].
Qed.
