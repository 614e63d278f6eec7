(* isapa128av20/avx_512 as an API implementation. Apart from the definitions of the implementation and of the conditions, proofs only. *)
From Verif Require Import Base Prog Poly SpecPerm Words AsconProof Mem Vocab Vocab2 VocabK MemProof RefLib Sponge RefProof RefAead SpecFacts.
From Verif Require Import Api ApiProof ExtProof Bij SpecProps ExLib OptPerm OptRep OptPermProof OptIsap OptLanes OptProof OptImpl OptEx.
From Verif Require Import A128Perm A128PermProof A128 A128Proof A128Impl AvxA AvxAProof AvxAEnc.
From Verif Require Spec RefIsap ApiCode.
Open Scope N_scope.

(* crypto_aead.c over isap.c, with an unsigned long of UL bits: encryption by isap_mac_enc, decryption by isap_mac and isap_enc. *)
Definition impl_avxa (UL : N) (cf : cfg) : aead := {|
  a_enc := crypto_aead_encryptA UL cf; a_dec := a_dec (api_aead cf (isap_encA UL cf) (isap_macA UL cf)) |}.
(* The lengths of the associated data and of the text fit into an unsigned long, that of the text into a long long. *)
Definition avx_lens (UL : N) : ext := fun _ _ _ _ a _ _ n => N.of_nat a < 2 ^ UL /\ N.of_nat n < 2 ^ UL /\ N.of_nat n < 2 ^ 63.

Lemma avxa_enc_g UL cf mm c clen m ad npub k K Nn A T alen : strict cf = false ->
  enc_valid cf csA mm c clen m ad npub k K Nn A T -> ulA UL alen = N.of_nat (length A) -> N.of_nat (length T) < 2 ^ UL -> N.of_nat (length T) < 2 ^ 63 ->
  runs (a_enc (impl_avxa UL cf) c clen m (N.of_nat (length T)) ad alen npub k) mm 0%Z
       (putp (putp mm clen (word_le 8 (N.of_nat (length T) + 16))) c (Spec.isap_encrypt Spec.ISAP_A_128A K Nn A T)).
Proof.
  intros Hs V EA LT L63.
  destruct V as [Vc [[Bk Hk] Lk] [[Bn Hn] Ln] [[Ba Ha] La] [[Bt Ht] Lt] [Rc Pc] [Rl [Pl Al]]
      (D1 & D2 & D3 & D4 & D5) (D6 & D7 & D8) Hf].
  cbn [impl_avxa a_enc]. unfold crypto_aead_encryptA, RefIsap.ISAP_TAG_SZ. rewrite u64_small by lia.
  set (m1 := putp mm clen (word_le 8 (N.of_nat (length T) + 16))).
  assert (Hl8 : room mm clen (length (word_le 8 (N.of_nat (length T) + 16)))) by now rewrite word_le_length.
  eapply runs_bind; [apply runs_store_ull; auto|]. fold m1.
  assert (F1 : forall q bs, has mm q bs -> disj clen 8 q (length bs) -> has m1 q bs).
  { intros q bs H1 H2. apply has_putp_disj; rewrite ?word_le_length; auto. }
  eapply runs_bind; [|apply runs_ret].
  apply mac_enc_ok; auto using cal_lax.
  - apply consts_putp; auto.
  - split; auto. apply F1; auto. now rewrite Lk.
  - split; auto. apply F1; auto. now rewrite Ln.
  - split; auto.
  - split; auto.
  - now apply room_putp.
Qed.
Lemma avxa_enc UL cf mm c clen m ad npub k K Nn A T : strict cf = false ->
  avx_lens UL mm k npub ad (length A) m c (length T) -> enc_valid cf csA mm c clen m ad npub k K Nn A T ->
  runs (a_enc (impl_avxa UL cf) c clen m (N.of_nat (length T)) ad (N.of_nat (length A)) npub k) mm 0%Z
       (putp (putp mm clen (word_le 8 (N.of_nat (length T) + 16))) c (Spec.isap_encrypt Spec.ISAP_A_128A K Nn A T)).
Proof. intros Hs (LA & LT & L63) V. apply avxa_enc_g; auto. now apply ulA_small. Qed.

Lemma avxa_dec_g UL cf mm m mlen c ad npub k K Nn A Y d : UL <= 64 -> strict cf = false -> d mod 2 ^ UL = 0 ->
  dec_valid cf csA mm m mlen c ad npub k K Nn A Y -> N.of_nat (length A) < 2 ^ UL -> N.of_nat (length Y) - 16 < 2 ^ UL ->
  let m1 := putp mm mlen (word_le 8 (N.of_nat (length Y) - 16)) in
  runs (a_dec (impl_avxa UL cf) m mlen c (N.of_nat (length Y)) ad (N.of_nat (length A) + d) npub k) mm
       (match Spec.isap_decrypt Spec.ISAP_A_128A K Nn A Y with Some _ => 0%Z | None => (-1)%Z end)
       (match Spec.isap_decrypt Spec.ISAP_A_128A K Nn A Y with Some T => putp m1 m T | None => m1 end).
Proof.
  intros HU Hs Hd V LA LT.
  apply (api_dec_ok_l A128A cf csA (fun _ => True) no_cond (2 ^ UL) (isap_encA UL cf)
           (fun k npub ad adlen => isap_macA UL cf k npub ad (adlen + d))); auto.
  - apply encA_ok; auto using cal_lax.
  - apply (macA_gen cf UL (cal_lax cf Hs) Hs (fun x => x + d)). intros x. exact (mod_add UL d x Hd).
  - exact csA_ne.
  - exact (locs_any mm).
Qed.

Lemma avxa_correct UL cf : UL <= 64 -> strict cf = false -> impl_ok_if Spec.ISAP_A_128A cf csA (avx_lens UL) (impl_avxa UL cf).
Proof.
  intros HU Hs. constructor.
  - intros mm c clen m ad npub k K Nn A T L V. now apply avxa_enc.
  - intros mm m mlen c ad npub k K Nn A Y (LA & LT & _) V.
    pose proof (avxa_dec_g UL cf mm m mlen c ad npub k K Nn A Y 0 HU Hs) as H. rewrite N.add_0_r in H. apply H; auto.
    destruct V as [_ _ _ _ [_ [Ly _]] _ _ _ _ _]. lia.
Qed.

Lemma avxa_agree UL cf cf' : UL <= 64 -> strict cf = false ->
  agree_if cf csA (avx_lens UL) (impl_avxa UL cf) cf' csA (loc_ext (v_loc A128A cf')) (ref_impl A128A cf').
Proof.
  intros HU Hs. apply (impls_agree_if A128A).
  - now apply avxa_correct.
  - apply ioi_of_ok. exact (ref_correct A128A cf').
Qed.

(* ---------- 32-bit unsigned long ---------- *)

Lemma avxa_enc_wrap UL cf mm c clen m ad npub k K Nn A B T : strict cf = false ->
  enc_valid cf csA mm c clen m ad npub k K Nn (A ++ B) T ->
  N.of_nat (length A) < 2 ^ UL -> N.of_nat (length B) mod 2 ^ UL = 0 -> N.of_nat (length T) < 2 ^ UL -> N.of_nat (length T) < 2 ^ 63 ->
  runs (a_enc (impl_avxa UL cf) c clen m (N.of_nat (length T)) ad (N.of_nat (length (A ++ B))) npub k) mm 0%Z
       (putp (putp mm clen (word_le 8 (N.of_nat (length T) + 16))) c (Spec.isap_encrypt Spec.ISAP_A_128A K Nn A T)).
Proof.
  intros Hs V LA LB LT L63. apply avxa_enc_g; auto.
  - now apply enc_prefix with (B := B).
  - rewrite app_length, Nat2N.inj_add. transitivity (ulA UL (N.of_nat (length A))); [exact (mod_add UL _ _ LB)|now apply ulA_small].
Qed.
Lemma avxa_dec_accepts UL cf mm m mlen c ad npub k K Nn A B T : UL <= 64 -> strict cf = false -> bytes T ->
  N.of_nat (length A) < 2 ^ UL -> N.of_nat (length B) mod 2 ^ UL = 0 -> N.of_nat (length T) < 2 ^ UL ->
  dec_valid cf csA mm m mlen c ad npub k K Nn (A ++ B) (Spec.isap_encrypt Spec.ISAP_A_128A K Nn A T) ->
  runs (a_dec (impl_avxa UL cf) m mlen c (N.of_nat (length T + 16)) ad (N.of_nat (length (A ++ B))) npub k) mm 0%Z
       (putp (putp mm mlen (word_le 8 (N.of_nat (length T)))) m T).
Proof.
  intros HU Hs BT LA LB LT V. pose proof (dec_prefix _ _ _ _ _ _ _ _ _ _ _ _ _ _ V) as V'.
  assert (V2 := V'). destruct V2 as [Vc [[Bk Hk] Lk] [[Bn Hn] Ln] [[Ba Ha] La] _ _ _ _ _ _].
  set (Y := Spec.isap_encrypt Spec.ISAP_A_128A K Nn A T) in *.
  assert (LY : length Y = (length T + 16)%nat) by now apply (v_encrypt_length A128A).
  assert (ED : Spec.isap_decrypt Spec.ISAP_A_128A K Nn A Y = Some T) by now apply (v_decrypt_encrypt A128A).
  assert (LT' : N.of_nat (length Y) - 16 < 2 ^ UL) by (rewrite LY; lia).
  pose proof (avxa_dec_g UL cf mm m mlen c ad npub k K Nn A Y _ HU Hs LB V' LA LT') as R.
  cbv zeta in R. rewrite ED, LY, <- Nat2N.inj_add, <- app_length in R.
  replace (N.of_nat (length T + 16) - 16) with (N.of_nat (length T)) in R by lia. exact R.
Qed.

Lemma ex_many_decA A T v : v < 256 -> bytes A -> N.of_nat (length A) < 2 ^ 32 -> bytes T -> N.of_nat (length T) < 2 ^ 32 ->
  let Y := Spec.isap_encrypt Spec.ISAP_A_128A ex_K ex_N A T in
  dec_valid lax_cf csA (ex_mem csA ex_K ex_N (A ++ many v) Y (length Y - 16)) (ex_ptr csA 4) (ex_ptr csA 5)
    (ex_ptr csA 3) (ex_ptr csA 2) (ex_ptr csA 1) (ex_ptr csA 0) ex_K ex_N (A ++ many v) Y.
Proof.
  intros Hv BA LA BT LT Y.
  assert (LY : length Y = (length T + 16)%nat).
  { apply (v_encrypt_length A128A); auto using ex_bytes_K, ex_bytes_N. }
  apply (ex_dec_valid lax_cf csA ex_K ex_N (A ++ many v) Y); auto using ex_bytes_K, ex_bytes_N.
  - apply bytes_app. split; auto. now apply many_bytes.
  - rewrite app_length, Nat2N.inj_add, many_length. change (2 ^ 64) with (2 ^ 32 * 2 ^ 32). lia.
  - unfold Y. change Spec.ISAP_A_128A with (v_inst A128A). apply v_encrypt_bytes; auto using ex_bytes_K, ex_bytes_N.
  - rewrite LY. change (2 ^ 64) with (2 ^ 32 * 2 ^ 32). lia.
  - lia.
Qed.
Lemma avxa_forgery : exists cf K Nn A A' T mm c clen m ad npub k dmm dm dmlen dc dad dnpub dk m1 m2 ct,
  strict cf = false /\ A <> A' /\
  enc_valid cf csA mm c clen m ad npub k K Nn A T /\
  runs (a_enc (impl_avxa 32 cf) c clen m (N.of_nat (length T)) ad (N.of_nat (length A)) npub k) mm 0%Z m1 /\ has m1 c ct /\
  dec_valid cf csA dmm dm dmlen dc dad dnpub dk K Nn A' ct /\
  runs (a_dec (impl_avxa 32 cf) dm dmlen dc (N.of_nat (length ct)) dad (N.of_nat (length A')) dnpub dk) dmm 0%Z m2.
Proof.
  assert (V : enc_valid lax_cf csA (ex_mem csA ex_K ex_N ex_A ex_T (length ex_T + 16)) (ex_ptr csA 4) (ex_ptr csA 5)
    (ex_ptr csA 3) (ex_ptr csA 2) (ex_ptr csA 1) (ex_ptr csA 0) ex_K ex_N ex_A ex_T).
  { apply (ex_enc_valid lax_cf csA ex_K ex_N ex_A ex_T); auto using ex_bytes_K, ex_bytes_N, ex_bytes_A, ex_bytes_T; reflexivity. }
  assert (LA : N.of_nat (length ex_A) < 2 ^ 32) by reflexivity.
  assert (LT : N.of_nat (length ex_T) < 2 ^ 32) by reflexivity.
  set (ct := Spec.isap_encrypt Spec.ISAP_A_128A ex_K ex_N ex_A ex_T).
  assert (Lct : length ct = (length ex_T + 16)%nat)
    by (apply (v_encrypt_length A128A); auto using ex_bytes_K, ex_bytes_N, ex_bytes_A, ex_bytes_T).
  assert (LE : 32 <= 64) by lia.
  pose proof (avxa_enc 32 lax_cf _ _ _ _ _ _ _ _ _ _ _ eq_refl (conj LA (conj LT eq_refl)) V) as R1. fold ct in R1.
  pose proof (ex_many_decA ex_A ex_T 0 ltac:(lia) ex_bytes_A LA ex_bytes_T LT) as D. cbv zeta in D. fold ct in D.
  assert (LB : N.of_nat (length (many 0)) mod 2 ^ 32 = 0) by (rewrite many_length; now apply N.mod_same).
  pose proof (avxa_dec_accepts 32 lax_cf _ _ _ _ _ _ _ _ _ _ _ _ LE eq_refl ex_bytes_T LA LB LT D) as R2.
  rewrite <- Lct in R2.
  exists lax_cf. do 22 eexists. split; [reflexivity|]. split; [|split; [exact V|split; [exact R1|split; [|split; [exact D|exact R2]]]]].
  - intros E. apply (f_equal (@length N)) in E. rewrite app_length in E.
    assert (H : N.of_nat (length (many 0)) = 0) by lia. rewrite many_length in H. discriminate.
  - apply has_putp_same. rewrite Lct. destruct V as [_ _ _ _ _ [Rc _] [Rl _] _ _ _].
    apply room_putp; auto; now rewrite word_le_length.
Qed.
