(* The optimised ISAP-A-128 implementations as API implementations. Apart from the definitions of the implementations, proofs only. *)
From Verif Require Import Base Prog Poly SpecPerm Words AsconProof Mem Vocab Vocab2 MemProof RefLib Sponge RefProof RefAead SpecFacts.
From Verif Require Import Api ApiProof Bij SpecProps ExLib OptPerm OptRep OptPermProof OptIsap OptLanes OptProof OptImpl OptEx.
From Verif Require Import A128Perm A128PermProof A128 A128Proof.
From Verif Require Spec RefIsap ApiCode.
Open Scope N_scope.

(* crypto_aead.c over isap.c: opt_64 with an unsigned long of UL bits, opt_32, opt_32_armv67m. *)
Definition impl_a128_64 (UL : N) (cf : cfg) : aead := api_aead cf (isap_enc_64 a128_64 UL cf) (isap_mac_64 a128_64 UL cf).
Definition impl_a128_32 (cf : cfg) : aead := api_aead cf (isap_enc_32 a128_32 a128_32 cf) (isap_mac_32 a128_32 a128_32 cf).
Definition impl_a128_67 (cf : cfg) : aead :=
  api_aead cf (isap_enc_32 a128_67_loop a128_67_urol cf) (isap_mac_32 a128_67_loop a128_67_urol cf).

Notation cs128 := (ref_consts (v_macros A128)).

Lemma cal_lax cf : strict cf = false -> forall i, (i < 4)%nat -> al8 cf (P i 0).
Proof. intros H i _. now apply al8_lax. Qed.

Lemma in12 : In 12%nat rounds12.
Proof. now left. Qed.

Lemma a128_64_mac UL cf : UL <= 64 -> strict cf = false ->
  mac_spec_l A128 cs12 (fun _ => True) no_cond (2 ^ UL) (isap_mac_64 a128_64 UL cf).
Proof. intros HU Hs. exact (mac64_ok f_id a128_64 rounds12 cf UL a128_64_ok in12 (cal_lax cf Hs) Hs). Qed.
Lemma a128_64_enc UL cf : UL <= 64 -> strict cf = false ->
  enc_spec_l A128 cs12 (fun _ => True) no_cond (2 ^ UL) (isap_enc_64 a128_64 UL cf).
Proof. intros HU Hs. exact (enc64_ok f_id a128_64 rounds12 cf UL a128_64_ok in12 (cal_lax cf Hs) Hs HU). Qed.

Lemma a128_64_correct cf : strict cf = false -> impl_ok Spec.ISAP_A_128 cf cs128 no_cond (impl_a128_64 64 cf).
Proof.
  intros Hs. apply (api_impl_ok A128 cf cs12 (fun _ => True) no_cond).
  - apply a128_64_enc; auto. lia.
  - apply a128_64_mac; auto. lia.
  - exact cs12_ne.
  - auto.
Qed.
Lemma a128_32_correct cf : strict cf = false -> impl_ok Spec.ISAP_A_128 cf cs128 no_cond (impl_a128_32 cf).
Proof.
  intros Hs. apply (api_impl_ok A128 cf cs12 (fun _ => True) no_cond).
  - exact (enc32_ok f_bi32 a128_32 a128_32 rounds12 rounds12 cf a128_32_ok a128_32_ok in12 in12 Hs).
  - exact (mac32_ok f_bi32 a128_32 a128_32 rounds12 rounds12 cf a128_32_ok a128_32_ok in12 in12 Hs).
  - exact cs12_ne.
  - auto.
Qed.
Lemma a128_67_correct cf : strict cf = false -> impl_ok Spec.ISAP_A_128 cf cs128 no_cond (impl_a128_67 cf).
Proof.
  intros Hs. apply (api_impl_ok A128 cf cs12 (fun _ => True) no_cond).
  - exact (enc32_ok f_bi32 a128_67_loop a128_67_urol rounds12 rounds12 cf a128_67_loop_ok a128_67_urol_ok in12 in12 Hs).
  - exact (mac32_ok f_bi32 a128_67_loop a128_67_urol rounds12 rounds12 cf a128_67_loop_ok a128_67_urol_ok in12 in12 Hs).
  - exact cs12_ne.
  - auto.
Qed.

(* ---------- unsigned long of UL bits ---------- *)

Lemma locs_any (m : mem) : locals no_cond m.
Proof. intros b _. exact Logic.I. Qed.

Lemma ul_enc UL cf mm c clen m ad npub k K Nn A T : UL <= 64 -> strict cf = false ->
  enc_valid cf cs128 mm c clen m ad npub k K Nn A T -> N.of_nat (length A) < 2 ^ UL -> N.of_nat (length T) < 2 ^ UL ->
  runs (a_enc (impl_a128_64 UL cf) c clen m (N.of_nat (length T)) ad (N.of_nat (length A)) npub k) mm 0%Z
       (putp (putp mm clen (word_le 8 (N.of_nat (length T) + 16))) c (Spec.isap_encrypt Spec.ISAP_A_128 K Nn A T)).
Proof.
  intros HU Hs V LA LT.
  apply (api_enc_ok_l A128 cf cs12 (fun _ => True) no_cond (2 ^ UL)); auto using a128_64_enc, a128_64_mac, cs12_ne, locs_any.
  exact (locs_any mm).
Qed.
Lemma ul_dec UL cf mm m mlen c ad npub k K Nn A Y : UL <= 64 -> strict cf = false ->
  dec_valid cf cs128 mm m mlen c ad npub k K Nn A Y -> N.of_nat (length A) < 2 ^ UL -> N.of_nat (length Y) - 16 < 2 ^ UL ->
  let m1 := putp mm mlen (word_le 8 (N.of_nat (length Y) - 16)) in
  runs (a_dec (impl_a128_64 UL cf) m mlen c (N.of_nat (length Y)) ad (N.of_nat (length A)) npub k) mm
       (match Spec.isap_decrypt Spec.ISAP_A_128 K Nn A Y with Some _ => 0%Z | None => (-1)%Z end)
       (match Spec.isap_decrypt Spec.ISAP_A_128 K Nn A Y with Some T => putp m1 m T | None => m1 end).
Proof.
  intros HU Hs V LA LT.
  apply (api_dec_ok_l A128 cf cs12 (fun _ => True) no_cond (2 ^ UL)); auto using a128_64_enc, a128_64_mac, cs12_ne.
  exact (locs_any mm).
Qed.

Lemma ul_agree UL cf cf' : UL <= 64 -> strict cf = false ->
  agree_upto (2 ^ UL) cf cs128 no_cond (impl_a128_64 UL cf) cf' cs128 (v_loc A128 cf') (ref_impl A128 cf').
Proof.
  intros HU Hs. pose proof (ref_correct A128 cf') as H'. split.
  - intros mm c clen m ad npub k mm' c' clen' m' ad' npub' k' K Nn A T LA LT L V L' V'.
    exists 0%Z, (Spec.isap_encrypt Spec.ISAP_A_128 K Nn A T), (word_le 8 (N.of_nat (length T) + 16)).
    split; [apply (e_CT A128 cf cs12 mm c clen m ad npub k K Nn A T V)|]. split; [apply word_le_length|].
    split; [now apply ul_enc|now apply (io_enc _ _ _ _ _ H')].
  - intros mm m mlen c ad npub k mm' m' mlen' c' ad' npub' k' K Nn A Y LA LT L V L' V'.
    pose proof (ul_dec UL cf mm m mlen c ad npub k K Nn A Y HU Hs V LA LT) as R.
    pose proof (io_dec _ _ _ _ _ H' mm' m' mlen' c' ad' npub' k' K Nn A Y L' V') as R'.
    change (v_inst A128) with Spec.ISAP_A_128 in R'.
    destruct (Spec.isap_decrypt Spec.ISAP_A_128 K Nn A Y) as [T|] eqn:E.
    + exists 0%Z, T, (word_le 8 (N.of_nat (length Y) - 16)). cbn [Z.eqb].
      split; [exact (d_length A128 cf cs12 mm m mlen c ad npub k K Nn A Y V T E)|]. split; [apply word_le_length|]. split; auto.
    + exists (-1)%Z, [], (word_le 8 (N.of_nat (length Y) - 16)). rewrite !putp_nil.
      split; [reflexivity|]. split; [apply word_le_length|]. split; auto.
Qed.

(* Associated data A ++ B with B of a multiple of 2^UL bytes is treated like A. *)
Lemma mod_add UL d x : d mod 2 ^ UL = 0 -> ul UL (x + d) = ul UL x.
Proof.
  intros H. assert (P0 : 2 ^ UL <> 0) by (apply N.pow_nonzero; lia). unfold ul.
  rewrite N.add_mod, H, N.add_0_r, N.mod_mod by auto. reflexivity.
Qed.
Definition mac_plus (UL d : N) (cf : cfg) (k npub ad : ptr) (adlen : N) := isap_mac_64 a128_64 UL cf k npub ad (adlen + d).
Lemma mac_plus_ok UL d cf : UL <= 64 -> strict cf = false -> d mod 2 ^ UL = 0 ->
  mac_spec_l A128 cs12 (fun _ => True) no_cond (2 ^ UL) (mac_plus UL d cf).
Proof.
  intros HU Hs Hd.
  exact (mac64_gen f_id a128_64 rounds12 cf UL a128_64_ok in12 (cal_lax cf Hs) Hs (fun x => x + d) (fun x => mod_add UL d x Hd)).
Qed.

Lemma has_prefix m p a b : has m p (a ++ b) -> has m p a.
Proof. intros H i Hi. rewrite (H i) by (rewrite app_length; lia). now rewrite app_nth1. Qed.
Lemma disj_prefix p n q k l : (k <= l)%nat -> disj p n q l -> disj p n q k.
Proof. intros H D. apply (disj_sub p n q l); auto. Qed.

Lemma enc_prefix cf cs mm c clen m ad npub k K Nn A B T :
  enc_valid cf cs mm c clen m ad npub k K Nn (A ++ B) T -> enc_valid cf cs mm c clen m ad npub k K Nn A T.
Proof.
  intros [Vc [[Bk Hk] Lk] [[Bn Hn] Ln] [[Ba Ha] La] [[Bt Ht] Lt] [Rc Pc] [Rl [Pl Al]] (D1 & D2 & D3 & D4 & D5) (D6 & D7 & D8) Hf].
  rewrite app_length in *. apply bytes_app in Ba. destruct Ba as [Ba _].
  assert (LE : (length A <= length A + length B)%nat) by lia.
  constructor; repeat split; auto; try lia; eauto using has_prefix, disj_prefix.
Qed.
Lemma dec_prefix cf cs mm m mlen c ad npub k K Nn A B Y :
  dec_valid cf cs mm m mlen c ad npub k K Nn (A ++ B) Y -> dec_valid cf cs mm m mlen c ad npub k K Nn A Y.
Proof.
  intros [Vc [[Bk Hk] Lk] [[Bn Hn] Ln] [[Ba Ha] La] [[By Hy] [Ly Gy]] [Rc Pc] [Rl [Pl Al]] (D1 & D2 & D3 & D4 & D5) (D6 & D7 & D8) Hf].
  rewrite app_length in *. apply bytes_app in Ba. destruct Ba as [Ba _].
  assert (LE : (length A <= length A + length B)%nat) by lia.
  constructor; repeat split; auto; try lia; eauto using has_prefix, disj_prefix.
Qed.

Lemma ul_enc_wrap UL cf mm c clen m ad npub k K Nn A B T : UL <= 64 -> strict cf = false ->
  enc_valid cf cs128 mm c clen m ad npub k K Nn (A ++ B) T ->
  N.of_nat (length A) < 2 ^ UL -> N.of_nat (length B) mod 2 ^ UL = 0 -> N.of_nat (length T) < 2 ^ UL ->
  runs (a_enc (impl_a128_64 UL cf) c clen m (N.of_nat (length T)) ad (N.of_nat (length (A ++ B))) npub k) mm 0%Z
       (putp (putp mm clen (word_le 8 (N.of_nat (length T) + 16))) c (Spec.isap_encrypt Spec.ISAP_A_128 K Nn A T)).
Proof.
  intros HU Hs V LA LB LT. rewrite app_length, Nat2N.inj_add.
  apply (api_enc_ok_l A128 cf cs12 (fun _ => True) no_cond (2 ^ UL) (isap_enc_64 a128_64 UL cf) (mac_plus UL (N.of_nat (length B)) cf));
    auto using a128_64_enc, mac_plus_ok, cs12_ne.
  - exact (locs_any mm).
  - now apply enc_prefix with (B := B).
Qed.
Lemma ul_dec_wrap UL cf mm m mlen c ad npub k K Nn A B Y : UL <= 64 -> strict cf = false ->
  dec_valid cf cs128 mm m mlen c ad npub k K Nn (A ++ B) Y ->
  N.of_nat (length A) < 2 ^ UL -> N.of_nat (length B) mod 2 ^ UL = 0 -> N.of_nat (length Y) - 16 < 2 ^ UL ->
  let m1 := putp mm mlen (word_le 8 (N.of_nat (length Y) - 16)) in
  runs (a_dec (impl_a128_64 UL cf) m mlen c (N.of_nat (length Y)) ad (N.of_nat (length (A ++ B))) npub k) mm
       (match Spec.isap_decrypt Spec.ISAP_A_128 K Nn A Y with Some _ => 0%Z | None => (-1)%Z end)
       (match Spec.isap_decrypt Spec.ISAP_A_128 K Nn A Y with Some T => putp m1 m T | None => m1 end).
Proof.
  intros HU Hs V LA LB LT. rewrite app_length, Nat2N.inj_add.
  apply (api_dec_ok_l A128 cf cs12 (fun _ => True) no_cond (2 ^ UL) (isap_enc_64 a128_64 UL cf) (mac_plus UL (N.of_nat (length B)) cf));
    auto using a128_64_enc, mac_plus_ok, cs12_ne.
  - exact (locs_any mm).
  - now apply dec_prefix with (B := B).
Qed.

(* ---------- associated data of 2^32 bytes ---------- *)

Lemma ul_dec_accepts UL cf mm m mlen c ad npub k K Nn A B T : UL <= 64 -> strict cf = false -> bytes T ->
  N.of_nat (length A) < 2 ^ UL -> N.of_nat (length B) mod 2 ^ UL = 0 -> N.of_nat (length T) < 2 ^ UL ->
  dec_valid cf cs128 mm m mlen c ad npub k K Nn (A ++ B) (Spec.isap_encrypt Spec.ISAP_A_128 K Nn A T) ->
  runs (a_dec (impl_a128_64 UL cf) m mlen c (N.of_nat (length T + 16)) ad (N.of_nat (length (A ++ B))) npub k) mm 0%Z
       (putp (putp mm mlen (word_le 8 (N.of_nat (length T)))) m T).
Proof.
  intros HU Hs BT LA LB LT V. pose proof (dec_prefix _ _ _ _ _ _ _ _ _ _ _ _ _ _ V) as V'.
  destruct V' as [Vc [[Bk Hk] Lk] [[Bn Hn] Ln] [[Ba Ha] La] _ _ _ _ _ _].
  set (Y := Spec.isap_encrypt Spec.ISAP_A_128 K Nn A T) in *.
  assert (LY : length Y = (length T + 16)%nat).
  { now apply (v_encrypt_length A128). }
  assert (ED : Spec.isap_decrypt Spec.ISAP_A_128 K Nn A Y = Some T) by now apply (v_decrypt_encrypt A128).
  assert (LT' : N.of_nat (length Y) - 16 < 2 ^ UL) by (rewrite LY; lia).
  pose proof (ul_dec_wrap UL cf mm m mlen c ad npub k K Nn A B Y HU Hs V LA LB LT') as R.
  cbv zeta in R. rewrite ED, LY in R. replace (N.of_nat (length T + 16) - 16) with (N.of_nat (length T)) in R by lia. exact R.
Qed.

(* 2^32 bytes; the number is opaque so that it is never evaluated. *)
Lemma big : {n : nat | N.of_nat n = 2 ^ 32}.
Proof. exists (N.to_nat (2 ^ 32)). apply N2Nat.id. Qed.
Definition many (v : N) : list N := repeat v (proj1_sig big).
Lemma many_length v : N.of_nat (length (many v)) = 2 ^ 32.
Proof. unfold many. rewrite repeat_length. exact (proj2_sig big). Qed.
Lemma many_bytes v : v < 256 -> bytes (many v).
Proof. intros. now apply bytes_repeat. Qed.

Lemma ex_many_dec A T v : v < 256 -> bytes A -> N.of_nat (length A) < 2 ^ 32 -> bytes T -> N.of_nat (length T) < 2 ^ 32 ->
  let Y := Spec.isap_encrypt Spec.ISAP_A_128 ex_K ex_N A T in
  dec_valid lax_cf cs128 (ex_mem cs128 ex_K ex_N (A ++ many v) Y (length Y - 16)) (ex_ptr cs128 4) (ex_ptr cs128 5)
    (ex_ptr cs128 3) (ex_ptr cs128 2) (ex_ptr cs128 1) (ex_ptr cs128 0) ex_K ex_N (A ++ many v) Y.
Proof.
  intros Hv BA LA BT LT Y.
  assert (LY : length Y = (length T + 16)%nat).
  { apply (v_encrypt_length A128); auto using ex_bytes_K, ex_bytes_N. }
  apply (ex_dec_valid lax_cf cs128 ex_K ex_N (A ++ many v) Y); auto using ex_bytes_K, ex_bytes_N.
  - apply bytes_app. split; auto. now apply many_bytes.
  - rewrite app_length, Nat2N.inj_add, many_length. change (2 ^ 64) with (2 ^ 32 * 2 ^ 32). lia.
  - unfold Y. change Spec.ISAP_A_128 with (v_inst A128). apply v_encrypt_bytes; auto using ex_bytes_K, ex_bytes_N.
  - rewrite LY. change (2 ^ 64) with (2 ^ 32 * 2 ^ 32). lia.
  - lia.
Qed.

(* All of the associated data is absorbed: the blocks absorbed determine it. *)
Lemma a128_64_blocks : exists blocks : list N -> list (list N),
  (forall X Y, blocks X = blocks Y -> X = Y) /\
  (forall X, blocks X <> [] /\ Forall (fun b => length b = 8%nat) (blocks X)) /\
  forall cf mm c clen m ad npub k K Nn A T, strict cf = false -> enc_valid cf cs128 mm c clen m ad npub k K Nn A T ->
    let I := Spec.ISAP_A_128 in
    let absorb s X := fold_left (fun s b => ascon_p 12 (Spec.xorp s b)) (blocks X) s in
    let ct := Spec.isap_enc I K Nn T in
    let s := absorb (Spec.dom_sep I (absorb (ascon_p 12 (Spec.zpad I (Nn ++ Spec.iv_A I))) A)) ct in
    let tag := firstn 16 (ascon_p 12 (Spec.isap_rk I K (Spec.iv_KA I) (firstn 16 s) 16 ++ skipn 16 s)) in
    runs (a_enc (impl_a128_64 64 cf) c clen m (N.of_nat (length T)) ad (N.of_nat (length A)) npub k) mm 0%Z
         (putp (putp mm clen (word_le 8 (N.of_nat (length T) + 16))) c (ct ++ tag)).
Proof.
  exists (fun X => chunks 8 (Spec.pad 8 X)). split; [|split].
  - intros X Y H. apply (pad_inj 8). apply (chunks_inj 8) in H; auto; lia.
  - intros X. rewrite pad_chunks. split; [destruct (chunks 8 (firstn (8 * (length X / 8)) X)); discriminate|].
    apply Forall_app. split.
    + apply (chunks_length_mult 8 (length X / 8)); [lia|]. rewrite firstn_length. lia.
    + repeat constructor. rewrite app_length. cbn [length]. rewrite repeat_length, skipn_length. lia.
  - intros cf mm c clen m ad npub k K Nn A T Hs V.
    exact (io_enc _ _ _ _ _ (a128_64_correct cf Hs) mm c clen m ad npub k K Nn A T (locs_any mm) V).
Qed.

Lemma a128_all_correct cf X : In X [impl_a128_64 64 cf; impl_a128_32 cf; impl_a128_67 cf] -> strict cf = false ->
  impl_ok Spec.ISAP_A_128 cf cs128 no_cond X.
Proof.
  intros H Hs. cbn [In] in H. destruct H as [<-|[<-|[<-|[]]]];
    [now apply a128_64_correct|now apply a128_32_correct|now apply a128_67_correct].
Qed.

Lemma ul32_forgery : exists cf K Nn A A' T mm c clen m ad npub k dmm dm dmlen dc dad dnpub dk m1 m2 ct,
  strict cf = false /\ A <> A' /\
  enc_valid cf cs128 mm c clen m ad npub k K Nn A T /\
  runs (a_enc (impl_a128_64 32 cf) c clen m (N.of_nat (length T)) ad (N.of_nat (length A)) npub k) mm 0%Z m1 /\ has m1 c ct /\
  dec_valid cf cs128 dmm dm dmlen dc dad dnpub dk K Nn A' ct /\
  runs (a_dec (impl_a128_64 32 cf) dm dmlen dc (N.of_nat (length ct)) dad (N.of_nat (length A')) dnpub dk) dmm 0%Z m2.
Proof.
  assert (V : enc_valid lax_cf cs128 (ex_mem cs128 ex_K ex_N ex_A ex_T (length ex_T + 16)) (ex_ptr cs128 4) (ex_ptr cs128 5)
    (ex_ptr cs128 3) (ex_ptr cs128 2) (ex_ptr cs128 1) (ex_ptr cs128 0) ex_K ex_N ex_A ex_T).
  { apply (ex_enc_valid lax_cf cs128 ex_K ex_N ex_A ex_T); auto using ex_bytes_K, ex_bytes_N, ex_bytes_A, ex_bytes_T; reflexivity. }
  assert (LA : N.of_nat (length ex_A) < 2 ^ 32) by reflexivity.
  assert (LT : N.of_nat (length ex_T) < 2 ^ 32) by reflexivity.
  set (ct := Spec.isap_encrypt Spec.ISAP_A_128 ex_K ex_N ex_A ex_T).
  assert (Lct : length ct = (length ex_T + 16)%nat)
    by (apply (v_encrypt_length A128); auto using ex_bytes_K, ex_bytes_N, ex_bytes_A, ex_bytes_T).
  assert (LE : 32 <= 64) by lia.
  pose proof (ul_enc 32 lax_cf _ _ _ _ _ _ _ _ _ _ _ LE eq_refl V LA LT) as R1. fold ct in R1.
  pose proof (ex_many_dec ex_A ex_T 0 ltac:(lia) ex_bytes_A LA ex_bytes_T LT) as D. cbv zeta in D. fold ct in D.
  assert (LB : N.of_nat (length (many 0)) mod 2 ^ 32 = 0) by (rewrite many_length; now apply N.mod_same).
  pose proof (ul_dec_accepts 32 lax_cf _ _ _ _ _ _ _ _ _ _ _ _ LE eq_refl ex_bytes_T LA LB LT D) as R2.
  rewrite <- Lct in R2.
  exists lax_cf. do 22 eexists. split; [reflexivity|]. split; [|split; [exact V|split; [exact R1|split; [|split; [exact D|exact R2]]]]].
  - intros E. apply (f_equal (@length N)) in E. rewrite app_length in E.
    assert (H : N.of_nat (length (many 0)) = 0) by lia. rewrite many_length in H. discriminate.
  - apply has_putp_same. rewrite Lct. destruct V as [_ _ _ _ _ [Rc _] [Rl _] _ _ _].
    apply room_putp; [now rewrite word_le_length|exact Rc].
Qed.
