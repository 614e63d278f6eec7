(* isapa128v20/opt_64, text longer than an unsigned long can count and not made of complete blocks: the last bytes are not encrypted. Proofs only. *)
From Verif Require Import Base Prog SpecPerm Words Mem Vocab Vocab2 VocabK MemProof RefLib Sponge RefProof RefAead SpecFacts.
From Verif Require Import Api ApiProof ExtProof ExLib OptPerm OptRep OptPermProof OptIsap OptLanes OptProof OptImpl OptEx.
From Verif Require Import A128Perm A128PermProof A128 A128Proof A128Impl LenWrap ApiProps Table TableProof.
From Verif Require Spec RefIsap ApiCode.
Open Scope N_scope.
Open Scope cm_scope.

(* Initialised bytes stay initialised bytes. *)
Lemma has_some m p n : (forall i, (i < n)%nat -> exists b, b < 256 /\ rd1 m (padd p (N.of_nat i)) = Some b) ->
  exists X, length X = n /\ bytes_at m p X.
Proof.
  induction n as [|n IH]; intros H.
  - exists []. repeat split; auto. + constructor. + intros i Hi. cbn [length] in Hi. lia.
  - destruct IH as (X & LX & BX & HX); [intros i Hi; apply H; lia|].
    destruct (H n) as (b & Hb & Rb); [lia|]. exists (X ++ [b]). rewrite app_length. cbn [length]. split; [lia|]. split.
    + apply bytes_app. split; auto. repeat constructor; auto.
    + intros i Hi. rewrite app_length in Hi. cbn [length] in Hi. destruct (Nat.ltb_spec i n).
      * rewrite app_nth1 by lia. apply HX. lia.
      * assert (i = n) as -> by lia. rewrite app_nth2 by lia. rewrite LX, Nat.sub_diag. exact Rb.
Qed.
Lemma bytes_after m c bs p X : room m c (length bs) -> bytes bs -> bytes_at m p X -> exists X', length X' = length X /\ bytes_at (putp m c bs) p X'.
Proof.
  intros R B [BX HX]. apply has_some. intros i Hi. rewrite rd1_putp by auto.
  destruct (within c (length bs) (padd p (N.of_nat i))) eqn:E.
  - eexists. split; [|reflexivity]. apply within_inv in E as (j & Hj & <-). cbn [padd po].
    replace (po c + N.of_nat j - po c) with (N.of_nat j) by lia. rewrite Nat2N.id. now apply bytes_nth.
  - exists (nth i X 0). split; [now apply bytes_nth|]. apply HX. lia.
Qed.

Lemma enc64_tail UL cf mm k npub mp c K Nn T : 3 <= UL <= 64 -> strict cf = false -> consts_ok cs12 mm ->
  bytes_at mm k K -> length K = 16%nat -> bytes_at mm npub Nn -> length Nn = 16%nat -> bytes_at mm mp T ->
  2 ^ UL <= N.of_nat (length T) -> N.of_nat (length T) < 8 * 2 ^ UL -> N.of_nat (length T) < 2 ^ 64 -> (length T mod 8 <> 0)%nat ->
  room mm c (length T) -> fwd_ok c mp (length T) ->
  let n := (8 * (length T / 8))%nat in
  exists mF, runs (isap_enc_64 a128_64 UL cf k npub mp (N.of_nat (length T)) c) mm tt mF /\ length mF = length mm /\
    (forall p, within c n p = false -> cellp mF p = cellp mm p) /\ (forall p j, room mm p j -> room mF p j) /\
    exists C, length C = n /\ bytes_at mF c C.
Proof.
  intros HU Hs Hc Hk LK Hn LN HT GT LT8 L64 H8 Rc Hf n.
  assert (P8 : 2 ^ UL = 8 * 2 ^ (UL - 3)).
  { change 8 with (2 ^ 3). rewrite <- N.pow_add_r. f_equal. lia. }
  assert (P1 : 1 <= 2 ^ (UL - 3)) by (assert (2 ^ (UL - 3) <> 0) by (apply N.pow_nonzero; lia); lia).
  assert (HT0 : (0 < length T)%nat) by lia.
  destruct (enc64_upto f_id a128_64 rounds12 cf UL a128_64_ok in12 (cal_lax cf Hs) Hs ltac:(lia) mm k npub mp c K Nn T Hc Hk LK Hn LN HT LT8 L64 HT0 Rc Hf)
    as (blk1 & U).
  destruct Hk as [BK Hk], Hn as [BN Hn], HT as [BT HT].
  assert (Eq : ((length T - 1) / 8 = length T / 8)%nat) by lia. rewrite Eq in U. fold n in U.
  set (q := (length T / 8)%nat) in *. set (e := (length T - n)%nat).
  assert (Eqn : (8 * q)%nat = n) by reflexivity. assert (Ee : (0 < e < 8)%nat) by (unfold e, n, q; lia). assert (En : (length T = n + e)%nat) by (unfold e, n, q; lia).
  set (ct := Spec.isap_enc (v_inst A128) K Nn T) in *.
  assert (Lct : length ct = length T) by now apply (v_enc_length A128).
  assert (Bct : bytes ct) by now apply (v_enc_bytes A128).
  set (s := stf f_id _) in U. clearbody s.
  set (w := ul UL (N.of_nat q * 8)).
  (* w is a multiple of 8 below the end of the complete blocks *)
  assert (Hw : exists w8, w = 8 * w8 /\ w + 8 <= N.of_nat n /\ w + 8 <= 2 ^ UL).
  { unfold w, ul. rewrite P8, (N.mul_comm (N.of_nat q)), N.mul_mod_distr_l by lia. exists (N.of_nat q mod 2 ^ (UL - 3)). split; [reflexivity|].
    pose proof (N.mod_lt (N.of_nat q) (2 ^ (UL - 3)) ltac:(lia)) as M1.
    pose proof (N.div_mod (N.of_nat q) (2 ^ (UL - 3)) ltac:(lia)) as M2.
    assert (Q : 2 ^ (UL - 3) <= N.of_nat q) by lia.
    assert (D : 1 <= N.of_nat q / 2 ^ (UL - 3)) by (apply N.div_le_lower_bound; lia).
    assert (M3 : 2 ^ (UL - 3) * 1 <= 2 ^ (UL - 3) * (N.of_nat q / 2 ^ (UL - 3))) by (apply N.mul_le_mono_l; exact D). lia. }
  destruct Hw as (w8 & Ew & Hw1 & Hw2).
  set (wn := N.to_nat w). assert (Ewn : N.of_nat wn = w) by (unfold wn; apply N2Nat.id).
  set (M1 := mm ++ [blk1]) in *.
  assert (Rc1 : room M1 c (length T)) by now apply room_app.
  assert (R1 : room M1 c (length (firstn n ct))) by (intros i Hi; rewrite firstn_length in Hi; first [apply Rc1|apply Rc]; lia).
  set (M2 := putp M1 c (firstn n ct)).
  assert (HT1 : bytes_at M1 (padd mp w) (firstn e (skipn wn T))).
  { split; [now apply bytes_firstn, bytes_skipn|]. rewrite <- Ewn. apply has_firstn, has_skipn. now apply has_app. }
  destruct (bytes_after M1 c (firstn n ct) _ _ R1 (bytes_firstn _ _ Bct) HT1) as (X & LX & BX & HX). fold M2 in HX.
  rewrite firstn_length, skipn_length in LX.
  assert (LX' : length X = e) by lia. clear LX.
  set (lane := word_le 8 (WORDTOU64 a128_64 (getx s 0))).
  set (Z := fun j => map (fun i => N.lxor (nth i lane 0) (nth i X 0)) (seq 0 j)).
  assert (LZ : forall j, length (Z j) = j) by (intros; unfold Z; now rewrite map_length, seq_length).
  assert (R2 : room M2 (padd c w) e).
  { apply room_putp; auto. rewrite <- Ewn. apply (room_sub M1 c (length T)); auto. lia. }
  set (mF := putp (putp mm c (firstn n ct)) (padd c w) (Z e)).
  assert (Rm : room mm c (length (firstn n ct))) by (intros i Hi; rewrite firstn_length in Hi; first [apply Rc1|apply Rc]; lia).
  assert (Rm2 : room (putp mm c (firstn n ct)) (padd c w) (length (Z e))).
  { apply room_putp; auto. rewrite <- Ewn, LZ. apply (room_sub mm c (length T)); auto. lia. }
  assert (EF : putp M2 (padd c w) (Z e) = mF ++ [blk1]).
  { unfold M2, M1. rewrite putp_app by exact Rm. now apply putp_app. }
  exists mF. split.
  - apply U. fold M2. unfold enc_last_64. apply runs_if.
    replace (N.of_nat (length T - n) =? 8) with false by (symmetry; apply N.eqb_neq; unfold e in Ee; lia).
    fold w. eapply runs_bind; [|eapply runs_eq; [apply runs_ret|reflexivity|exact EF]].
    apply (runs_for (fun j => w + N.of_nat j) (fun j => putp M2 (padd c w) (Z j))) with (a1 := w + N.of_nat e).
    + rewrite Nat2N.id. fold e. intros j Hj.
      eapply runs_bind.
      { apply runs_load. rewrite <- padd_padd. 
        assert (HX' : has (putp M2 (padd c w) (Z j)) (padd (padd mp w) (N.of_nat j)) (firstn 1 (skipn j X))).
        { apply has_putp_disj.
          - intros i Hi. apply R2. rewrite LZ in Hi. lia.
          - apply has_firstn, has_skipn. exact HX.
          - intros i i' Hi Hi'. rewrite LZ in Hi. rewrite firstn_length, skipn_length in Hi'. rewrite !padd_padd, <- !Ewn, <- !Nat2N.inj_add. apply Hf. lia. }
        specialize (HX' 0%nat). rewrite firstn_length, skipn_length, padd_0 in HX'. rewrite HX' by lia. rewrite nth_firstn_lt, nth_skipn_add, Nat.add_0_r by lia. reflexivity. }
      eapply runs_bind.
      { apply runs_store1. rewrite inside_putp by (intros i Hi; apply R2; rewrite LZ in Hi; lia). rewrite <- padd_padd. apply R2. lia. }
      eapply runs_eq; [apply runs_ret| |].
      * rewrite ul_small by lia. lia.
      * rewrite Nat2N.id. unfold Z at 2. rewrite seq_S, map_app. fold (Z j). cbn [map].
        rewrite <- putp_app_bytes.
        -- rewrite LZ. rewrite padd_padd. f_equal. f_equal. unfold lane. rewrite nth_word_le by lia. reflexivity.
        -- intros i Hi. apply R2. rewrite app_length, LZ in Hi. cbn [length] in Hi. lia.
    + now rewrite N.add_0_r.
    + change (Z 0%nat) with (@nil N). apply putp_nil.
    + rewrite Nat2N.id. reflexivity.
    + rewrite Nat2N.id. reflexivity.
  - assert (BZ : bytes (Z e)).
    { unfold Z. apply Forall_forall. intros x Hx. apply in_map_iff in Hx as (i & <- & Hi). apply lxor_byte; apply bytes_nth; auto. apply bytes_word_le. }
    split; [unfold mF; now rewrite !putp_length|]. split; [|split].
    + intros p Hp. unfold mF. rewrite cellp_putp_out.
      * apply cellp_putp_out; auto. now replace (length (firstn n ct)) with n by (rewrite firstn_length; lia).
      * exact Rm2.
      * destruct (within (padd c w) (length (Z e)) p) eqn:E; auto. apply within_inv in E as (j & Hj & <-). rewrite LZ in Hj.
        rewrite padd_padd, <- Ewn, <- Nat2N.inj_add, within_padd in Hp by lia. discriminate.
    + intros p j Hj. unfold mF. apply room_putp; auto. now apply room_putp.
    + assert (B1 : bytes_at (putp mm c (firstn n ct)) c (firstn n ct)) by (split; [now apply bytes_firstn|now apply has_putp_same]).
      destruct (bytes_after _ (padd c w) (Z e) c _ Rm2 BZ B1) as (C & LC & HC). exists C. split; [|exact HC].
      rewrite LC, firstn_length. lia.
Qed.

Lemma nth_error_ext {A} (x y : list A) : (forall i, nth_error x i = nth_error y i) -> x = y.
Proof.
  revert y. induction x as [|a x IH]; intros [|b y] H; auto; try (specialize (H 0%nat); discriminate).
  pose proof (H 0%nat) as H0. injection H0 as ->. f_equal. apply IH. intros i. exact (H (S i)).
Qed.

(* The last bytes of the ciphertext buffer keep the contents they had before the call. *)
Lemma a64_enc_tail UL cf mm c clen m ad npub k K Nn A T : 3 <= UL <= 64 -> strict cf = false ->
  enc_valid cf cs128 mm c clen m ad npub k K Nn A T ->
  2 ^ UL <= N.of_nat (length T) -> N.of_nat (length T) < 8 * 2 ^ UL -> (length T mod 8 <> 0)%nat ->
  exists m1, runs (a_enc (impl_a128_64 UL cf) c clen m (N.of_nat (length T)) ad (N.of_nat (length A)) npub k) mm 0%Z m1 /\
    forall i, (8 * (length T / 8) <= i < length T)%nat -> cellp m1 (padd c (N.of_nat i)) = cellp mm (padd c (N.of_nat i)).
Proof.
  intros HU Hs V GT LT8 H8.
  assert (P0 : 2 ^ UL <> 0) by (apply N.pow_nonzero; lia).
  assert (P8 : 8 <= 2 ^ UL) by (change 8 with (2 ^ 3) at 1; apply N.pow_le_mono_r; lia).
  destruct V as [Vc [[Bk Hk] Lk] [[Bn Hn] Ln] [[Ba Ha] La] [[Bt Ht] Lt] [Rc Pc] [Rl [Pl Al]]
      (D1 & D2 & D3 & D4 & D5) (D6 & D7 & D8) Hf].
  cbn [impl_a128_64 a_enc api_aead]. unfold ApiCode.crypto_aead_encrypt, RefIsap.ISAP_TAG_SZ. rewrite u64_small by lia.
  set (m1 := putp mm clen (word_le 8 (N.of_nat (length T) + 16))).
  assert (Hl8 : room mm clen (length (word_le 8 (N.of_nat (length T) + 16)))) by now rewrite word_le_length.
  assert (F1 : forall q bs, has mm q bs -> disj clen 8 q (length bs) -> has m1 q bs).
  { intros q bs H1 H2. apply has_putp_disj; rewrite ?word_le_length; auto. }
  assert (R1 : forall q n, room mm q n -> room m1 q n) by (intros; now apply room_putp).
  assert (C1 : consts_ok cs12 m1) by now apply consts_putp.
  assert (Rc1 : room m1 c (length T)) by (apply R1; intros i Hi; apply Rc; lia).
  destruct (enc64_tail UL cf m1 k npub m c K Nn T) as (m2 & E2 & L2 & U2 & Rm2 & C & LC & BC & HC); auto; try lia.
  { split; auto. apply F1; auto. now rewrite Lk. }
  { split; auto. apply F1; auto. now rewrite Ln. }
  { split; auto. }
  set (n := (8 * (length T / 8))%nat) in *.
  assert (Keep : forall q bs, has m1 q bs -> disj c (length T + 16) q (length bs) -> has m2 q bs).
  { intros q bs H1 H2 i Hi. rewrite rd1_cell, U2, <- rd1_cell; [now apply H1|].
    destruct (within c n (padd q (N.of_nat i))) eqn:E; auto. apply within_inv in E as (j & Hj & E).
    exfalso. revert E. apply H2; auto. unfold n in Hj. lia. }
  set (C' := firstn (N.to_nat (N.of_nat (length T) mod 2 ^ UL)) C).
  assert (LC' : ul UL (N.of_nat (length T)) = N.of_nat (length C')).
  { unfold ul, C'. rewrite firstn_length, LC.
    pose proof (N.mod_lt (N.of_nat (length T)) (2 ^ UL) P0) as M1.
    pose proof (N.div_mod (N.of_nat (length T)) (2 ^ UL) P0) as M2.
    assert (D : 1 <= N.of_nat (length T) / 2 ^ UL) by (apply N.div_le_lower_bound; lia).
    assert (M3 : 2 ^ UL * 1 <= 2 ^ UL * (N.of_nat (length T) / 2 ^ UL)) by (apply N.mul_le_mono_l; exact D). unfold n. lia. }
  assert (Pos : (length cs12 <= pb c)%nat) by exact Pc.
  assert (HA2 : has m2 ad A) by (apply Keep; auto).
  destruct (a128_64_len UL cf ltac:(lia) Hs) as [_ Hm].
  set (m3 := putp m2 (padd c (N.of_nat (length T))) (Spec.isap_mac (v_inst A128) K Nn (tr UL A) C')).
  assert (Rt : room m2 (padd c (N.of_nat (length T))) 16).
  { apply Rm2. apply (room_sub m1 c (length T + 16)); [now apply R1|lia]. }
  exists m3. split.
  - eapply runs_bind; [apply runs_store_ull; auto|]. fold m1.
    apply (runs_bind _ _ _ tt m2).
    { apply runs_if. replace (0 <? N.of_nat (length T)) with true by (symmetry; apply N.ltb_lt; lia). exact E2. }
    eapply runs_bind; [|apply runs_ret].
    apply (Hm m2 k npub ad (N.of_nat (length A)) c (N.of_nat (length T)) (padd c (N.of_nat (length T))) K Nn (tr UL A) C').
    + intros i Hi. specialize (C1 i Hi). rewrite <- C1. apply nth_error_ext. intros o.
      assert (Hb : within c n (P i (N.of_nat o)) = false).
      { apply within_false_lt. left. cbn [pb]. apply Nat.lt_neq. apply Nat.lt_le_trans with (length cs12); auto. }
      specialize (U2 _ Hb). unfold cellp in U2. cbn [pb po] in U2. now rewrite Nat2N.id in U2.
    + split; auto. apply Keep; [apply F1; auto|]; now rewrite Lk.
    + auto.
    + split; auto. apply Keep; [apply F1; auto|]; now rewrite Ln.
    + auto.
    + split; [now apply tr_bytes|now apply has_firstn].
    + split; [now apply bytes_firstn|now apply has_firstn].
    + rewrite tr_length. reflexivity.
    + exact LC'.
    + exact Rt.
  - destruct (v_mac A128 K Nn (tr UL A) C') as [_ Lm]; auto using tr_bytes. { now apply bytes_firstn. }
    intros i Hi. unfold m3. rewrite cellp_putp_out.
    + rewrite U2.
      * unfold m1. apply cellp_putp_out; auto. apply (disj_not_within _ _ c (length T + 16)); [|lia]. rewrite word_le_length. exact D5.
      * apply within_false_lt. right. right. unfold padd. cbn [po]. lia.
    + now rewrite Lm.
    + apply within_false_lt. right. left. unfold padd. cbn [po]. lia.
Qed.

(* Encrypting a text in place leaves its last bytes in the ciphertext. *)
Lemma a64_enc_clear UL cf mm p clen ad npub k K Nn A T : 3 <= UL <= 64 -> strict cf = false ->
  enc_valid cf cs128 mm p clen p ad npub k K Nn A T ->
  2 ^ UL <= N.of_nat (length T) -> N.of_nat (length T) < 8 * 2 ^ UL -> (length T mod 8 <> 0)%nat ->
  exists m1, runs (a_enc (impl_a128_64 UL cf) p clen p (N.of_nat (length T)) ad (N.of_nat (length A)) npub k) mm 0%Z m1 /\
    let n := (8 * (length T / 8))%nat in has m1 (padd p (N.of_nat n)) (skipn n T) /\ skipn n T <> [].
Proof.
  intros HU Hs V G1 G2 G3. destruct (a64_enc_tail UL cf mm p clen p ad npub k K Nn A T HU Hs V G1 G2 G3) as (m1 & R & E).
  exists m1. split; [exact R|]. cbv zeta. set (n := (8 * (length T / 8))%nat) in *. split.
  - destruct (proj1 (ev_msg _ _ _ _ _ _ _ _ _ _ _ _ _ V)) as [_ HT].
    intros i Hi. rewrite skipn_length in Hi. rewrite padd_padd, <- Nat2N.inj_add, rd1_cell, E, <- rd1_cell by lia.
    rewrite nth_skipn_add. apply HT. lia.
  - intros H. apply (f_equal (@length N)) in H. rewrite skipn_length in H. cbn [length] in H. unfold n in H. lia.
Qed.

Lemma many_tail : length (many 0 ++ [77]) = (length (many 0) + 1)%nat /\ (length (many 0) mod 8 = 0)%nat.
Proof.
  split; [now rewrite app_length|]. pose proof (many_length 0) as H. change (2 ^ 32) with (8 * 536870912) in H. lia.
Qed.

Lemma a64_clear_witness : exists cf K Nn A T mm p clen ad npub k m1 x,
  strict cf = false /\ enc_valid cf cs128 mm p clen p ad npub k K Nn A (T ++ [x]) /\
  runs (a_enc (impl_a128_64 32 cf) p clen p (N.of_nat (length (T ++ [x]))) ad (N.of_nat (length A)) npub k) mm 0%Z m1 /\
  rd1 m1 (padd p (N.of_nat (length T))) = Some x.
Proof.
  set (T := many 0 ++ [77]). destruct many_tail as [L1 L2]. fold T in L1. pose proof (many_length 0) as LM.
  assert (BT : bytes T). { apply bytes_app. split; [now apply many_bytes|repeat constructor]. }
  assert (V : enc_valid lax_cf cs128 (ex_mem_inplace cs128 ex_K ex_N ex_A T) (ex_ptr cs128 3) (ex_ptr cs128 5) (ex_ptr cs128 3) (ex_ptr cs128 2)
            (ex_ptr cs128 1) (ex_ptr cs128 0) ex_K ex_N ex_A T).
  { apply ex_inplace_valid; auto using ex_bytes_K, ex_bytes_N, ex_bytes_A; try reflexivity. rewrite L1, Nat2N.inj_add, LM. reflexivity. }
  assert (En : (8 * (length T / 8) = length (many 0))%nat) by lia.
  destruct (a64_enc_clear 32 lax_cf _ _ _ _ _ _ _ _ _ _ ltac:(lia) eq_refl V) as (m1 & R & H & _).
  - rewrite L1, Nat2N.inj_add, LM. discriminate.
  - rewrite L1, Nat2N.inj_add, LM. reflexivity.
  - lia.
  - exists lax_cf, ex_K, ex_N, ex_A, (many 0). do 6 eexists. exists m1, 77. split; [reflexivity|]. split; [exact V|]. split; [exact R|].
    rewrite En in H. assert (ET : skipn (length (many 0)) T = [77]).
    { unfold T. rewrite skipn_app, Nat.sub_diag, skipn_all. reflexivity. }
    rewrite ET in H. specialize (H 0%nat ltac:(cbn [length]; lia)). rewrite padd_0 in H. exact H.
Qed.

Lemma long_text_ex : enc_len 32 (length (many 7)) /\ tr 32 (many 7) = [] /\ many 7 <> [].
Proof.
  pose proof (many_length 7) as L. split; [|split].
  - right. rewrite L. split; [|split; reflexivity]. change (2 ^ 32) with (8 * 536870912) in L. lia.
  - unfold tr. rewrite L. reflexivity.
  - intros E. rewrite E in L. discriminate.
Qed.

Lemma inserted_bytes v cf cs ex X mm m mlen c ad npub k K Nn A C B t : impl_of v cf cs ex X ->
  ex mm k npub ad (length A) c m (length ((C ++ B) ++ t) - 16)%nat ->
  length t = 16%nat -> dec_valid cf cs mm m mlen c ad npub k K Nn A ((C ++ B) ++ t) -> t = Spec.isap_mac (v_inst v) K Nn A C ->
  exists r m1, runs (a_dec X m mlen c (N.of_nat (length ((C ++ B) ++ t))) ad (N.of_nat (length A)) npub k) mm r m1 /\
    (r = 0%Z \/ r = (-1)%Z) /\ (r = 0%Z <-> Spec.isap_mac (v_inst v) K Nn A C = Spec.isap_mac (v_inst v) K Nn A (C ++ B)).
Proof.
  intros HX He Lt V Et.
  destruct (p_decrypts v cf cs ex X (impl_of_ok v cf cs ex X HX) mm m mlen c ad npub k K Nn A (C ++ B) t He Lt V) as (r & m1 & R & H1 & H2 & _).
  exists r, m1. split; [exact R|]. split; [exact H1|]. rewrite H2, <- Et. reflexivity.
Qed.

Lemma a64_writes_all cf mm c clen m ad npub k K Nn A T : strict cf = false -> enc_valid cf cs128 mm c clen m ad npub k K Nn A T ->
  exists m1, runs (a_enc (impl_a128_64 64 cf) c clen m (N.of_nat (length T)) ad (N.of_nat (length A)) npub k) mm 0%Z m1 /\
    has m1 c (Spec.isap_enc Spec.ISAP_A_128 K Nn T) /\ length (Spec.isap_enc Spec.ISAP_A_128 K Nn T) = length T.
Proof.
  intros Hs V.
  destruct (p_encrypts A128 cf cs128 any_call (impl_a128_64 64 cf) (impl_of_ok _ _ _ _ _ (io_a64 cf Hs)) mm c clen m ad npub k K Nn A T Logic.I V)
    as (m1 & R & H & _).
  exists m1. split; [exact R|]. split.
  - change (v_inst A128) with Spec.ISAP_A_128 in H. rewrite encrypt_split in H. now apply has_prefix in H.
  - destruct V as [_ [[Bk Hk] Lk] [[Bn Hn] Ln] _ _ _ _ _ _ _]. now apply (v_enc_length A128).
Qed.
