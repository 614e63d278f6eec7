(* crypto_aead_encrypt and crypto_aead_decrypt of the reference implementation compute ISAP. Proofs only,
   apart from the packaging of the four builds. *)
From Verif Require Import Base Prog SpecPerm Words RefPerm AsconProof KeccakProof Mem Vocab MemProof RefLib.
From Verif Require Spec RefIsap.
From Verif Require Import Sponge RefProof.
Import Spec(inst, i_sz, i_rate, i_sH, i_sB, i_sE, i_sK, i_perm).
Import RefIsap(plib, macros).
Open Scope N_scope.
Open Scope cm_scope.

Lemma disj_sub p n q k n' k' : disj p n q k -> (n' <= n)%nat -> (k' <= k)%nat -> disj p n' q k'.
Proof. intros H H1 H2 i j Hi Hj. apply H; lia. Qed.

Lemma consts_has cs m i : consts_ok cs m -> (i < length cs)%nat -> has m (P i 0) (nth i cs []).
Proof. intros H Hi. apply has_blk0. now apply H. Qed.

Lemma consts_putp cs m p bs : consts_ok cs m -> (length cs <= pb p)%nat -> consts_ok cs (putp m p bs).
Proof. intros H Hp i Hi. rewrite blk_putp_other by lia. now apply H. Qed.

Lemma consts_app cs m l : consts_ok cs m -> (forall i, (i < length cs)%nat -> nth i cs [] <> []) -> consts_ok cs (m ++ l).
Proof.
  intros H Hn i Hi. rewrite blk_app1; [now apply H|]. apply blk_nonempty. rewrite H by auto.
  intros E. apply (Hn i Hi). now destruct (nth i cs []).
Qed.

Lemma runs_if_skip (b : bool) (x : M unit) m m' :
  (b = true -> runs x m tt m') -> (b = false -> m = m') -> runs (if_ b x (ret tt)) m tt m'.
Proof. intros H1 H2. apply runs_if. destruct b; auto. rewrite H2 by auto. apply runs_ret. Qed.

Lemma runs_store_ull cf p v m : room m p 8 -> aligned cf p 8 = true -> runs (RefIsap.store_ull cf p v) m tt (putp m p (word_le 8 v)).
Proof. intros H1 H2. apply runs_storen; now rewrite word_le_length. Qed.

Lemma runs_load_ull cf p v m : has m p (word_le 8 v) -> aligned cf p 8 = true -> v < 2 ^ 64 -> runs (RefIsap.load_ull cf p) m v m.
Proof.
  intros H1 H2 Hv. unfold RefIsap.load_ull. eapply runs_bind.
  - pose proof (runs_loadn cf (word_le 8 v) p m H1) as R. rewrite word_le_length in R. apply R. exact H2.
  - eapply runs_eq; [apply runs_ret| |reflexivity]. now apply le_word_word_le.
Qed.

(* Number of equal positions among the first k. *)
Fixpoint eqs (k : nat) (a b : list N) : N :=
  match k with O => 0 | S k' => eqs k' a b + (if nth k' a 0 =? nth k' b 0 then 1 else 0) end.

Lemma eqs_le k a b : eqs k a b <= N.of_nat k.
Proof. induction k as [|k IH]; cbn [eqs]; [lia|]. destruct (nth k a 0 =? nth k b 0); lia. Qed.

Lemma eqs_full k a b : eqs k a b = N.of_nat k <-> forall i, (i < k)%nat -> nth i a 0 = nth i b 0.
Proof.
  induction k as [|k IH]; cbn [eqs]; [split; [lia|reflexivity]|].
  pose proof (eqs_le k a b). destruct (N.eqb_spec (nth k a 0) (nth k b 0)) as [E|E].
  - split.
    + intros Hk i Hi. destruct (Nat.eq_dec i k) as [->|]; auto. apply IH; lia.
    + intros Ha. assert (eqs k a b = N.of_nat k) by (apply IH; intros; apply Ha; lia). lia.
  - split; [lia|]. intros Ha. exfalso. apply E, Ha. lia.
Qed.

Lemma eqs_eq a b n : length a = n -> length b = n -> (eqs n a b = N.of_nat n <-> a = b).
Proof.
  intros Ha Hb. rewrite eqs_full. split; [|now intros ->].
  intros H. apply (nth_ext_le _ _ 0); [lia|]. intros i Hi. apply H. lia.
Qed.

Definition ref_aead (L : plib) (mc : macros) (cf : cfg) : aead :=
  Aead (RefIsap.crypto_aead_encrypt L mc cf) (RefIsap.crypto_aead_decrypt L mc cf).

Definition ref_consts (mc : macros) : list (list N) :=
  [RefIsap.iv_bytes mc 1; RefIsap.iv_bytes mc 2; RefIsap.iv_bytes mc 3].

Section Ref.
  Variables (L : plib) (I : inst) (mc : macros) (maxr : nat) (okb : nat -> Prop) (cf : cfg).
  Hypothesis HL : lib_ok L (i_sz I) (i_perm I) maxr okb.
  Hypothesis Hmc : mac_ok I mc maxr.

  Lemma iv_bytes_spec ty : RefIsap.iv_bytes mc ty = Spec.iv I ty.
  Proof. unfold RefIsap.iv_bytes, Spec.iv. destruct Hmc as [? ? E1 E2 E3 E4 E5 ? ? ? ? ? ? ?]. now rewrite E1, E2, E3, E4, E5. Qed.

  Lemma ref_ivs m : consts_ok (ref_consts mc) m ->
    has m RefIsap.ISAP_IV_A (Spec.iv_A I) /\ has m RefIsap.ISAP_IV_KA (Spec.iv_KA I) /\ has m RefIsap.ISAP_IV_KE (Spec.iv_KE I).
  Proof.
    intros H. unfold Spec.iv_A, Spec.iv_KA, Spec.iv_KE. rewrite <- !iv_bytes_spec.
    split; [|split]; [apply (consts_has _ _ 0 H)|apply (consts_has _ _ 1 H)|apply (consts_has _ _ 2 H)];
      cbn [ref_consts length]; lia.
  Qed.

  Lemma ref_nonempty i : (i < length (ref_consts mc))%nat -> nth i (ref_consts mc) [] <> [].
  Proof. unfold ref_consts. cbn [length]. intros H. destruct i as [|[|[|i]]]; try discriminate. lia. Qed.

  Lemma ref_enc_ok mm c clen m ad npub k K Nn A T :
    (forall b, (length mm <= b)%nat -> okb b) ->
    enc_valid cf (ref_consts mc) mm c clen m ad npub k K Nn A T ->
    runs (RefIsap.crypto_aead_encrypt L mc cf c clen m (N.of_nat (length T)) ad (N.of_nat (length A)) npub k) mm 0%Z
         (putp (putp mm clen (word_le 8 (N.of_nat (length T) + 16))) c (Spec.isap_encrypt I K Nn A T)).
  Proof.
    intros Hok V. destruct V as [Vc [[Bk Hk] Lk] [[Bn Hn] Ln] [[Ba Ha] La] [[Bt Ht] Lt] [Rc Pc] [Rl [Pl Al]]
      (D1 & D2 & D3 & D4 & D5) (D6 & D7 & D8) Hf].
    unfold RefIsap.crypto_aead_encrypt, RefIsap.ISAP_TAG_SZ.
    rewrite u64_small by lia.
    set (m1 := putp mm clen (word_le 8 (N.of_nat (length T) + 16))).
    assert (Hl8 : room mm clen (length (word_le 8 (N.of_nat (length T) + 16)))) by now rewrite word_le_length.
    eapply runs_bind; [apply runs_store_ull; auto|]. fold m1.
    assert (F1 : forall q bs, has mm q bs -> disj clen 8 q (length bs) -> has m1 q bs).
    { intros q bs H1 H2. apply has_putp_disj; rewrite ?word_le_length; auto. }
    assert (R1 : forall q n, room mm q n -> room m1 q n) by (intros; now apply room_putp).
    assert (C1 : consts_ok (ref_consts mc) m1) by now apply consts_putp.
    destruct (ref_ivs m1 C1) as (I1 & I2 & I3).
    assert (O1 : okbs okb m1) by (apply okbs_putp; exact Hok).
    set (ct := Spec.isap_enc I K Nn T).
    assert (Lct : length ct = length T) by now apply (enc_length L I mc maxr okb HL Hmc).
    assert (Bct : bytes ct) by now apply (enc_bytes L I mc maxr okb HL Hmc).
    assert (Rc1 : room m1 c (length ct)).
    { apply R1. intros i Hi. apply Rc. lia. }
    apply (runs_bind _ _ _ tt (putp m1 c ct)).
    { apply runs_if_skip.
      - intros _. apply (r_isap_enc L I mc maxr okb HL Hmc); auto.
        + apply F1; auto. now rewrite Lk.
        + apply F1; auto. now rewrite Ln.
        + now rewrite Lct in Rc1.
      - intros E. assert (length T = 0)%nat by lia. destruct ct; [now rewrite putp_nil|]. cbn [length] in Lct. lia. }
    set (m2 := putp m1 c ct).
    assert (F2 : forall q bs, has m1 q bs -> disj c (length T + 16) q (length bs) -> has m2 q bs).
    { intros q bs H1 H2. apply has_putp_disj; auto. apply (disj_sub _ _ _ _ _ _ H2); lia. }
    assert (C2 : consts_ok (ref_consts mc) m2) by now apply consts_putp.
    destruct (ref_ivs m2 C2) as (J1 & J2 & J3).
    eapply runs_bind; [|eapply runs_eq; [apply runs_ret|reflexivity|]].
    - rewrite <- Lct. apply (r_isap_mac L I mc maxr okb HL Hmc) with (kb := K) (nb := Nn); auto.
      + now apply okbs_putp.
      + apply F2; [apply F1; auto|]; now rewrite Lk.
      + apply F2; [apply F1; auto|]; now rewrite Ln.
      + now apply has_putp_same.
      + apply room_putp; auto. rewrite Lct. apply (room_sub m1 c (length T + 16)); [now apply R1|lia].
    - unfold Spec.isap_encrypt. fold ct. cbv zeta. unfold m2. rewrite putp_app_bytes; auto.
      destruct (mac_length L I mc maxr okb HL Hmc K Nn A ct) as [_ Lm]; auto.
      rewrite app_length, Lm, Lct. now apply R1.
  Qed.

  Lemma ref_dec_ok mm m mlen c ad npub k K Nn A Y :
    (forall b, (length mm <= b)%nat -> okb b) ->
    dec_valid cf (ref_consts mc) mm m mlen c ad npub k K Nn A Y ->
    let m1 := putp mm mlen (word_le 8 (N.of_nat (length Y) - 16)) in
    runs (RefIsap.crypto_aead_decrypt L mc cf m mlen c (N.of_nat (length Y)) ad (N.of_nat (length A)) npub k) mm
         (match Spec.isap_decrypt I K Nn A Y with Some _ => 0%Z | None => (-1)%Z end)
         (match Spec.isap_decrypt I K Nn A Y with Some T => putp m1 m T | None => m1 end).
  Proof.
    intros Hok V. cbv zeta. destruct V as [Vc [[Bk Hk] Lk] [[Bn Hn] Ln] [[Ba Ha] La] [[By Hy] [Ly Gy]] [Rm Pm] [Rl [Pl Al]]
      (D1 & D2 & D3 & D4 & D5) (D6 & D7 & D8) Hf].
    unfold RefIsap.crypto_aead_decrypt, RefIsap.ISAP_TAG_SZ.
    rewrite sub64_small by lia.
    set (n := (length Y - 16)%nat) in *. replace (N.of_nat (length Y) - 16) with (N.of_nat n) in * by lia.
    set (m1 := putp mm mlen (word_le 8 (N.of_nat n))).
    assert (Hl8 : room mm mlen (length (word_le 8 (N.of_nat n)))) by now rewrite word_le_length.
    eapply runs_bind; [apply runs_store_ull; auto|]. fold m1.
    assert (F1 : forall q bs, has mm q bs -> disj mlen 8 q (length bs) -> has m1 q bs).
    { intros q bs H1 H2. apply has_putp_disj; rewrite ?word_le_length; auto. }
    assert (R1 : forall q j, room mm q j -> room m1 q j) by (intros; now apply room_putp).
    assert (C1 : consts_ok (ref_consts mc) m1) by now apply consts_putp.
    assert (O1 : okbs okb m1) by (apply okbs_putp; exact Hok).
    assert (Hml : has m1 mlen (word_le 8 (N.of_nat n))) by now apply has_putp_same.
    set (C := firstn n Y). set (tg := skipn n Y).
    assert (LC : length C = n) by (unfold C; rewrite firstn_length; lia).
    assert (Ltg : length tg = 16%nat) by (unfold tg; rewrite skipn_length; lia).
    assert (BC : bytes C) by now apply bytes_firstn.
    assert (HY1 : has m1 c Y) by now apply F1.
    assert (HC1 : has m1 c C) by now apply has_firstn.
    assert (Htg1 : has m1 (padd c (N.of_nat n)) tg) by now apply has_skipn.
    assert (Hk1 : has m1 k K) by (apply F1; auto; now rewrite Lk).
    assert (Hn1 : has m1 npub Nn) by (apply F1; auto; now rewrite Ln).
    assert (Ha1 : has m1 ad A) by (apply F1; auto).
    set (T := Spec.isap_mac I K Nn A C).
    destruct (mac_length L I mc maxr okb HL Hmc K Nn A C) as [BT LT]; auto. fold T in BT, LT.
    assert (Dec : Spec.isap_decrypt I K Nn A Y = if list_eq_dec N.eq_dec tg T then Some (Spec.isap_enc I K Nn C) else None).
    { unfold Spec.isap_decrypt. replace (length Y <? 16)%nat with false by lia. reflexivity. }
    rewrite Dec. clear Dec.
    set (fin := if list_eq_dec N.eq_dec tg T then putp m1 m (Spec.isap_enc I K Nn C) else m1).
    replace (match (if list_eq_dec N.eq_dec tg T then Some (Spec.isap_enc I K Nn C) else None) with
             | Some T => putp m1 m T | None => m1 end) with fin by (unfold fin; destruct (list_eq_dec _ _ _); auto).
    apply (runs_with_block _ _ _ _ _ (map Some T)).
    set (m2 := m1 ++ [map Some T]).
    assert (F2 : forall q bs, has m1 q bs -> has m2 q bs) by (intros; now apply has_app).
    assert (C2 : consts_ok (ref_consts mc) m2) by (apply consts_app; [auto|apply ref_nonempty]).
    eapply runs_bind; [apply (runs_load_ull cf mlen (N.of_nat n)); auto; [now apply has_app|lia]|].
    assert (C1' : consts_ok (ref_consts mc) (m1 ++ [uninit 16])) by (apply consts_app; [auto|apply ref_nonempty]).
    destruct (ref_ivs _ C1') as (I1 & I2 & I3).
    apply (runs_bind _ _ _ tt m2).
    { rewrite <- LC. eapply runs_eq; [apply (r_isap_mac L I mc maxr okb HL Hmc) with (kb := K) (nb := Nn)| |]; auto.
      - now apply okbs_app.
      - now apply has_app.
      - now apply has_app.
      - now apply has_app.
      - now apply has_app.
      - apply room_of_le. cbn [pb po]. rewrite blk_mid, uninit_length. lia.
      - fold T. unfold putp, put. cbn [pb po]. rewrite blk_mid, upd_mid. change (N.to_nat 0) with 0%nat.
        unfold m2. do 2 f_equal. apply splice_all. now rewrite map_length, uninit_length, LT. }
    assert (HT2 : has m2 (P (length m1) 0) T) by (apply has_blk0, blk_mid).
    apply (runs_bind _ _ _ (eqs 16 T tg) m2).
    { apply (runs_for (fun j => eqs j T tg) (fun _ => m2)); auto.
      change (N.to_nat 16) with 16%nat. intros j Hj.
      eapply runs_bind; [apply runs_load, HT2; lia|].
      eapply runs_bind; [apply (runs_load_ull cf mlen (N.of_nat n)); auto; lia|].
      eapply runs_bind.
      - rewrite u64_small by lia. rewrite <- padd_padd. apply runs_load, (F2 _ _ Htg1). lia.
      - cbn [eqs]. apply runs_ret. }
    apply runs_if. unfold fin.
    assert (Heq : eqs 16 T tg = 16 <-> T = tg) by (apply (eqs_eq T tg 16); auto).
    destruct (list_eq_dec N.eq_dec tg T) as [E|E].
    - replace (eqs 16 T tg =? 16) with true by (symmetry; apply N.eqb_eq, Heq; auto).
      eapply runs_bind; [apply (runs_load_ull cf mlen (N.of_nat n)); auto; lia|].
      pose proof (enc_length L I mc maxr okb HL Hmc K Nn C Lk Ln Bk Bn) as Le.
      eapply runs_bind; [|eapply runs_eq; [apply runs_ret|reflexivity|reflexivity]].
      apply runs_if_skip.
      + intros _. eapply runs_bind; [apply (runs_load_ull cf mlen (N.of_nat n)); auto; lia|].
        destruct (ref_ivs _ C2) as (J1 & J2 & J3). rewrite <- LC.
        eapply runs_eq; [apply (r_isap_enc L I mc maxr okb HL Hmc) with (kb := K) (nb := Nn)| |]; auto.
        * now apply okbs_app.
        * rewrite LC. apply room_app. now apply R1.
        * now rewrite LC.
        * unfold m2. apply putp_app. rewrite Le, LC. now apply R1.
      + intros Ez. assert (n = 0)%nat by lia. unfold m2.
        destruct (Spec.isap_enc I K Nn C); [now rewrite putp_nil|]. cbn [length] in Le. lia.
    - replace (eqs 16 T tg =? 16) with false.
      + apply runs_ret.
      + symmetry. apply N.eqb_neq. intros H. apply Heq in H. auto.
  Qed.

  Lemma ref_impl_ok : impl_ok I cf (ref_consts mc) okb (ref_aead L mc cf).
  Proof. constructor; [exact ref_enc_ok|exact ref_dec_ok]. Qed.
End Ref.

(* The four builds of isapxv20/ref (Makefile/isap.h switches) and of the per-instance ref directories. *)
Inductive variant := A128A | K128A | A128 | K128.
Definition v_inst (v : variant) : inst :=
  match v with A128A => Spec.ISAP_A_128A | K128A => Spec.ISAP_K_128A | A128 => Spec.ISAP_A_128 | K128 => Spec.ISAP_K_128 end.
Definition v_macros (v : variant) : macros :=
  match v with A128A => RefIsap.mac_a128a | K128A => RefIsap.mac_k128a | A128 => RefIsap.mac_a128 | K128 => RefIsap.mac_k128 end.
Definition v_lib (v : variant) (cf : cfg) : plib :=
  match v with A128A | A128 => RefIsap.ascon_lib cf | K128A | K128 => RefIsap.keccak_lib cf end.
(* Keccak builds access their local state as 16-bit objects: on a trapping machine it must start at an even address. *)
Definition v_loc (v : variant) (cf : cfg) (b : nat) : Prop :=
  match v with A128A | A128 => True | K128A | K128 => strict cf = true -> base cf b mod 2 = 0 end.
Definition ref_impl (v : variant) (cf : cfg) : aead := ref_aead (v_lib v cf) (v_macros v) cf.

Theorem ref_correct v cf : impl_ok (v_inst v) cf (ref_consts (v_macros v)) (v_loc v cf) (ref_impl v cf).
Proof.
  destruct v; unfold ref_impl.
  - refine (ref_impl_ok _ Spec.ISAP_A_128A _ 12 _ cf (ascon_lib_ok cf) _). constructor; cbn; reflexivity || lia.
  - refine (ref_impl_ok _ Spec.ISAP_K_128A _ 20 _ cf (keccak_lib_ok cf) _). constructor; cbn; reflexivity || lia.
  - refine (ref_impl_ok _ Spec.ISAP_A_128 _ 12 _ cf (ascon_lib_ok cf) _). constructor; cbn; reflexivity || lia.
  - refine (ref_impl_ok _ Spec.ISAP_K_128 _ 20 _ cf (keccak_lib_ok cf) _). constructor; cbn; reflexivity || lia.
Qed.

(* Valid calls of the reference builds, and the placement of their local arrays. *)
Definition ref_enc_valid (v : variant) (cf : cfg) := enc_valid cf (ref_consts (v_macros v)).
Definition ref_dec_valid (v : variant) (cf : cfg) := dec_valid cf (ref_consts (v_macros v)).
Definition ref_locals (v : variant) (cf : cfg) (mm : mem) : Prop := forall b, (length mm <= b)%nat -> v_loc v cf b.
