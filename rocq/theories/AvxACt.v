(* Traces of the functions of AvxA.v (isapa128av20/avx_512). Proofs only, apart from the list of the permutation calls of isap_mac_enc. *)
From Verif Require Import Base Prog SpecPerm Words Mem Vocab MemProof OptPerm OptIsap A128 AvxA Trace Ct OptCt A128Ct.
From Verif Require Spec RefIsap.
Import RefIsap(CRYPTO_KEYBYTES, CRYPTO_NPUBBYTES).
Open Scope N_scope.
Open Scope cm_scope.

Notation rk1 := (12 :: repeat 1 127 ++ [12]).

Section AvxA.
  Variable UL : N.
  Variable cf : cfg.

  Lemma ct_ABSORB_LANESA s s' src n : N.of_nat n < 2 ^ UL ->
    ct (repeat 12 (n / 8)) any (ABSORB_LANESA UL cf s src (N.of_nat n)) (ABSORB_LANESA UL cf s' src (N.of_nat n)).
  Proof.
    intros Hn. destruct (before_last n) as (B1 & B2 & B3 & B4). set (q := ((n - 1) / 8)%nat) in *.
    assert (Eu : ulA UL (N.of_nat n) = N.of_nat n) by (unfold ulA; now apply N.mod_small).
    assert (E8 : (n / 8 = q + (if (N.of_nat n - 8 * N.of_nat q =? 8)%N then 1 else 0))%nat).
    { destruct (N.of_nat n - 8 * N.of_nat q =? 8) eqn:E.
      - symmetry. apply (Nat.div_unique _ _ _ 0); lia.
      - symmetry. apply (Nat.div_unique _ _ _ (n - 8 * q)); lia. }
    eapply ct_eq.
    - unfold ABSORB_LANESA. rewrite Eu. eapply ct_bind.
      + apply (ct_while0 (idx_at (N.of_nat n)) [12] _ _ _ q).
        * intros k [[x ix] lx] [[y iy] ly] Hk (_ & E1 & E2). cbn [fst snd] in *. subst lx ly. rewrite B4 by auto. auto.
        * intros k [[x ix] lx] [[y iy] ly] Hk (P1 & E1 & E2). cbn [fst snd] in *. subst iy lx ly.
          unfold absorb_fullA. eapply ct_bind0; [apply ct_load_word|]. intros t t' _.
          eapply (ct_bind [12] []); [apply ct_perm|]. intros z z' _. apply ct_ret. unfold idx_at. cbn [fst snd].
          change (sublA UL) with (subl UL). rewrite subl_8 by lia. auto.
        * unfold idx_at. cbn [fst snd]. change (8 * N.of_nat 0) with 0. rewrite N.sub_0_r. auto.
      + intros [[x ix] lx] [[y iy] ly] (P1 & E1 & E2). cbn [fst snd] in *. subst iy lx ly.
        apply (ct_if (repeat 12 (if N.of_nat n - 8 * N.of_nat q =? 8 then 1 else 0))); intros ->.
        * eapply ct_bind0; [apply ct_load_word|]. intros t t' _. eapply (ct_bind [12] []); [apply ct_perm|]. intros z z' _. now apply ct_ret.
        * eapply ct_bind0; [|intros; now apply ct_ret].
          apply (ct_for_silent (fun x y => snd x = snd y)); auto. intros i [t p] [t' p'] E. cbn [fst snd] in *. subst p'.
          apply (ct_if []); intros _.
          -- eapply ct_bind0; [apply ct_load|]. intros. now apply ct_ret.
          -- apply (ct_if []); intros _; now apply ct_ret.
    - rewrite E8, concat_repeat1. symmetry. apply repeat_app.
  Qed.

  Lemma ct_isap_rkA k iv y out outlen : ct rk1 any (isap_rkA cf k iv y 16 out outlen) (isap_rkA cf k iv y 16 out outlen).
  Proof.
    unfold isap_rkA. do 3 (eapply ct_bind0; [apply ct_load_word|]; intros ? ? _).
    change (12 :: repeat 1 127 ++ [12]) with ([12] ++ repeat 1 127 ++ [12]).
    eapply ct_bind; [apply ct_perm|]. intros s s' _. eapply ct_bind.
    - apply (ct_for1 any 1 127); [reflexivity| |exact I]. intros i z z' _.
      eapply ct_bind0; [apply ct_load|]. intros. apply ct_perm.
    - intros z z' _. eapply ct_bind0; [apply ct_load|]. intros ? ? _.
      eapply (ct_bind [12] []); [apply ct_perm|]. intros ? ? _.
      do 2 (eapply ct_bind0; [apply ct_store_ull|]; intros ? ? _).
      apply (ct_if []); intros _; [eapply ct_any, ct_store_ull|now apply ct_ret].
  Qed.
  Lemma ct_finishA k s s' state tag : ct (rk1 ++ [12]) any (finishA cf k s state tag) (finishA cf k s' state tag).
  Proof.
    unfold finishA. do 5 (eapply ct_bind0; [apply ct_store_ull|]; intros ? ? _).
    eapply ct_bind; [apply ct_isap_rkA|]. intros ? ? _.
    do 5 (eapply ct_bind0; [apply ct_load_word|]; intros ? ? _).
    eapply (ct_bind [12] []); [apply ct_perm|]. intros ? ? _.
    eapply ct_bind0; [apply ct_store_ull|]; intros ? ? _. eapply ct_any, ct_store_ull.
  Qed.

  Lemma ct_isap_macA k npub ad (x : nat) c (n : nat) tag : N.of_nat x < 2 ^ UL -> N.of_nat n < 2 ^ UL ->
    ct (repeat 12 (x / 8 + n / 8 + 3) ++ rk1 ++ [12]) any
       (isap_macA UL cf k npub ad (N.of_nat x) c (N.of_nat n) tag) (isap_macA UL cf k npub ad (N.of_nat x) c (N.of_nat n) tag).
  Proof.
    intros Hx Hn. eapply ct_eq.
    - unfold isap_macA. apply ct_with_block. intros st.
      do 3 (eapply ct_bind0; [apply ct_load_word|]; intros ? ? _).
      eapply (ct_bind (repeat 12 1)); [apply ct_perm|]. intros s s' _.
      eapply ct_bind; [now apply ct_ABSORB_LANESA|]. intros z z' _. eapply (ct_bind (repeat 12 1)); [apply ct_perm|]. intros ? ? _.
      eapply ct_bind; [now apply ct_ABSORB_LANESA|]. intros w w' _. eapply (ct_bind (repeat 12 1)); [apply ct_perm|]. intros ? ? _.
      apply ct_finishA.
    - replace (x / 8 + n / 8 + 3)%nat with (1 + (x / 8 + (1 + (n / 8 + 1))))%nat by lia. now rewrite !repeat_app, <- !app_assoc.
  Qed.

  Lemma ct_isap_encA k npub m (n : nat) c : N.of_nat n < 2 ^ 64 -> (0 < n)%nat ->
    ct (rk1 ++ repeat 6 ((n + 7) / 8)) any
       (isap_encA UL cf k npub m (N.of_nat n) c) (isap_encA UL cf k npub m (N.of_nat n) c).
  Proof.
    intros Hn H0. destruct (before_last n) as (B1 & B2 & B3 & B4). set (q := ((n - 1) / 8)%nat) in *.
    assert (E7 : ((n + 7) / 8 = 1 + q)%nat) by (symmetry; apply (Nat.div_unique _ _ _ (n + 7 - 8 * (1 + q))); lia).
    eapply ct_eq.
    - unfold isap_encA. apply ct_with_block. intros st. eapply ct_bind; [apply ct_isap_rkA|]. intros ? ? _.
      do 5 (eapply ct_bind0; [apply ct_load_word|]; intros ? ? _).
      eapply (ct_bind (repeat 6 1)); [apply ct_perm|]. intros s s' _.
      eapply ct_bind.
      + apply (ct_while0 (idx_at (N.of_nat n)) [6] _ _ _ q).
        * intros j [[x ix] lx] [[y iy] ly] Hk (_ & E1 & E2). cbn [fst snd] in *. subst lx ly. rewrite B4 by auto. auto.
        * intros j [[x ix] lx] [[y iy] ly] Hk (P1 & E1 & E2). cbn [fst snd] in *. subst iy lx ly.
          unfold enc_fullA. eapply ct_bind0; [apply ct_load_ull|]. intros t t' _. eapply ct_bind0; [apply ct_store_ull|]. intros ? ? _.
          eapply (ct_bind [6] []); [apply ct_perm|]. intros z z' _. apply ct_ret. unfold idx_at. cbn [fst snd].
          rewrite sub64_8 by lia. auto.
        * unfold idx_at. cbn [fst snd]. change (8 * N.of_nat 0) with 0. rewrite N.sub_0_r. auto.
      + intros [[x ix] lx] [[y iy] ly] (P1 & E1 & E2). cbn [fst snd] in *. subst iy lx ly.
        apply (ct_if []); intros _.
        * eapply ct_bind0; [apply ct_load_ull|]. intros t t' _. eapply ct_any, ct_store_ull.
        * eapply ct_bind0; [|intros; now apply ct_ret].
          apply (ct_for_silent eq); auto. intros i p p' <-.
          eapply ct_bind0; [apply ct_load|]. intros ? ? _. eapply ct_bind0; [apply ct_store|]. intros ? ? _. now apply ct_ret.
    - rewrite E7, concat_repeat1, app_nil_r, <- repeat_app. reflexivity.
  Qed.

  (* ---------- isap_mac_enc ---------- *)

  Lemma ct_ssub z k : ct [] (fun a b => a = (z - k)%Z /\ b = (z - k)%Z) (ssub z k) (ssub z k).
  Proof. unfold ssub. destruct (z - k <? - 2 ^ 63)%Z; [apply ct_fail|now apply ct_ret]. Qed.
  Lemma ct_vperm cs v v' : ct [6] any (vperm cs v) (vperm cs v').
  Proof. eapply (ct_bind [6] []); [apply (ct_emit (EPerm 6))|]. intros. now apply ct_ret. Qed.
  Lemma ct_mac_lane c rem i : ct [] (fun a b => snd a = snd b) (mac_lane UL c rem i) (mac_lane UL c rem i).
  Proof.
    unfold mac_lane. apply (ct_for_silent (fun a b => snd a = snd b)); auto. intros j [t p] [t' p'] E. cbn [fst snd] in *. subst p'.
    apply (ct_if []); intros _.
    - eapply ct_bind0; [apply ct_load|]. intros. now apply ct_ret.
    - apply (ct_if []); intros _; now apply ct_ret.
  Qed.
  Lemma ct_text_word m o e : ct [] any (text_word m o e) (text_word m o e).
  Proof. apply (ct_for_silent any); [|exact I]. intros. eapply ct_bind0; [apply ct_load|]. intros. now apply ct_ret. Qed.
  Lemma ct_put_text c t t' e i : ct [] eq (put_text UL c t e i) (put_text UL c t' e i).
  Proof. apply (ct_for_silent eq); [|auto]. intros j x y <-. eapply ct_bind0; [apply ct_store|]. intros. now apply ct_ret. Qed.

  (* The counters after k blocks of 16 bytes; the MAC is one block behind. *)
  Definition ctr (n k : nat) (x : lst) : Prop := l_enc x = (Z.of_nat n - 16 * Z.of_nat k)%Z /\ l_mac x = (Z.of_nat n - 8 * Z.of_nat (k - 1))%Z.
  Definition me_at (n k : nat) (x y : lst) : Prop := ctr n k x /\ ctr n k y /\ l_ienc x = l_ienc y /\ l_imac x = l_imac y.

  Lemma zu64_small z : (0 <= z < 2 ^ 64)%Z -> zu64 z = Z.to_N z.
  Proof. intros H. unfold zu64. now rewrite Z.mod_small. Qed.

  Lemma ct_body c m n k x y : N.of_nat n < 2 ^ 63 -> (16 * k < n \/ k = 0)%nat -> me_at n k x y ->
    ct [6; 6] (me_at n (S k)) (mac_enc_body UL c m (N.of_nat n) x) (mac_enc_body UL c m (N.of_nat n) y).
  Proof.
    intros Hn Hk ((E1 & E2) & (F1 & F2) & I1 & I2).
    destruct x as [xv xd xe xm xi xj], y as [yv yd ye ym yi yj]. cbn [l_enc l_mac l_ienc l_imac] in *. subst yi yj.
    subst xe xm ye ym.
    unfold mac_enc_body. cbn [l_enc l_mac l_ienc l_imac l_v l_dom].
    eapply ct_bind0; [apply (ct_if [] eq); intros _; now apply ct_ret|]. intros b1 b1' <-.
    eapply ct_bind0; [apply (ct_if [] eq); intros _; [now apply ct_ret|apply (ct_if []); intros _; now apply ct_ret]|]. intros b2 b2' <-.
    eapply ct_bind0; [apply ct_text_word|]. intros w1 w1' _. eapply ct_bind0; [apply ct_text_word|]. intros w2 w2' _.
    eapply ct_bind0.
    - apply (ct_if [] (fun a b => snd (fst a) = (Z.of_nat n - 8 * Z.of_nat k)%Z /\ snd (fst b) = (Z.of_nat n - 8 * Z.of_nat k)%Z /\ snd a = snd b)); intros E.
      + eapply ct_bind0; [apply ct_mac_lane|]. intros [r1 r2] [s1 s2] Er. cbn [snd] in Er. subst s2.
        eapply ct_bind0; [apply ct_ssub|]. intros a a' [-> ->]. apply ct_ret. cbn [fst snd].
        assert (k <> 0)%nat. { intros ->. rewrite zu64_small in E; lia. } split; [lia|]. split; [lia|auto].
      + apply ct_ret. cbn [fst snd]. assert (k = 0)%nat. { destruct Hk; auto. rewrite zu64_small in E; lia. } subst k. auto.
    - intros [[r1 r2] r3] [[s1 s2] s3] (H1 & H2 & H3). cbn [fst snd] in H1, H2, H3. subst r2 s2 s3.
      eapply (ct_bind [6] [6]); [apply ct_vperm|]. intros v v' _. eapply (ct_bind [6] []); [apply ct_vperm|]. intros u u' _.
      eapply ct_bind0; [apply ct_put_text|]. intros i1 i1' <-. eapply ct_bind0; [apply ct_put_text|]. intros i2 i2' <-.
      eapply ct_bind0; [apply ct_ssub|]. intros a a' [-> ->]. apply ct_ret. unfold me_at, ctr. cbn [l_enc l_mac l_ienc l_imac].
      replace (S k - 1)%nat with k by lia. repeat split; auto; lia.
  Qed.

  Definition calls_mac_enc (a n : nat) : list N :=
    let it := Nat.max 1 ((n + 15) / 16) in
    rk1 ++ repeat 12 (1 + a / 8) ++ repeat 6 (2 * it) ++ repeat 12 (n / 8 + 2 - it) ++ rk1 ++ [12].

  Lemma concat_66 it : concat (repeat [6; 6] it) = repeat 6 (2 * it).
  Proof. induction it as [|it IH]; [reflexivity|]. replace (2 * S it)%nat with (S (S (2 * it))) by lia. cbn [repeat concat app]. now rewrite IH. Qed.

  Lemma ct_isap_mac_enc k npub ad (a : nat) c m (n : nat) tag : N.of_nat a < 2 ^ UL -> N.of_nat n < 2 ^ 63 ->
    ct (calls_mac_enc a n) any
       (isap_mac_enc UL cf k npub ad (N.of_nat a) c (N.of_nat n) m (N.of_nat n) tag)
       (isap_mac_enc UL cf k npub ad (N.of_nat a) c (N.of_nat n) m (N.of_nat n) tag).
  Proof.
    intros Ha Hn. set (it := Nat.max 1 ((n + 15) / 16)).
    assert (Hit : (1 <= it)%nat /\ (n <= 16 * it)%nat /\ (16 * (it - 1) < n \/ it = 1)%nat).
    { pose proof (Nat.div_mod (n + 15) 16 ltac:(lia)). pose proof (Nat.mod_upper_bound (n + 15) 16 ltac:(lia)). unfold it. lia. }
    destruct Hit as (I1 & I2 & I3).
    assert (Es : s64 (N.of_nat n) = Z.of_nat n).
    { unfold s64. replace (N.of_nat n <? 2 ^ 63) with true by lia. now rewrite nat_N_Z. }
    set (q := (n / 8)%nat). assert (Hq : (8 * q <= n < 8 * q + 8)%nat) by (unfold q; pose proof (Nat.div_mod n 8); pose proof (Nat.mod_upper_bound n 8); lia).
    eapply ct_eq.
    - unfold isap_mac_enc. apply ct_with_block. intros sm. apply ct_with_block. intros se.
      eapply ct_bind; [apply ct_isap_rkA|]. intros ? ? _.
      eapply ct_bind0; [apply ct_load_ull|]. intros ? ? _. eapply ct_bind0; [apply ct_store_ull|]. intros ? ? _.
      eapply ct_bind0; [apply ct_load_ull|]. intros ? ? _. eapply ct_bind0; [apply ct_store_ull|]. intros ? ? _.
      do 3 (eapply ct_bind0; [apply ct_load_word|]; intros ? ? _).
      eapply (ct_bind (repeat 12 1)); [apply ct_perm|]. intros ? ? _. eapply ct_bind; [now apply ct_ABSORB_LANESA|]. intros s s' _.
      do 5 (eapply ct_bind0; [apply ct_load_word|]; intros ? ? _).
      eapply ct_bind; [apply (ct_body c m n 0); auto|].
      { unfold me_at, ctr. cbn [l_enc l_mac l_ienc l_imac]. rewrite Es. repeat split; lia. }
      intros l l' HL. eapply ct_bind.
      { apply (ct_while (me_at n) [6; 6] _ _ _ it); [| |exact I1|exact HL].
        - intros j x y Hj ((E1 & _) & (F1 & _) & _). rewrite E1, F1. split; lia.
        - intros j x y Hj HR. apply ct_body; auto. lia. }
      intros x y ((E1 & E2) & (F1 & F2) & J1 & J2). eapply ct_bind.
      { apply (ct_while0 (fun j (a b : state * Z * N) => snd (fst a) = (Z.of_nat n - 8 * Z.of_nat (it - 1) - 8 * Z.of_nat j)%Z /\
            snd (fst b) = (Z.of_nat n - 8 * Z.of_nat (it - 1) - 8 * Z.of_nat j)%Z /\ snd a = snd b) [12] _ _ _ (q + 1 - (it - 1))).
        - intros j [[xa1 xa2] xa3] [[xb1 xb2] xb3] Hj (G1 & G2 & _). cbn [fst snd] in *. subst xa2 xb2. split; lia.
        - intros j [[xa1 xa2] xa3] [[xb1 xb2] xb3] Hj (G1 & G2 & G3). cbn [fst snd] in *. subst xb3 xa2 xb2.
          unfold mac_rest. eapply ct_bind0; [apply ct_mac_lane|]. intros [r1 r2] [s1 s2] Er. cbn [snd] in Er. subst s2.
          eapply (ct_bind [12] []); [apply ct_perm|]. intros ? ? _. eapply ct_bind0; [apply ct_ssub|]. intros z z' [-> ->].
          apply ct_ret. cbn [fst snd]. repeat split; lia.
        - cbn [fst snd]. rewrite E2, F2, J2. repeat split; lia. }
      intros u u' _. apply ct_finishA.
    - unfold calls_mac_enc. fold it. fold q. rewrite concat_repeat1. change [6; 6] with (concat (repeat [6; 6] 1)) at 1.
      rewrite !concat_66. replace (2 * it)%nat with (2 * 1 + 2 * (it - 1))%nat by lia. replace (q + 2 - it)%nat with (q + 1 - (it - 1))%nat by lia.
      now rewrite !repeat_app, <- !app_assoc.
  Qed.

  Lemma ct_crypto_aead_encryptA c clen m n ad a npub k : N.of_nat a < 2 ^ UL -> N.of_nat n < 2 ^ 63 ->
    ct (calls_mac_enc a n) any (crypto_aead_encryptA UL cf c clen m (N.of_nat n) ad (N.of_nat a) npub k)
      (crypto_aead_encryptA UL cf c clen m (N.of_nat n) ad (N.of_nat a) npub k).
  Proof.
    intros Ha Hn. eapply ct_bind0; [apply ct_store_ull|]. intros ? ? _. rewrite <- (app_nil_r (calls_mac_enc a n)).
    eapply ct_bind; [now apply ct_isap_mac_enc|]. intros. now apply ct_ret.
  Qed.
End AvxA.
