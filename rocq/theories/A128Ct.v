(* Traces of the functions of A128.v (optimised ISAP-A-128). Proofs only. *)
From Verif Require Import Base Prog SpecPerm Words Mem Vocab MemProof OptPerm OptIsap A128 Trace Ct OptCt.
From Verif Require Spec RefIsap.
Import RefIsap(CRYPTO_KEYBYTES, CRYPTO_NPUBBYTES).
Open Scope N_scope.
Open Scope cm_scope.

Notation rk12 := (12 :: repeat 12 127 ++ [12]).

(* Blocks before the last, which may be full. *)
Lemma before_last n : let q := ((n - 1) / 8)%nat in (8 * q <= n)%nat /\ (n <= 8 * q + 8)%nat /\ (8 * q = n -> n = 0)%nat /\
  (forall k, (k <= q)%nat -> (8 <? N.of_nat n - 8 * N.of_nat k)%N = (k <? q)%nat).
Proof.
  cbv zeta. assert (H : ((n - 1) / 8 = (n - 1) / 8)%nat) by reflexivity. revert H. generalize ((n - 1) / 8)%nat at 1 3. intros q Hq.
  pose proof (Nat.div_mod (n - 1) 8 ltac:(lia)). pose proof (Nat.mod_upper_bound (n - 1) 8 ltac:(lia)).
  repeat split; try lia.
Qed.

Section Opt64.
  Variable a : asconp.
  Variable UL : N.
  Variable cf : cfg.

  Lemma subl_8 n k : n < 2 ^ UL -> 8 * (N.of_nat k + 1) <= n -> subl UL (n - 8 * N.of_nat k) 8 = n - 8 * N.of_nat (S k).
  Proof. intros H1 H2. unfold subl, ul. replace (n - 8 * N.of_nat k + 2 ^ UL - 8) with (n - 8 * N.of_nat (S k) + 1 * 2 ^ UL) by lia.
    rewrite N.mod_add by lia. apply N.mod_small. lia. Qed.

  Definition idx_at (len : N) (k : nat) (x y : state * N * N) : Prop :=
    snd (fst x) = snd (fst y) /\ snd x = len - 8 * N.of_nat k /\ snd y = len - 8 * N.of_nat k.

  Lemma ct_ABSORB_MAC s s' src n : N.of_nat n < 2 ^ UL ->
    ct (repeat 12 (n / 8 + 1)) any (ABSORB_MAC a UL cf s src (N.of_nat n)) (ABSORB_MAC a UL cf s' src (N.of_nat n)).
  Proof.
    intros Hn. destruct (before_last n) as (B1 & B2 & B3 & B4). set (q := ((n - 1) / 8)%nat) in *.
    assert (Eu : ul UL (N.of_nat n) = N.of_nat n) by (unfold ul; now apply N.mod_small).
    assert (E8 : (n / 8 + 1 = q + (if (N.of_nat n - 8 * N.of_nat q =? 8)%N then 2 else 1))%nat).
    { destruct (N.of_nat n - 8 * N.of_nat q =? 8) eqn:E.
      - replace (n / 8)%nat with (q + 1)%nat; [lia|]. apply (Nat.div_unique _ _ _ 0); lia.
      - replace (n / 8)%nat with q; [lia|]. apply (Nat.div_unique _ _ _ (n - 8 * q)); lia. }
    eapply ct_eq.
    - unfold ABSORB_MAC. rewrite Eu. eapply ct_bind.
      + apply (ct_while0 (idx_at (N.of_nat n)) [12] _ _ _ q).
        * intros k [[x ix] lx] [[y iy] ly] Hk (_ & E1 & E2). cbn [fst snd] in *. subst lx ly. rewrite B4 by auto. auto.
        * intros k [[x ix] lx] [[y iy] ly] Hk (P1 & E1 & E2). cbn [fst snd] in *. subst iy lx ly.
          unfold absorb_mac_full. eapply ct_bind0; [apply ct_load_word|]. intros t t' _.
          eapply (ct_bind [12] []); [apply ct_perm|]. intros z z' _. apply ct_ret. unfold idx_at. cbn [fst snd].
          rewrite subl_8 by lia. auto.
        * unfold idx_at. cbn [fst snd]. change (8 * N.of_nat 0) with 0. rewrite N.sub_0_r. auto.
      + intros [[x ix] lx] [[y iy] ly] (P1 & E1 & E2). cbn [fst snd] in *. subst iy lx ly.
        apply (ct_if (repeat 12 (if N.of_nat n - 8 * N.of_nat q =? 8 then 2 else 1))); intros ->.
        * eapply ct_bind0; [apply ct_load_word|]. intros t t' _. eapply (ct_bind [12] [12]); [apply ct_perm|]. intros z z' _. apply ct_perm.
        * eapply ct_bind0; [|intros; apply ct_perm].
          apply (ct_for_silent (fun x y => snd x = snd y)); auto. intros i [t p] [t' p'] E. cbn [fst snd] in *. subst p'.
          apply (ct_if []); intros _.
          -- eapply ct_bind0; [apply ct_load|]. intros. now apply ct_ret.
          -- apply (ct_if []); intros _; now apply ct_ret.
    - rewrite E8, concat_repeat1. symmetry. apply repeat_app.
  Qed.

  Lemma ct_isap_rk_64 k iv y out outlen :
    ct rk12 any (isap_rk_64 a cf k iv y 16 out outlen) (isap_rk_64 a cf k iv y 16 out outlen).
  Proof.
    unfold isap_rk_64. do 3 (eapply ct_bind0; [apply ct_load_word|]; intros ? ? _).
    change (12 :: repeat 12 127 ++ [12]) with ([12] ++ repeat 12 127 ++ [12]).
    eapply ct_bind; [apply ct_perm|]. intros s s' _. eapply ct_bind.
    - apply (ct_for1 any 12 127); [reflexivity| |exact I]. intros i z z' _.
      eapply ct_bind0; [apply ct_load|]. intros. apply ct_perm.
    - intros z z' _. eapply ct_bind0; [apply ct_load|]. intros ? ? _.
      eapply (ct_bind [12] []); [apply ct_perm|]. intros ? ? _.
      do 2 (eapply ct_bind0; [apply ct_store_ull|]; intros ? ? _).
      apply (ct_if []); intros _; [eapply ct_any, ct_store_ull|now apply ct_ret].
  Qed.

  Lemma ct_isap_mac_64 k npub ad (x : nat) c (n : nat) tag : N.of_nat x < 2 ^ UL -> N.of_nat n < 2 ^ UL ->
    ct (repeat 12 (x / 8 + n / 8 + 3) ++ rk12 ++ [12]) any
       (isap_mac_64 a UL cf k npub ad (N.of_nat x) c (N.of_nat n) tag) (isap_mac_64 a UL cf k npub ad (N.of_nat x) c (N.of_nat n) tag).
  Proof.
    intros Hx Hn. eapply ct_eq.
    - unfold isap_mac_64. apply ct_with_block. intros st.
      do 3 (eapply ct_bind0; [apply ct_load_word|]; intros ? ? _).
      eapply (ct_bind (repeat 12 1)); [apply ct_perm|]. intros s s' _.
      eapply ct_bind; [now apply ct_ABSORB_MAC|]. intros z z' _.
      eapply ct_bind; [now apply ct_ABSORB_MAC|]. intros w w' _.
      do 5 (eapply ct_bind0; [apply ct_store_ull|]; intros ? ? _).
      eapply ct_bind; [apply ct_isap_rk_64|]. intros ? ? _.
      do 5 (eapply ct_bind0; [apply ct_load_word|]; intros ? ? _).
      eapply (ct_bind [12] []); [apply ct_perm|]. intros ? ? _.
      eapply ct_bind0; [apply ct_store_ull|]; intros ? ? _. eapply ct_any, ct_store_ull.
    - replace (x / 8 + n / 8 + 3)%nat with (1 + ((x / 8 + 1) + (n / 8 + 1)))%nat by lia. rewrite !repeat_app, <- !app_assoc. reflexivity.
  Qed.

  Lemma ct_isap_enc_64 k npub m (n : nat) c : N.of_nat n < 2 ^ 64 -> (0 < n)%nat ->
    ct (rk12 ++ repeat 12 ((n + 7) / 8)) any
       (isap_enc_64 a UL cf k npub m (N.of_nat n) c) (isap_enc_64 a UL cf k npub m (N.of_nat n) c).
  Proof.
    intros Hn H0. destruct (before_last n) as (B1 & B2 & B3 & B4). set (q := ((n - 1) / 8)%nat) in *.
    assert (E7 : ((n + 7) / 8 = 1 + q)%nat) by (symmetry; apply (Nat.div_unique _ _ _ (n + 7 - 8 * (1 + q))); lia).
    eapply ct_eq.
    - unfold isap_enc_64. apply ct_with_block. intros st. eapply ct_bind; [apply ct_isap_rk_64|]. intros ? ? _.
      do 5 (eapply ct_bind0; [apply ct_load_word|]; intros ? ? _).
      eapply (ct_bind (repeat 12 1)); [apply ct_perm|]. intros s s' _.
      eapply ct_bind.
      + apply (ct_while0 (idx_at (N.of_nat n)) [12] _ _ _ q).
        * intros j [[x ix] lx] [[y iy] ly] Hk (_ & E1 & E2). cbn [fst snd] in *. subst lx ly. rewrite B4 by auto. auto.
        * intros j [[x ix] lx] [[y iy] ly] Hk (P1 & E1 & E2). cbn [fst snd] in *. subst iy lx ly.
          unfold enc_full_64. eapply ct_bind0; [apply ct_load_ull|]. intros t t' _. eapply ct_bind0; [apply ct_store_ull|]. intros ? ? _.
          eapply (ct_bind [12] []); [apply ct_perm|]. intros z z' _. apply ct_ret. unfold idx_at. cbn [fst snd].
          rewrite sub64_8 by lia. auto.
        * unfold idx_at. cbn [fst snd]. change (8 * N.of_nat 0) with 0. rewrite N.sub_0_r. auto.
      + intros [[x ix] lx] [[y iy] ly] (P1 & E1 & E2). cbn [fst snd] in *. subst iy lx ly.
        apply (ct_if []); intros _.
        * eapply ct_bind0; [apply ct_load_ull|]. intros t t' _. eapply ct_any, ct_store_ull.
        * eapply ct_bind0; [|intros; now apply ct_ret].
          apply (ct_for_silent eq); auto. intros i p p' <-.
          eapply ct_bind0; [apply ct_load|]. intros ? ? _. eapply ct_bind0; [apply ct_store|]. intros ? ? _. now apply ct_ret.
    - rewrite E7, concat_repeat1, app_nil_r, <- repeat_app. reflexivity.
  Qed.
End Opt64.

Section Opt32.
  Variable a u : asconp.
  Variable cf : cfg.

  Lemma ct_load32 p : ct [] any (load32 cf p) (load32 cf p).
  Proof. eapply ct_bind0; [apply ct_loadn|]. intros. now apply ct_ret. Qed.
  Lemma ct_store32 p x y : ct [] eq (store32 cf p x) (store32 cf p y).
  Proof. apply ct_storen. now rewrite !word_le_length. Qed.
  Lemma ct_load_eo p : ct [] any (load_eo cf p) (load_eo cf p).
  Proof. do 2 (eapply ct_bind0; [apply ct_load32|]; intros ? ? _). now apply ct_ret. Qed.
  Lemma ct_store_eo p x y : ct [] eq (store_eo cf p x) (store_eo cf p y).
  Proof. eapply ct_bind0; [apply ct_store32|]; intros ? ? _. apply ct_store32. Qed.

  Lemma ct_isap_rk_32 k iv y out outlen :
    ct rk12 any (isap_rk_32 a u cf k iv y out outlen) (isap_rk_32 a u cf k iv y out outlen).
  Proof.
    unfold isap_rk_32. do 3 (eapply ct_bind0; [apply ct_load_word|]; intros ? ? _).
    change (12 :: repeat 12 127 ++ [12]) with ([12] ++ repeat 12 127 ++ [12]).
    eapply ct_bind; [apply ct_perm|]. intros s s' _. eapply ct_bind.
    - apply (ct_for1 any 12 127); [reflexivity| |exact I]. intros i z z' _.
      eapply ct_bind0; [apply ct_load|]. intros. apply ct_perm.
    - intros z z' _. eapply ct_bind0; [apply ct_load|]. intros ? ? _.
      eapply (ct_bind [12] []); [apply ct_perm|]. intros ? ? _.
      do 2 (eapply ct_bind0; [apply ct_store_eo|]; intros ? ? _).
      apply (ct_if []); intros _; [eapply ct_any, ct_store_eo|now apply ct_ret].
  Qed.

  Lemma ct_absorb_32 s s' src n : N.of_nat n < 2 ^ 64 ->
    ct (repeat 12 (n / 8 + 1)) any (absorb_32 a u cf s src (N.of_nat n)) (absorb_32 a u cf s' src (N.of_nat n)).
  Proof.
    intros Hn. set (q := (n / 8)%nat). assert (Hq : (8 * q <= n < 8 * q + 8)%nat) by (unfold q; pose proof (Nat.div_mod n 8); pose proof (Nat.mod_upper_bound n 8); lia).
    eapply ct_eq.
    - unfold absorb_32. eapply ct_bind.
      + apply (ct_while0 (abs_at src (N.of_nat n)) [12] _ _ _ q).
        * intros k [[x px] lx] [[y py] ly] Hk (_ & _ & E1 & E2). cbn [fst snd] in *. subst lx ly. split; lia.
        * intros k [[x px] lx] [[y py] ly] Hk (P1 & P2 & E1 & E2). cbn [fst snd] in *. subst px py lx ly.
          unfold absorb_full_32. eapply ct_bind0; [apply ct_load_word|]. intros t t' _.
          eapply (ct_bind [12] []); [apply ct_perm|]. intros z z' _. apply ct_ret. unfold abs_at. cbn [fst snd].
          rewrite padd_padd, sub64_8 by lia. replace (8 * N.of_nat k + 8) with (8 * N.of_nat (S k)) by lia. auto.
        * unfold abs_at. cbn [fst snd]. change (8 * N.of_nat 0) with 0. rewrite padd_0, N.sub_0_r. auto.
      + intros [[x px] lx] [[y py] ly] (P1 & P2 & E1 & E2). cbn [fst snd] in *. subst px py lx ly.
        set (rm := N.of_nat n - 8 * N.of_nat q).
        eapply (ct_bind (if 0 <? rm then [12] else []) (if rm =? 0 then [12] else [])).
        * apply (ct_if _ any); intros E; rewrite E.
          -- eapply ct_bind0; [|intros; apply ct_perm].
             apply (ct_for_silent (fun x y => snd x = snd y)); auto. intros i [t p] [t' p'] E'. cbn [fst snd] in *. subst p'.
             eapply ct_bind0; [apply ct_load|]. intros. now apply ct_ret.
          -- now apply ct_ret.
        * intros z z' _. apply ct_if; intros E; rewrite E; [apply ct_perm|now apply ct_ret].
    - rewrite concat_repeat1, repeat_app. f_equal. destruct (0 <? _) eqn:E1, (_ =? 0) eqn:E2; auto; lia.
  Qed.

  Lemma ct_isap_mac_32 k npub ad (x : nat) c (n : nat) tag : N.of_nat x < 2 ^ 64 -> N.of_nat n < 2 ^ 64 ->
    ct (repeat 12 (x / 8 + n / 8 + 3) ++ rk12 ++ [12]) any
       (isap_mac_32 a u cf k npub ad (N.of_nat x) c (N.of_nat n) tag) (isap_mac_32 a u cf k npub ad (N.of_nat x) c (N.of_nat n) tag).
  Proof.
    intros Hx Hn. eapply ct_eq.
    - unfold isap_mac_32. do 3 (eapply ct_bind0; [apply ct_load_word|]; intros ? ? _).
      eapply (ct_bind (repeat 12 1)); [apply ct_perm|]. intros s s' _.
      eapply ct_bind; [now apply ct_absorb_32|]. intros z z' _.
      eapply ct_bind; [now apply ct_absorb_32|]. intros w w' _.
      apply ct_with_block. intros y64. do 2 (eapply ct_bind0; [apply ct_store_ull|]; intros ? ? _).
      apply ct_with_block. intros ka. eapply ct_bind; [apply ct_isap_rk_32|]. intros ? ? _.
      do 2 (eapply ct_bind0; [apply ct_load_eo|]; intros ? ? _).
      eapply (ct_bind [12] []); [apply ct_perm|]. intros ? ? _.
      eapply ct_bind0; [apply ct_store_ull|]; intros ? ? _. eapply ct_any, ct_store_ull.
    - replace (x / 8 + n / 8 + 3)%nat with (1 + ((x / 8 + 1) + (n / 8 + 1)))%nat by lia. rewrite !repeat_app, <- !app_assoc. reflexivity.
  Qed.

  Lemma ct_isap_enc_32 k npub m (n : nat) c : N.of_nat n < 2 ^ 64 ->
    ct (rk12 ++ repeat 12 ((n + 7) / 8)) any
       (isap_enc_32 a u cf k npub m (N.of_nat n) c) (isap_enc_32 a u cf k npub m (N.of_nat n) c).
  Proof.
    intros Hn. set (q := (n / 8)%nat). assert (Hq : (8 * q <= n < 8 * q + 8)%nat) by (unfold q; pose proof (Nat.div_mod n 8); pose proof (Nat.mod_upper_bound n 8); lia).
    assert (E7 : ((n + 7) / 8 = q + (if (0 <? N.of_nat n - 8 * N.of_nat q)%N then 1 else 0))%nat).
    { destruct (0 <? N.of_nat n - 8 * N.of_nat q) eqn:E.
      - symmetry. apply (Nat.div_unique _ _ _ (n + 7 - 8 * (q + 1))); lia.
      - symmetry. apply (Nat.div_unique _ _ _ 7); lia. }
    eapply ct_eq.
    - unfold isap_enc_32. apply ct_with_block. intros ke. eapply ct_bind; [apply ct_isap_rk_32|]. intros ? ? _.
      do 3 (eapply ct_bind0; [apply ct_load_eo|]; intros ? ? _).
      do 2 (eapply ct_bind0; [apply ct_load_word|]; intros ? ? _).
      eapply ct_bind.
      + apply (ct_while0 (enc_at m c (N.of_nat n)) [12] _ _ _ q).
        * intros j [[[x px] lx] cx] [[[y py] ly] cy] Hk (_ & _ & E1 & E2 & _). cbn [fst snd] in *. subst lx ly. split; lia.
        * intros j [[[x px] lx] cx] [[[y py] ly] cy] Hk (P1 & P2 & E1 & E2 & P3 & P4). cbn [fst snd] in *. subst px py lx ly cx cy.
          unfold enc_full_32. eapply (ct_bind [12] []); [apply ct_perm|]. intros z z' _.
          eapply ct_bind0; [apply ct_load_ull|]. intros ? ? _. eapply ct_bind0; [apply ct_store_ull|]. intros ? ? _.
          apply ct_ret. unfold enc_at. cbn [fst snd]. rewrite !padd_padd, sub64_8 by lia.
          replace (8 * N.of_nat j + 8) with (8 * N.of_nat (S j)) by lia. auto 6.
        * unfold enc_at. cbn [fst snd]. change (8 * N.of_nat 0) with 0. rewrite !padd_0, N.sub_0_r. auto 6.
      + intros [[[x px] lx] cx] [[[y py] ly] cy] (P1 & P2 & E1 & E2 & P3 & P4). cbn [fst snd] in *. subst px py lx ly cx cy.
        apply (ct_if (repeat 12 (if 0 <? N.of_nat n - 8 * N.of_nat q then 1 else 0))); intros ->; [|now apply ct_ret].
        eapply (ct_bind [12] []); [apply ct_perm|]. intros z z' _.
        eapply ct_bind0; [|intros; now apply ct_ret].
        apply (ct_for_silent eq); auto. intros i [p1 c1] [p2 c2] E. injection E as -> ->.
        eapply ct_bind0; [apply ct_load|]. intros ? ? _. eapply ct_bind0; [apply ct_store|]. intros ? ? _. now apply ct_ret.
    - rewrite E7, concat_repeat1, <- repeat_app. reflexivity.
  Qed.
End Opt32.
