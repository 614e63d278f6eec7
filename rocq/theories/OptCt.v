(* Traces of the functions of OptIsap.v (optimised ISAP-A-128A): accesses, branches and permutation calls depend on lengths and addresses
   only. Proofs only. *)
From Verif Require Import Base Prog SpecPerm Words Mem Vocab MemProof OptPerm OptIsap Trace Ct.
From Verif Require Spec RefIsap.
Import RefIsap(CRYPTO_KEYBYTES, CRYPTO_NPUBBYTES).
Open Scope N_scope.
Open Scope cm_scope.

Ltac ct_leaf := first [apply ct_load_ull | apply ct_store_ull | apply ct_load | apply ct_store | apply ct_loadn | now apply ct_ret].

Section Opt.
  Variable a : asconp.
  Variable cf : cfg.
  Variable junk : state.

  Lemma ct_perm r s s' : ct [r] any (perm a r s) (perm a r s').
  Proof. eapply (ct_bind [r] []); [apply (ct_emit (EPerm r))|]. intros. now apply ct_ret. Qed.
  Lemma ct_load_word p : ct [] any (load_word a cf p) (load_word a cf p).
  Proof. eapply ct_bind0; [apply ct_load_ull|]. intros. now apply ct_ret. Qed.
  Lemma ct_put_lane p x y : ct [] eq (put_lane p x) (put_lane p y).
  Proof. eapply ct_bind0; [apply (ct_emit (EWr p 8))|]. intros ? ? _. apply ct_stores_. now rewrite !word_le_length. Qed.

  (* The loop state after k blocks: the lanes are free. *)
  Definition abs_at (src : ptr) (len : N) (k : nat) (x y : state * ptr * N) : Prop :=
    snd (fst x) = padd src (8 * N.of_nat k) /\ snd (fst y) = padd src (8 * N.of_nat k) /\
    snd x = len - 8 * N.of_nat k /\ snd y = len - 8 * N.of_nat k.

  Lemma sub64_8 n k : n < 2 ^ 64 -> 8 * (N.of_nat k + 1) <= n -> sub64 (n - 8 * N.of_nat k) 8 = n - 8 * N.of_nat (S k).
  Proof. intros H1 H2. unfold sub64. replace (n - 8 * N.of_nat k + 2 ^ 64 - 8) with (n - 8 * N.of_nat (S k) + 1 * 2 ^ 64) by lia.
    rewrite N.mod_add by lia. apply N.mod_small. lia. Qed.

  Lemma ct_ABSORB_LANES s s' src (n : nat) : N.of_nat n < 2 ^ 64 ->
    ct (repeat 12 (n / 8 + 1)) any (ABSORB_LANES a cf s src (N.of_nat n)) (ABSORB_LANES a cf s' src (N.of_nat n)).
  Proof.
    intros Hn. set (q := (n / 8)%nat). assert (Hq : (8 * q <= n < 8 * q + 8)%nat) by (unfold q; pose proof (Nat.div_mod n 8); pose proof (Nat.mod_upper_bound n 8); lia).
    eapply ct_eq.
    - unfold ABSORB_LANES. eapply ct_bind.
      + apply (ct_while0 (abs_at src (N.of_nat n)) [12] _ _ _ q).
        * intros k [[x px] lx] [[y py] ly] Hk (_ & _ & E1 & E2). cbn [fst snd] in *. subst lx ly. split; lia.
        * intros k [[x px] lx] [[y py] ly] Hk (P1 & P2 & E1 & E2). cbn [fst snd] in *. subst px py lx ly.
          unfold absorb_full. eapply ct_bind0; [apply ct_load_word|]. intros t t' _.
          eapply (ct_bind [12] []); [apply ct_perm|]. intros z z' _. apply ct_ret. unfold abs_at. cbn [fst snd].
          rewrite padd_padd, sub64_8 by lia. replace (8 * N.of_nat k + 8) with (8 * N.of_nat (S k)) by lia. auto.
        * unfold abs_at. cbn [fst snd]. change (8 * N.of_nat 0) with 0. rewrite padd_0, N.sub_0_r. auto.
      + intros [[x px] lx] [[y py] ly] (P1 & P2 & E1 & E2). cbn [fst snd] in *. subst px py lx ly.
        apply (ct_if [12]); intros _; [|apply ct_perm].
        eapply ct_bind0.
        * apply (ct_for_silent (fun x y => snd x = snd y)); auto. intros i [t p] [t' p'] E. cbn [fst snd] in *. subst p'.
          eapply ct_bind0; [apply ct_load|]. intros. now apply ct_ret.
        * intros. apply ct_perm.
    - rewrite concat_repeat1. symmetry. apply repeat_app.
  Qed.

  Lemma ct_isap_rk k iv y y' out out' outlen :
    (forall i, ct [] any (y i) (y' i)) ->
    ct (12 :: repeat 1 127 ++ [12]) any (isap_rk a cf k iv y out outlen) (isap_rk a cf k iv y' out' outlen).
  Proof.
    intros Hy. eapply ct_eq.
    - unfold isap_rk. do 3 (eapply ct_bind0; [apply ct_load_word|]; intros ? ? _).
      eapply ct_bind; [apply ct_perm|]. intros s s' _. eapply ct_bind.
      + apply (ct_for (fun k x y => snd x = snd y) (fun k => repeat 1 (if (k =? 15)%nat then 7 else 8)) 16); auto.
        intros i [z iz] [z' iz'] Hi E. cbn [snd] in E. subst iz'.
        eapply ct_bind0; [apply Hy|]. intros vb vb' _.
        assert (Q : repeat 1 (if (i =? 15)%nat then 7 else 8) = repeat 1 7 ++ repeat 1 (if (i =? 15)%nat then 0 else 1))
          by (destruct (i =? 15)%nat; reflexivity).
        rewrite Q. cbn [repeat]. 
        do 7 (eapply (ct_bind [1]); [apply ct_perm|]; intros ? ? _).
        apply ct_if; intros E.
        * replace (i =? 15)%nat with false by lia. eapply (ct_bind [1] []); [apply ct_perm|]. intros. now apply ct_ret.
        * replace (i =? 15)%nat with true by lia. now apply ct_ret.
      + intros [z iz] [z' iz'] E. eapply ct_bind; [apply ct_perm|]. intros w w' _.
        apply (ct_if []); intros _; now apply ct_ret.
    - reflexivity.
  Qed.

  Lemma ct_mac_state npub ad (x : nat) c (n : nat) : N.of_nat x < 2 ^ 64 -> N.of_nat n < 2 ^ 64 ->
    ct (repeat 12 (x / 8 + n / 8 + 3)) any (mac_state a cf npub ad (N.of_nat x) c (N.of_nat n))
       (mac_state a cf npub ad (N.of_nat x) c (N.of_nat n)).
  Proof.
    intros Hx Hn. eapply ct_eq.
    - unfold mac_state. do 3 (eapply ct_bind0; [apply ct_load_word|]; intros ? ? _).
      eapply (ct_bind (repeat 12 1)); [apply ct_perm|]. intros s s' _.
      eapply ct_bind; [now apply ct_ABSORB_LANES|]. intros z z' _. now apply ct_ABSORB_LANES.
    - rewrite <- !repeat_app. f_equal. lia.
  Qed.
  Lemma ct_mac_tag k s s' tag : ct ((12 :: repeat 1 127 ++ [12]) ++ [12]) any (mac_tag a cf k s tag) (mac_tag a cf k s' tag).
  Proof.
    unfold mac_tag. eapply ct_bind.
    - apply ct_isap_rk. intros. now apply ct_ret.
    - intros z z' _. eapply (ct_bind [12] []); [apply ct_perm|]. intros w w' _.
      eapply ct_bind0; [apply ct_put_lane|]. intros ? ? _. eapply ct_any, ct_put_lane.
  Qed.
  Lemma ct_isap_mac k npub ad (x : nat) c (n : nat) tag : N.of_nat x < 2 ^ 64 -> N.of_nat n < 2 ^ 64 ->
    ct (repeat 12 (x / 8 + n / 8 + 3) ++ (12 :: repeat 1 127 ++ [12]) ++ [12]) any
       (isap_mac a cf k npub ad (N.of_nat x) c (N.of_nat n) tag) (isap_mac a cf k npub ad (N.of_nat x) c (N.of_nat n) tag).
  Proof. intros Hx Hn. eapply ct_bind; [now apply ct_mac_state|]. intros z z' _. apply ct_mac_tag. Qed.

  Definition enc_at (m c : ptr) (len : N) (k : nat) (x y : state * ptr * N * ptr) : Prop :=
    snd (fst (fst x)) = padd m (8 * N.of_nat k) /\ snd (fst (fst y)) = padd m (8 * N.of_nat k) /\
    snd (fst x) = len - 8 * N.of_nat k /\ snd (fst y) = len - 8 * N.of_nat k /\
    snd x = padd c (8 * N.of_nat k) /\ snd y = padd c (8 * N.of_nat k).

  Lemma ct_isap_enc k npub m (n : nat) c : N.of_nat n < 2 ^ 64 ->
    ct ((12 :: repeat 1 127 ++ [12]) ++ repeat 6 ((n + 7) / 8)) any
       (isap_enc a cf junk k npub m (N.of_nat n) c) (isap_enc a cf junk k npub m (N.of_nat n) c).
  Proof.
    intros Hn. set (q := (n / 8)%nat). assert (Hq : (8 * q <= n < 8 * q + 8)%nat) by (unfold q; pose proof (Nat.div_mod n 8); pose proof (Nat.mod_upper_bound n 8); lia).
    assert (E7 : ((n + 7) / 8 = q + (if (0 <? N.of_nat n - 8 * N.of_nat q)%N then 1 else 0))%nat).
    { destruct (0 <? N.of_nat n - 8 * N.of_nat q) eqn:E.
      - symmetry. apply (Nat.div_unique _ _ _ (n + 7 - 8 * (q + 1))); lia.
      - symmetry. apply (Nat.div_unique _ _ _ 7); lia. }
    eapply ct_eq.
    - unfold isap_enc. eapply ct_bind; [apply ct_isap_rk; intros; apply ct_load|]. intros s s' _.
      do 2 (eapply ct_bind0; [apply ct_load_word|]; intros ? ? _).
      eapply ct_bind.
      + apply (ct_while0 (enc_at m c (N.of_nat n)) [6] _ _ _ q).
        * intros j [[[x px] lx] cx] [[[y py] ly] cy] Hk (_ & _ & E1 & E2 & _). cbn [fst snd] in *. subst lx ly. split; lia.
        * intros j [[[x px] lx] cx] [[[y py] ly] cy] Hk (P1 & P2 & E1 & E2 & P3 & P4). cbn [fst snd] in *. subst px py lx ly cx cy.
          unfold enc_full. eapply (ct_bind [6] []); [apply ct_perm|]. intros z z' _.
          eapply ct_bind0; [apply ct_load_ull|]. intros ? ? _. eapply ct_bind0; [apply ct_store_ull|]. intros ? ? _.
          apply ct_ret. unfold enc_at. cbn [fst snd]. rewrite !padd_padd, sub64_8 by lia.
          replace (8 * N.of_nat j + 8) with (8 * N.of_nat (S j)) by lia. auto 6.
        * unfold enc_at. cbn [fst snd]. change (8 * N.of_nat 0) with 0. rewrite !padd_0, N.sub_0_r. auto 6.
      + intros [[[x px] lx] cx] [[[y py] ly] cy] (P1 & P2 & E1 & E2 & P3 & P4). cbn [fst snd] in *. subst px py lx ly cx cy.
        apply (ct_if (repeat 6 (if 0 <? N.of_nat n - 8 * N.of_nat q then 1 else 0))); intros ->; [|now apply ct_ret].
        eapply (ct_bind [6] []); [apply ct_perm|]. intros z z' _.
        eapply ct_bind0.
        * apply (ct_for_silent eq); auto. intros i [p1 c1] [p2 c2] E. injection E as -> ->.
          eapply ct_bind0; [apply ct_load|]. intros ? ? _. eapply ct_bind0; [apply ct_store|]. intros ? ? _. now apply ct_ret.
        * intros. now apply ct_ret.
    - rewrite E7, concat_repeat1, <- repeat_app. reflexivity.
  Qed.
End Opt.
