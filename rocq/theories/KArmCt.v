(* Traces of the functions of KArm.v. Proofs only. *)
From Verif Require Import Base Prog SpecPerm Words Mem Vocab MemProof RefLib KIsap KArmPerm KArm Trace Ct OptCt KCt.
From Verif Require Spec RefIsap.
Import RefIsap(CRYPTO_KEYBYTES, CRYPTO_NPUBBYTES, load_lanes, store_lanes).
Open Scope N_scope.
Open Scope cm_scope.

Lemma upd_nth_length {A} (l : list A) i x : length (upd_nth l i x) = length l.
Proof. revert i; induction l as [|y l IH]; intros [|i]; cbn [upd_nth length]; auto. Qed.

Section Arm.
  Variable A : armcode.
  Variable scr : st -> list N.
  Variable R : krounds.
  Variable cf : cfg.

  Lemma a_step_length X Y i e e' : a_step A X Y i e = Some e' -> length e' = length e.
  Proof. unfold a_step. destruct (nth_error _ _); [|discriminate]. intros E. injection E as <-. now rewrite run_length, upd_nth_length. Qed.
  Lemma a_odd_length fuel : forall i e e', a_odd A fuel i e = Some e' -> length e' = length e.
  Proof.
    induction fuel as [|fuel IH]; intros i e e' H; [discriminate|]. cbn [a_odd] in H.
    destruct (a_step A AT AS i e) as [e1|] eqn:E1; [|discriminate]. apply a_step_length in E1.
    destruct (nth_error _ _) as [t|]; [|discriminate]. destruct (t =? a_term A); [injection H as <-; auto|].
    destruct (a_step A AS AT (S i) e1) as [e2|] eqn:E2; [|discriminate]. apply a_step_length in E2. apply IH in H. congruence.
  Qed.
  Lemma a_perm_lanes_length z nr ws ws' : a_perm_lanes A z nr ws = Some ws' -> length ws' = Nat.min 25 (length ws + length z).
  Proof.
    unfold a_perm_lanes, a_perm. destruct (20 <? nr); [discriminate|].
    destruct (N.even nr).
    - destruct (a_step A AS AT _ _) as [e1|] eqn:E1; [|discriminate]. apply a_step_length in E1. rewrite run_length in E1.
      destruct (a_odd A 20 _ e1) as [e2|] eqn:E2; [|discriminate]. apply a_odd_length in E2. intros E.
      assert (E' : ws' = firstn 25 e2) by congruence. rewrite E'.
      now rewrite firstn_length, E2, E1, app_length.
    - destruct (a_odd A 20 _ _) as [e2|] eqn:E2; [|discriminate]. apply a_odd_length in E2. rewrite run_length in E2. intros E.
      assert (E' : ws' = firstn 25 e2) by congruence. rewrite E'.
      now rewrite firstn_length, E2, app_length.
  Qed.

  Lemma ct_arm_Permute state nr : ct [nr] any (arm_Permute A scr cf state nr) (arm_Permute A scr cf state nr).
  Proof.
    unfold arm_Permute. destruct (aligned cf state 4); [|apply ct_fail].
    eapply (ct_bind [nr] []); [apply (ct_emit (EPerm nr))|]. intros ? ? _. eapply ct_bind0; [apply ct_load_lanes|]. intros x y [H1 H2].
    intros m1 m2 t va s1 vb s2 L E1 E2. cbv beta in *.
    destruct (a_perm_lanes A (scr (St m1 t)) nr x) as [x'|] eqn:X; [|discriminate].
    destruct (a_perm_lanes A (scr (St m2 t)) nr y) as [y'|] eqn:Y; [|discriminate].
    apply a_perm_lanes_length in X, Y.
    refine (ct_any _ _ _ _ (ct_store_lanes cf x' y' state _) m1 m2 t va s1 vb s2 L E1 E2). rewrite X, Y. lia.
  Qed.

  Lemma ct_rep n (f g : N -> M unit) : (forall j, ct [] any (f j) (g j)) -> forall j, ct [] any (rep n j f) (rep n j g).
  Proof. intros H. induction n as [|n IH]; intros j; cbn [rep]; [now apply ct_ret|]. eapply ct_bind0; [apply H|]. intros. apply IH. Qed.
  Lemma ct_xor_byte p v v' : ct [] any (xor_byte p v) (xor_byte p v').
  Proof. eapply ct_bind0; [apply ct_load|]. intros. eapply ct_any, ct_store. Qed.

  Lemma ct_arm_Initialize state : ct [] any (arm_Initialize cf state) (arm_Initialize cf state).
  Proof.
    eapply ct_bind0; [apply ct_rep; intros; eapply ct_any, ct_storen; reflexivity|]. intros. eapply ct_any, ct_storen; reflexivity.
  Qed.
  Lemma ct_arm_AddBytes s d o n : ct [] any (arm_AddBytes s d o n) (arm_AddBytes s d o n).
  Proof.
    eapply ct_any, (ct_for_silent any); [|exact I]. intros i ? ? _. do 2 (eapply ct_bind0; [apply ct_load|]; intros ? ? _). eapply ct_any, ct_store.
  Qed.
  Lemma ct_arm_copy d s n : ct [] any (arm_copy d s n) (arm_copy d s n).
  Proof. eapply ct_any, (ct_for_silent any); [|exact I]. intros i ? ? _. eapply ct_bind0; [apply ct_load|]; intros ? ? _. eapply ct_any, ct_store. Qed.

  Notation rk := (krK R :: repeat (krB R) 127 ++ [krK R]).
  Lemma ct_isap_rk k iv y out outlen : ct rk any (isap_rk A scr R cf k iv y 16 out outlen) (isap_rk A scr R cf k iv y 16 out outlen).
  Proof.
    unfold isap_rk. apply ct_with_block. intros st. eapply ct_bind0; [apply ct_arm_Initialize|]. intros ? ? _.
    do 2 (eapply ct_bind0; [apply ct_arm_AddBytes|]; intros ? ? _).
    change (krK R :: repeat (krB R) 127 ++ [krK R]) with ([krK R] ++ repeat (krB R) 127 ++ [krK R]).
    eapply ct_bind; [apply ct_arm_Permute|]. intros ? ? _. eapply ct_bind.
    - apply (ct_for1 any (krB R) 127); [reflexivity| |exact I]. intros i ? ? _.
      eapply ct_bind0; [apply ct_load|]. intros ? ? _. eapply ct_bind0; [apply ct_xor_byte|]. intros. apply ct_arm_Permute.
    - intros ? ? _. eapply ct_bind0; [apply ct_load|]. intros ? ? _. eapply ct_bind0; [apply ct_xor_byte|]. intros ? ? _.
      eapply (ct_bind [krK R] []); [apply ct_arm_Permute|]. intros. apply ct_arm_copy.
  Qed.

  Lemma ct_xor_half s src i j : ct [] any (xor_half cf s src i j) (xor_half cf s src i j).
  Proof.
    do 2 (eapply ct_bind0; [apply ct_loadn|]; intros ? ? _). eapply ct_any, ct_storen. now rewrite !word_le_length.
  Qed.
  Lemma ct_enc_half s m c i j : ct [] any (enc_half cf s m c i j) (enc_half cf s m c i j).
  Proof.
    do 2 (eapply ct_bind0; [apply ct_loadn|]; intros ? ? _). eapply ct_any, ct_storen. now rewrite !word_le_length.
  Qed.

  Definition i_at (len : N) (k : nat) (x y : N * N) : Prop := fst x = fst y /\ snd x = len - 18 * N.of_nat k /\ snd y = len - 18 * N.of_nat k.
  Lemma sub32_18 n k : n < 2 ^ 32 -> 18 * (N.of_nat k + 1) <= n -> sub32 (n - 18 * N.of_nat k) 18 = n - 18 * N.of_nat (S k).
  Proof. intros H1 H2. unfold sub32. replace (n - 18 * N.of_nat k + 2 ^ 32 - 18) with (n - 18 * N.of_nat (S k) + 1 * 2 ^ 32) by lia.
    rewrite N.mod_add by lia. apply N.mod_small. lia. Qed.

  Lemma ct_absorb s src n : N.of_nat n < 2 ^ 32 ->
    ct (repeat (krH R) (n / 18 + 1)) any (absorb A scr R cf s src (N.of_nat n)) (absorb A scr R cf s src (N.of_nat n)).
  Proof.
    intros Hn. set (q := (n / 18)%nat). assert (Hq : (18 * q <= n < 18 * q + 18)%nat) by (unfold q; pose proof (Nat.div_mod n 18); pose proof (Nat.mod_upper_bound n 18); lia).
    eapply ct_eq.
    - unfold absorb. eapply ct_bind.
      + apply (ct_while0 (i_at (N.of_nat n)) [krH R] _ _ _ q).
        * intros k [ix lx] [iy ly] Hk (_ & E1 & E2). cbn [fst snd] in *. subst lx ly. split; lia.
        * intros k [ix lx] [iy ly] Hk (P1 & E1 & E2). cbn [fst snd] in *. subst iy lx ly.
          eapply ct_bind0; [apply ct_rep; intros; apply ct_xor_half|]. intros ? ? _.
          eapply (ct_bind [krH R] []); [apply ct_arm_Permute|]. intros ? ? _. apply ct_ret. unfold i_at. cbn [fst snd].
          rewrite sub32_18 by lia. auto.
        * unfold i_at. cbn [fst snd]. change (18 * N.of_nat 0) with 0. rewrite N.sub_0_r. auto.
      + intros [ix lx] [iy ly] (P1 & E1 & E2). cbn [fst snd] in *. subst iy lx ly. cbv zeta.
        eapply ct_bind0.
        * apply (ct_for_silent any); [|exact I]. intros i ? ? _. eapply ct_bind0; [apply ct_load|]. intros. apply ct_xor_byte.
        * intros ? ? _. eapply ct_bind0; [apply ct_xor_byte|]. intros. apply ct_arm_Permute.
    - rewrite concat_repeat1, repeat_app. reflexivity.
  Qed.

  Lemma ct_isap_mac k npub ad (x : nat) c (n : nat) tag : N.of_nat x < 2 ^ 32 -> N.of_nat n < 2 ^ 32 ->
    ct (repeat (krH R) (x / 18 + n / 18 + 3) ++ rk ++ [krH R]) any
       (isap_mac A scr R cf k npub ad (N.of_nat x) c (N.of_nat n) tag) (isap_mac A scr R cf k npub ad (N.of_nat x) c (N.of_nat n) tag).
  Proof.
    intros Hx Hn. eapply ct_eq.
    - unfold isap_mac, u32. rewrite !N.mod_small by auto. apply ct_with_block. intros st. eapply ct_bind0; [apply ct_arm_Initialize|]. intros ? ? _.
      do 2 (eapply ct_bind0; [apply ct_arm_AddBytes|]; intros ? ? _).
      eapply (ct_bind (repeat (krH R) 1)); [apply ct_arm_Permute|]. intros ? ? _.
      eapply ct_bind; [now apply ct_absorb|]. intros ? ? _. eapply ct_bind0; [apply ct_xor_byte|]. intros ? ? _.
      eapply ct_bind; [now apply ct_absorb|]. intros ? ? _.
      apply ct_with_block. intros y. apply ct_with_block. intros ka.
      eapply ct_bind0; [apply ct_arm_copy|]. intros ? ? _. eapply ct_bind; [apply ct_isap_rk|]. intros ? ? _.
      eapply ct_bind0; [apply ct_arm_copy|]. intros ? ? _. eapply (ct_bind [krH R] []); [apply ct_arm_Permute|]. intros. apply ct_arm_copy.
    - replace (x / 18 + n / 18 + 3)%nat with (1 + ((x / 18 + 1) + (n / 18 + 1)))%nat by lia. rewrite !repeat_app, <- !app_assoc. reflexivity.
  Qed.

  Lemma ct_isap_enc k npub m (n : nat) c : N.of_nat n < 2 ^ 32 ->
    ct (rk ++ repeat (krE R) ((n + 17) / 18)) any
       (isap_enc A scr R cf k npub m (N.of_nat n) c) (isap_enc A scr R cf k npub m (N.of_nat n) c).
  Proof.
    intros Hn. set (q := (n / 18)%nat). assert (Hq : (18 * q <= n < 18 * q + 18)%nat) by (unfold q; pose proof (Nat.div_mod n 18); pose proof (Nat.mod_upper_bound n 18); lia).
    assert (E7 : ((n + 17) / 18 = q + (if (0 <? N.of_nat n - 18 * N.of_nat q)%N then 1 else 0))%nat).
    { destruct (0 <? N.of_nat n - 18 * N.of_nat q) eqn:E.
      - symmetry. apply (Nat.div_unique _ _ _ (n + 17 - 18 * (q + 1))); lia.
      - symmetry. apply (Nat.div_unique _ _ _ 17); lia. }
    eapply ct_eq.
    - assert (Eu : u32 (N.of_nat n) = N.of_nat n) by (unfold u32; now apply N.mod_small). unfold isap_enc. cbv zeta. rewrite Eu.
      apply ct_with_block. intros st. eapply ct_bind; [apply ct_isap_rk|]. intros ? ? _.
      eapply ct_bind0; [apply ct_arm_copy|]. intros ? ? _.
      eapply ct_bind.
      + apply (ct_while0 (i_at (N.of_nat n)) [krE R] _ _ _ q).
        * intros j [ix lx] [iy ly] Hk (_ & E1 & E2). cbn [fst snd] in *. subst lx ly. split; lia.
        * intros j [ix lx] [iy ly] Hk (P1 & E1 & E2). cbn [fst snd] in *. subst iy lx ly.
          eapply (ct_bind [krE R] []); [apply ct_arm_Permute|]. intros ? ? _.
          eapply ct_bind0; [apply ct_rep; intros; apply ct_enc_half|]. intros ? ? _. apply ct_ret. unfold i_at. cbn [fst snd].
          rewrite sub32_18 by lia. auto.
        * unfold i_at. cbn [fst snd]. change (18 * N.of_nat 0) with 0. rewrite N.sub_0_r. auto.
      + intros [ix lx] [iy ly] (P1 & E1 & E2). cbn [fst snd] in *. subst iy lx ly. 
        apply (ct_if (repeat (krE R) (if 0 <? N.of_nat n - 18 * N.of_nat q then 1 else 0))); intros ->; [|now apply ct_ret].
        eapply (ct_bind [krE R] []); [apply ct_arm_Permute|]. intros ? ? _.
        apply (ct_for_silent any); [|exact I]. intros i ? ? _.
        do 2 (eapply ct_bind0; [apply ct_load|]; intros ? ? _). eapply ct_any, ct_store.
    - rewrite E7, concat_repeat1, <- repeat_app. reflexivity.
  Qed.
End Arm.
