(* Traces and permutation calls of the reference implementation. Proofs only. *)
From Verif Require Import Base Prog SpecPerm Words RefPerm AsconProof KeccakProof Mem Vocab MemProof RefLib Trace.
From Verif Require Spec RefIsap.
From Verif Require Import Sponge RefProof RefAead SpecFacts Api.
Import Spec(inst, i_sz, i_rate, i_sH, i_sB, i_sE, i_sK, i_perm).
Import RefIsap.
Open Scope N_scope.
Open Scope cm_scope.

(* ---- same trace ---- *)

Record lib_ct (L : plib) : Prop := {
  lc_init : forall s, rel eq (pl_init L s) (pl_init L s);
  lc_add : forall s d o n, rel eq (pl_add L s d o n) (pl_add L s d o n);
  lc_over : forall s d o n, rel eq (pl_over L s d o n) (pl_over L s d o n);
  lc_perm : forall s r, rel eq (pl_perm L s r) (pl_perm L s r);
  lc_extract : forall s d o n, rel eq (pl_extract L s d o n) (pl_extract L s d o n) }.

Lemma rel_asserts cf SZ o n : rel eq (lib_asserts cf SZ o n) (lib_asserts cf SZ o n).
Proof. eapply rel_bind; [apply rel_assert|]. intros. apply rel_assert. Qed.

Lemma rel_AddBytes cf SZ s d o n : rel eq (lib_AddBytes cf SZ s d o n) (lib_AddBytes cf SZ s d o n).
Proof.
  eapply rel_bind; [apply rel_asserts|]. intros _ _ _. apply rel_for; auto. intros i a b _.
  eapply rel_bind; [apply rel_load|]. intros. eapply rel_bind; [apply rel_load|]. intros. apply rel_store.
Qed.

Lemma rel_Extract cf SZ s d o n : rel eq (lib_ExtractBytes cf SZ s d o n) (lib_ExtractBytes cf SZ s d o n).
Proof. eapply rel_bind; [apply rel_asserts|]. intros. apply rel_memcpy. Qed.

Lemma rel_load64 p : rel any (load64 p) (load64 p).
Proof.
  apply rel_for; [|exact Logic.I]. intros i a b _. eapply rel_bind; [apply rel_load|]. intros. apply rel_ret. exact Logic.I.
Qed.
Lemma rel_store64 p x y : rel eq (store64 p x) (store64 p y).
Proof. apply rel_for; auto. intros. apply rel_store. Qed.

Lemma rel_Ascon_Permute cf s r : rel eq (Ascon_Permute_Nrounds cf s r) (Ascon_Permute_Nrounds cf s r).
Proof.
  eapply rel_bind; [apply rel_assert|]. intros _ _ _. eapply rel_bind; [apply rel_emit|]. intros _ _ _.
  do 5 (eapply rel_bind; [apply rel_load64|]; intros ? ? _).
  cbv zeta. do 4 (eapply rel_bind; [apply rel_store64|]; intros _ _ _). apply rel_store64.
Qed.

Lemma rel_load_lanes cf n p : rel (fun a b => length a = n /\ length b = n) (load_lanes cf n p) (load_lanes cf n p).
Proof.
  revert p; induction n as [|n IH]; intros p; cbn [load_lanes]; [now apply rel_ret|].
  eapply rel_bind; [apply rel_loadn|]. intros b b' _. eapply rel_bind; [apply IH|]. intros x y [H1 H2]. apply rel_ret.
  cbn. auto.
Qed.
Lemma rel_store_lanes cf ws ws' p : length ws = length ws' -> rel eq (store_lanes cf ws p) (store_lanes cf ws' p).
Proof.
  revert ws' p; induction ws as [|w ws IH]; intros [|w' ws'] p H; try discriminate; cbn [store_lanes]; [now apply rel_ret|].
  eapply rel_bind; [apply rel_storen; now rewrite !word_le_length|]. intros. apply IH. now injection H.
Qed.
Lemma firstn_run_length p ws n k : length ws = n -> length (firstn n (run p (ws ++ repeat 0 k))) = n.
Proof. intros H. rewrite firstn_length, run_length, app_length, H. lia. Qed.
Lemma fold_round_length {A} (f : A -> list N -> list N) n l ws :
  (forall i w, length w = n -> length (f i w) = n) -> length ws = n -> length (fold_left (fun w i => f i w) l ws) = n.
Proof. intros Hf. revert ws; induction l as [|i l IH]; intros ws H; cbn [fold_left]; auto. Qed.
Lemma keccak_words_length r ws : length ws = 25%nat -> length (keccak_ref_words r ws) = 25%nat.
Proof.
  intros H. exact (fold_round_length keccak_ref_round 25 _ ws (fun i w E => firstn_run_length (k_ref_round i) w 25 35 E) H).
Qed.
Lemma rel_Keccak_Permute cf s r : rel eq (KeccakP400_Permute_Nrounds cf s r) (KeccakP400_Permute_Nrounds cf s r).
Proof.
  eapply rel_bind; [apply rel_emit|]. intros _ _ _. eapply rel_bind; [apply rel_load_lanes|]. intros a b [H1 H2].
  apply rel_store_lanes. now rewrite !keccak_words_length.
Qed.

Lemma ascon_ct cf : lib_ct (ascon_lib cf).
Proof.
  constructor; cbn; intros.
  - apply rel_memset.
  - apply rel_AddBytes.
  - eapply rel_bind; [apply rel_asserts|]. intros _ _ _. apply rel_for; auto. intros i a b _.
    eapply rel_bind; [apply rel_load|]. intros. apply rel_store.
  - apply rel_Ascon_Permute.
  - apply rel_Extract.
Qed.
Lemma keccak_ct cf : lib_ct (keccak_lib cf).
Proof.
  constructor; cbn; intros.
  - apply rel_memset.
  - apply rel_AddBytes.
  - eapply rel_bind; [apply rel_asserts|]. intros _ _ _. apply rel_memcpy.
  - apply rel_Keccak_Permute.
  - apply rel_Extract.
Qed.

(* ---- permutation calls ---- *)

Record lib_calls (L : plib) : Prop := {
  ll_init : forall s, silent (pl_init L s);
  ll_add : forall s d o n, silent (pl_add L s d o n);
  ll_over : forall s d o n, silent (pl_over L s d o n);
  ll_perm : forall s r, calls (pl_perm L s r) (fun _ ps => ps = [r]);
  ll_extract : forall s d o n, silent (pl_extract L s d o n) }.

Lemma silent_asserts cf SZ o n : silent (lib_asserts cf SZ o n).
Proof. apply silent_bind; [apply silent_assert|]. intros. apply silent_assert. Qed.
Lemma silent_AddBytes cf SZ s d o n : silent (lib_AddBytes cf SZ s d o n).
Proof.
  apply silent_bind; [apply silent_asserts|]. intros _. apply silent_for. intros i a.
  apply silent_bind; [apply silent_load|]. intros. apply silent_bind; [apply silent_load|]. intros. apply silent_store.
Qed.
Lemma silent_Extract cf SZ s d o n : silent (lib_ExtractBytes cf SZ s d o n).
Proof. apply silent_bind; [apply silent_asserts|]. intros. apply silent_memcpy. Qed.
Lemma silent_load64 p : silent (load64 p).
Proof. apply silent_for. intros. apply silent_bind; [apply silent_load|]. intros. apply silent_ret. Qed.
Lemma silent_store64 p x : silent (store64 p x).
Proof. apply silent_for. intros. apply silent_store. Qed.

Lemma calls_silent_l {A B} (f : M A) (g : A -> M B) Q : silent f -> (forall a, calls (g a) Q) -> calls (bind f g) Q.
Proof. intros H1 H2. eapply calls_bind; [apply H1|]. intros a ps ->. apply H2. Qed.

Lemma calls_then_silent {A B} (f : M A) (g : A -> M B) P : calls f (fun _ ps => P ps) -> (forall a, silent (g a)) ->
  calls (bind f g) (fun _ ps => P ps).
Proof.
  intros H1 H2. eapply calls_bind; [apply H1|]. intros a ps HP. eapply calls_weaken; [apply H2|].
  cbn beta. intros _ qs ->. now rewrite app_nil_r.
Qed.

Lemma ascon_calls cf : lib_calls (ascon_lib cf).
Proof.
  constructor; cbn; intros.
  - apply silent_memset.
  - apply silent_AddBytes.
  - apply silent_bind; [apply silent_asserts|]. intros _. apply silent_for. intros i a.
    apply silent_bind; [apply silent_load|]. intros. apply silent_store.
  - apply calls_silent_l; [apply silent_assert|]. intros _.
    apply calls_then_silent; [apply calls_emit|]. intros _.
    do 5 (apply silent_bind; [apply silent_load64|]; intros ?). cbv zeta.
    do 4 (apply silent_bind; [apply silent_store64|]; intros _). apply silent_store64.
  - apply silent_Extract.
Qed.
Lemma keccak_calls cf : lib_calls (keccak_lib cf).
Proof.
  constructor; cbn; intros.
  - apply silent_memset.
  - apply silent_AddBytes.
  - apply silent_bind; [apply silent_asserts|]. intros _. apply silent_memcpy.
  - apply calls_then_silent; [apply calls_emit|]. intros _.
    apply silent_bind.
    + generalize 25%nat as n. intros n. revert s. induction n as [|n IH]; intros s; cbn [load_lanes]; [apply silent_ret|].
      apply silent_bind; [apply silent_loadn|]. intros. apply silent_bind; [apply IH|]. intros. apply silent_ret.
    + intros ws. generalize (keccak_ref_words r ws). intros l. revert s. induction l as [|w l IH]; intros s; cbn [store_lanes].
      * apply silent_ret.
      * apply silent_bind; [apply silent_storen|]. auto.
  - apply silent_Extract.
Qed.

(* Lists of calls. *)
Definition rk_calls (mc : macros) : list N := ISAP_sK mc :: repeat (ISAP_sB mc) 127 ++ [ISAP_sK mc].
Definition enc_calls (mc : macros) (rate mlen : nat) : list N :=
  rk_calls mc ++ repeat (ISAP_sE mc) ((mlen + rate - 1) / rate).
Definition mac_calls (mc : macros) (rate adlen clen : nat) : list N :=
  repeat (ISAP_sH mc) (1 + (adlen / rate + 1) + (clen / rate + 1)) ++ rk_calls mc ++ [ISAP_sH mc].

Lemma repeat_snoc {A} (x : A) n : repeat x n ++ [x] = repeat x (S n).
Proof. induction n as [|n IH]; auto. cbn [repeat app]. rewrite IH. reflexivity. Qed.

Section Ref.
  Variables (L : plib) (I : inst) (mc : macros) (maxr : nat) (okb : nat -> Prop).
  Hypothesis Hmc : mac_ok I mc maxr.
  Hypothesis Hct : lib_ct L.
  Hypothesis Hll : lib_calls L.
  Notation rate := (i_rate I).
  Notation rH := (ISAP_sH mc).

  Lemma rel_add_local s v w o : rel eq (add_local L s v o) (add_local L s w o).
  Proof.
    apply rel_with_block. intros p. eapply rel_bind; [apply rel_store|]. intros _ _ _. apply (lc_add _ Hct).
  Qed.

  Lemma rel_isap_rk k iv inp inlen out outlen :
    rel eq (isap_rk L mc k iv inp inlen out outlen) (isap_rk L mc k iv inp inlen out outlen).
  Proof.
    apply rel_with_block. intros st.
    eapply rel_bind; [apply (lc_init _ Hct)|]. intros _ _ _.
    eapply rel_bind; [apply (lc_add _ Hct)|]. intros _ _ _.
    eapply rel_bind; [apply (lc_add _ Hct)|]. intros _ _ _.
    eapply rel_bind; [apply (lc_perm _ Hct)|]. intros _ _ _.
    eapply rel_bind.
    { apply (rel_for eq); auto. intros i a b _. eapply rel_bind; [apply rel_load|]. intros.
      eapply rel_bind; [apply rel_add_local|]. intros. apply (lc_perm _ Hct). }
    intros _ _ _. eapply rel_bind; [apply rel_load|]. intros.
    eapply rel_bind; [apply rel_add_local|]. intros _ _ _.
    eapply rel_bind; [apply (lc_perm _ Hct)|]. intros _ _ _. apply (lc_extract _ Hct).
  Qed.

  Lemma rel_perm_if b s r (x y z : N) : y = z ->
    rel eq (if_ b (Permutation_Permute_Nrounds L s r ;; ret x) (ret y)) (if_ b (Permutation_Permute_Nrounds L s r ;; ret x) (ret z)).
  Proof.
    intros ->. apply rel_if; [|now apply rel_ret]. eapply rel_bind; [apply (lc_perm _ Hct)|]. intros. now apply rel_ret.
  Qed.

  Lemma rel_isap_mac k npub ad adlen c clen tag :
    rel eq (isap_mac L mc k npub ad adlen c clen tag) (isap_mac L mc k npub ad adlen c clen tag).
  Proof.
    apply rel_with_block. intros st.
    eapply rel_bind; [apply (lc_init _ Hct)|]. intros _ _ _.
    eapply rel_bind; [apply (lc_add _ Hct)|]. intros _ _ _.
    eapply rel_bind; [apply (lc_add _ Hct)|]. intros _ _ _.
    eapply rel_bind; [apply (lc_perm _ Hct)|]. intros _ _ _.
    eapply rel_bind.
    { apply (rel_for eq); auto. intros i a b <-.
      eapply rel_bind; [apply rel_perm_if; reflexivity|]. intros x y <-.
      eapply rel_bind; [apply rel_load|]. intros. eapply rel_bind; [apply rel_add_local|]. intros. now apply rel_ret. }
    intros x y <-. eapply rel_bind.
    { eapply rel_bind; [apply rel_perm_if; reflexivity|]. intros z z' <-.
      eapply rel_bind; [apply rel_add_local|]. intros. apply (lc_perm _ Hct). }
    intros _ _ _. eapply rel_bind; [apply rel_add_local|]. intros _ _ _.
    eapply rel_bind.
    { apply (rel_for eq); auto. intros i a b <-.
      eapply rel_bind; [apply rel_load|]. intros. eapply rel_bind; [apply rel_add_local|]. intros.
      cbv zeta. now apply rel_perm_if. }
    intros z z' <-. eapply rel_bind; [apply rel_add_local|]. intros _ _ _.
    eapply rel_bind; [apply (lc_perm _ Hct)|]. intros _ _ _.
    apply rel_with_block. intros yp. apply rel_with_block. intros kp.
    eapply rel_bind; [apply (lc_extract _ Hct)|]. intros _ _ _.
    eapply rel_bind; [apply rel_isap_rk|]. intros _ _ _.
    eapply rel_bind; [apply (lc_over _ Hct)|]. intros _ _ _.
    eapply rel_bind; [apply (lc_perm _ Hct)|]. intros _ _ _. apply (lc_extract _ Hct).
  Qed.

  Lemma rel_isap_enc k npub m mlen c : rel eq (isap_enc L mc k npub m mlen c) (isap_enc L mc k npub m mlen c).
  Proof.
    apply rel_with_block. intros st.
    eapply rel_bind; [apply rel_isap_rk|]. intros _ _ _.
    eapply rel_bind; [apply (lc_over _ Hct)|]. intros _ _ _.
    eapply rel_bind.
    { apply (rel_for eq); auto. intros i a b <-.
      eapply rel_bind; [apply rel_perm_if; reflexivity|]. intros x y <-.
      eapply rel_bind.
      { apply rel_with_block. intros kb. eapply rel_bind; [apply (lc_extract _ Hct)|]. intros _ _ _.
        eapply rel_bind; [apply rel_load|]. intros. eapply rel_bind; [apply rel_load|]. intros. apply rel_store. }
      intros. now apply rel_ret. }
    intros. now apply rel_ret.
  Qed.

  Lemma rel_encrypt cf c clen m mlen ad adlen npub k :
    rel eq (crypto_aead_encrypt L mc cf c clen m mlen ad adlen npub k) (crypto_aead_encrypt L mc cf c clen m mlen ad adlen npub k).
  Proof.
    eapply rel_bind; [now apply rel_storen|]. intros _ _ _.
    eapply rel_bind; [apply rel_if; [apply rel_isap_enc|now apply rel_ret]|]. intros _ _ _.
    eapply rel_bind; [apply rel_isap_mac|]. intros. now apply rel_ret.
  Qed.

  (* ---- *)

  Lemma silent_add_local s v o : silent (add_local L s v o).
  Proof.
    apply calls_with_block. intros p. apply silent_bind; [apply silent_store|]. intros _. apply (ll_add _ Hll).
  Qed.

  Lemma round_small r : r <= 255 -> u32 r = r.
  Proof. intros H. apply N.mod_small. lia. Qed.
  Lemma rounds_small : ISAP_sH mc <= 255 /\ ISAP_sB mc <= 255 /\ ISAP_sE mc <= 255 /\ ISAP_sK mc <= 255.
  Proof. destruct Hmc. lia. Qed.

  Lemma calls_perm s r : r <= 255 -> calls (Permutation_Permute_Nrounds L s r) (fun _ ps => ps = [r]).
  Proof. intros H. unfold Permutation_Permute_Nrounds. rewrite round_small by auto. apply (ll_perm _ Hll). Qed.

  Lemma calls_isap_rk k iv inp out outlen : calls (isap_rk L mc k iv inp 16 out outlen) (fun _ ps => ps = rk_calls mc).
  Proof.
    destruct rounds_small as (H1 & H2 & H3 & H4).
    apply calls_with_block. intros st.
    apply calls_silent_l; [apply (ll_init _ Hll)|]. intros _.
    apply calls_silent_l; [apply (ll_add _ Hll)|]. intros _.
    apply calls_silent_l; [apply (ll_add _ Hll)|]. intros _.
    eapply calls_bind; [now apply calls_perm|]. intros _ ps ->.
    change (sub64 (u64 (16 * 8)) 1) with (N.of_nat 127).
    eapply calls_bind.
    { apply (calls_for (fun _ => tt) (repeat (ISAP_sB mc)) 127); auto. intros j Hj.
      apply calls_silent_l; [apply silent_load|]. intros.
      apply calls_silent_l; [apply silent_add_local|]. intros _.
      eapply calls_weaken; [now apply calls_perm|]. cbn beta. intros [] ps ->. split; auto. apply repeat_snoc. }
    cbn beta. intros _ ps [_ ->].
    apply calls_silent_l; [apply silent_load|]. intros.
    apply calls_silent_l; [apply silent_add_local|]. intros _.
    apply calls_then_silent; [|intros; apply (ll_extract _ Hll)].
    eapply calls_weaken; [now apply calls_perm|]. cbn beta. intros _ qs ->. reflexivity.
  Qed.

  Lemma calls_perm_if b s r (x y : N) : r <= 255 ->
    calls (if_ b (Permutation_Permute_Nrounds L s r ;; ret x) (ret y))
          (fun a ps => a = (if b then x else y) /\ ps = if b then [r] else []).
  Proof.
    intros Hr. apply calls_if; intros ->.
    - eapply calls_bind; [now apply calls_perm|]. intros _ ps ->. now apply calls_ret.
    - now apply calls_ret.
  Qed.

  Lemma succ_mod k : (0 < rate)%nat ->
    (S k mod rate = if (k mod rate =? rate - 1)%nat then 0 else S (k mod rate))%nat /\
    (S k / rate = if (k mod rate =? rate - 1)%nat then S (k / rate) else k / rate)%nat.
  Proof.
    intros Hr. pose proof (Nat.div_mod k rate ltac:(lia)) as E. pose proof (Nat.mod_upper_bound k rate ltac:(lia)) as Hm.
    destruct (Nat.eqb_spec (k mod rate) (rate - 1)) as [H|H].
    - assert (S k = rate * S (k / rate) + 0)%nat as -> by nia.
      rewrite Nat.mul_comm. rewrite Nat.add_comm, Nat.mod_add, Nat.div_add by lia.
      rewrite Nat.mod_small, Nat.div_small by lia. lia.
    - assert (S k = S (k mod rate) + (k / rate) * rate)%nat as -> by nia.
      rewrite Nat.mod_add, Nat.div_add by lia. rewrite (Nat.mod_small (S (k mod rate))), (Nat.div_small (S (k mod rate))) by lia.
      rewrite ?Nat.mod_add, ?Nat.div_add by lia. rewrite ?Nat.mod_mod by lia. split; lia.
  Qed.

  (* Lazy absorption: room left and calls made after k bytes. *)
  Definition la (k : nat) : nat := match k with O => rate | S j => rate - 1 - j mod rate end.
  Definition lp (k : nat) : nat := match k with O => 0 | S j => j / rate end.

  Lemma la_step k : (0 < rate)%nat ->
    la (S k) = ((if (la k =? 0)%nat then rate else la k) - 1)%nat /\
    lp (S k) = (lp k + if (la k =? 0)%nat then 1 else 0)%nat.
  Proof.
    intros Hr. destruct k as [|j]; cbn [la lp].
    - rewrite Nat.mod_small, Nat.div_small by lia. destruct (Nat.eqb_spec rate 0); lia.
    - destruct (succ_mod j Hr) as [-> ->]. pose proof (Nat.mod_upper_bound j rate ltac:(lia)).
      destruct (Nat.eqb_spec (j mod rate) (rate - 1)); destruct (Nat.eqb_spec (rate - 1 - j mod rate) 0); lia.
  Qed.
  Lemma la_end k : (0 < rate)%nat -> (lp k + (if (la k =? 0)%nat then 1 else 0) + 1 = k / rate + 1)%nat.
  Proof.
    intros Hr. destruct k as [|j]; cbn [la lp].
    - rewrite Nat.div_small by lia. destruct (Nat.eqb_spec rate 0); lia.
    - destruct (succ_mod j Hr) as [_ ->]. pose proof (Nat.mod_upper_bound j rate ltac:(lia)).
      destruct (Nat.eqb_spec (j mod rate) (rate - 1)); destruct (Nat.eqb_spec (rate - 1 - j mod rate) 0); lia.
  Qed.

  Lemma calls_isap_mac k npub ad adlen c clen tag :
    calls (isap_mac L mc k npub ad (N.of_nat adlen) c (N.of_nat clen) tag) (fun _ ps => ps = mac_calls mc rate adlen clen).
  Proof.
    destruct rounds_small as (H1 & H2 & H3 & H4).
    pose proof (mo_rate _ _ _ Hmc) as Hr. pose proof (mo_byte _ _ _ Hmc) as Hr2.
    pose proof (rH_SZ I mc maxr Hmc) as ErH.
    apply calls_with_block. intros st.
    apply calls_silent_l; [apply (ll_init _ Hll)|]. intros _.
    apply calls_silent_l; [apply (ll_add _ Hll)|]. intros _.
    apply calls_silent_l; [apply (ll_add _ Hll)|]. intros _.
    eapply calls_bind; [now apply calls_perm|]. intros _ ps ->.
    eapply calls_bind.
    { unfold mac_ad_loop. rewrite ErH. apply (calls_for (fun j => N.of_nat (la j)) (fun j => repeat rH (lp j)) adlen); auto.
      intros j Hj. destruct (la_step j ltac:(lia)) as [E1 E2].
      eapply calls_bind; [now apply calls_perm_if|]. intros av ps [-> ->].
      apply calls_silent_l; [apply silent_load|]. intros.
      apply calls_silent_l; [apply silent_add_local|]. intros _. apply calls_ret.
      assert (Hla : (la j <= rate)%nat) by (destruct j; cbn [la]; lia).
      replace (N.of_nat (la j) =? 0) with (la j =? 0)%nat by lia. rewrite E1, E2.
      destruct (Nat.eqb_spec (la j) 0) as [Z|Z].
      - split; [rewrite sub64_small; lia|]. cbn [app]. rewrite repeat_snoc. f_equal. lia.
      - split; [rewrite sub64_small; lia|]. cbn [app]. rewrite app_nil_r. f_equal. lia. }
    cbn beta. intros av ps [-> ->].
    apply (calls_bind _ _ (fun _ ps => ps = (if N.of_nat (la adlen) =? 0 then [rH] else []) ++ [rH])).
    { unfold mac_ad_pad. rewrite ErH. eapply calls_bind; [now apply calls_perm_if|]. intros a ps [-> ->].
      apply calls_silent_l; [apply silent_add_local|]. intros _.
      eapply calls_weaken; [now apply calls_perm|]. cbn beta. intros _ qs ->. reflexivity. }
    cbn beta. intros _ ps ->.
    apply calls_silent_l; [apply silent_add_local|]. intros _.
    eapply calls_bind.
    { unfold mac_c_loop. rewrite ErH.
      apply (calls_for (fun j => N.of_nat (rate - j mod rate)) (fun j => repeat rH (j / rate)) clen).
      - rewrite Nat.mod_small by lia. f_equal. lia.
      - now rewrite Nat.div_small by lia.
      - intros j Hj. destruct (succ_mod j ltac:(lia)) as [E1 E2].
        pose proof (Nat.mod_upper_bound j rate ltac:(lia)) as Hm.
        apply calls_silent_l; [apply silent_load|]. intros.
        apply calls_silent_l; [apply silent_add_local|]. intros _. cbv zeta.
        replace (sub64 (N.of_nat (rate - j mod rate)) 1) with (N.of_nat (rate - j mod rate - 1)) by (rewrite sub64_small; lia).
        eapply calls_weaken; [now apply calls_perm_if|]. cbn beta. intros z ps [-> ->]. rewrite E1, E2.
        destruct (Nat.eqb_spec (j mod rate) (rate - 1)) as [Z|Z].
        + replace (N.of_nat (rate - j mod rate - 1) =? 0) with true by lia. split; [lia|]. apply repeat_snoc.
        + replace (N.of_nat (rate - j mod rate - 1) =? 0) with false by lia. split; [lia|]. apply app_nil_r. }
    cbn beta. intros av ps [-> ->].
    apply calls_silent_l; [apply silent_add_local|]. intros _.
    eapply calls_bind; [now apply calls_perm|]. intros _ ps ->.
    apply calls_with_block. intros yp. apply calls_with_block. intros kp.
    apply calls_silent_l; [apply (ll_extract _ Hll)|]. intros _.
    eapply calls_bind; [apply calls_isap_rk|]. intros _ ps ->.
    apply calls_silent_l; [apply (ll_over _ Hll)|]. intros _.
    apply calls_then_silent; [|intros; apply (ll_extract _ Hll)].
    eapply calls_weaken; [now apply calls_perm|]. cbn beta. intros _ qs ->.
    unfold mac_calls. pose proof (la_end adlen ltac:(lia)) as E.
    replace (N.of_nat (la adlen) =? 0) with (la adlen =? 0)%nat by lia.
    replace (1 + (adlen / rate + 1) + (clen / rate + 1))%nat
      with (1 + (lp adlen + ((if (la adlen =? 0)%nat then 1 else 0) + (1 + (clen / rate + 1)))))%nat by lia.
    rewrite !repeat_app. cbn [repeat]. rewrite <- !app_assoc. cbn [app]. f_equal. f_equal.
    destruct (la adlen =? 0)%nat; cbn [repeat app]; reflexivity.
  Qed.

  Lemma ceil_step k : (0 < rate)%nat ->
    ((rate - S k mod rate) mod rate = (if ((rate - k mod rate) mod rate =? 0)%nat then rate else (rate - k mod rate) mod rate) - 1)%nat /\
    ((S k + rate - 1) / rate = (k + rate - 1) / rate + if ((rate - k mod rate) mod rate =? 0)%nat then 1 else 0)%nat.
  Proof.
    intros Hr. destruct (succ_mod k Hr) as [E1 E2]. pose proof (Nat.mod_upper_bound k rate ltac:(lia)) as Hm.
    pose proof (Nat.div_mod k rate ltac:(lia)) as Ek.
    assert (A : ((rate - k mod rate) mod rate = if (k mod rate =? 0)%nat then 0 else rate - k mod rate)%nat).
    { destruct (Nat.eqb_spec (k mod rate) 0) as [->|]; [rewrite Nat.sub_0_r; apply Nat.mod_same; lia|apply Nat.mod_small; lia]. }
    assert (B : ((k + rate - 1) / rate = k / rate + if (k mod rate =? 0)%nat then 0 else 1)%nat).
    { destruct (Nat.eqb_spec (k mod rate) 0) as [Z|Z].
      - replace (k + rate - 1)%nat with ((rate - 1) + (k / rate) * rate)%nat by nia. rewrite Nat.div_add, Nat.div_small by lia. lia.
      - replace (k + rate - 1)%nat with ((k mod rate - 1) + (k / rate + 1) * rate)%nat by nia.
        rewrite Nat.div_add, Nat.div_small by lia. lia. }
    replace (S k + rate - 1)%nat with (k + 1 * rate)%nat by lia. rewrite Nat.div_add by lia. rewrite A, B, E1.
    destruct (Nat.eqb_spec (k mod rate) (rate - 1)) as [Z|Z].
    - rewrite Nat.sub_0_r, Nat.mod_same by lia.
      destruct (Nat.eqb_spec (k mod rate) 0); cbn [Nat.eqb]; destruct (Nat.eqb_spec (rate - k mod rate) 0); lia.
    - rewrite Nat.mod_small by lia.
      destruct (Nat.eqb_spec (k mod rate) 0); cbn [Nat.eqb]; destruct (Nat.eqb_spec (rate - k mod rate) 0); lia.
  Qed.

  Lemma calls_isap_enc k npub m mlen c :
    calls (isap_enc L mc k npub m (N.of_nat mlen) c) (fun _ ps => ps = enc_calls mc rate mlen).
  Proof.
    destruct rounds_small as (H1 & H2 & H3 & H4).
    pose proof (mo_rate _ _ _ Hmc) as Hr. pose proof (mo_byte _ _ _ Hmc) as Hr2.
    pose proof (rH_SZ I mc maxr Hmc) as ErH.
    apply calls_with_block. intros st.
    eapply calls_bind; [apply calls_isap_rk|]. intros _ ps ->.
    apply calls_silent_l; [apply (ll_over _ Hll)|]. intros _.
    rewrite ErH. unfold enc_calls. eapply calls_bind.
    { apply (calls_for (fun j => N.of_nat ((rate - j mod rate) mod rate)) (fun j => repeat (ISAP_sE mc) ((j + rate - 1) / rate)) mlen).
      - rewrite (Nat.mod_small 0), Nat.sub_0_r, Nat.mod_same by lia. reflexivity.
      - rewrite Nat.div_small by lia. reflexivity.
      - intros j Hj. destruct (ceil_step j ltac:(lia)) as [E1 E2].
        pose proof (Nat.mod_upper_bound (rate - j mod rate) rate ltac:(lia)) as Hm.
        eapply calls_bind; [now apply calls_perm_if|]. intros av ps [-> ->].
        apply calls_silent_l.
        { apply calls_with_block. intros kb. apply silent_bind; [apply (ll_extract _ Hll)|]. intros _.
          apply silent_bind; [apply silent_load|]. intros. apply silent_bind; [apply silent_load|]. intros. apply silent_store. }
        intros _. apply calls_ret. rewrite E1, E2. clear E1 E2.
        set (q := ((rate - j mod rate) mod rate)%nat) in *. clearbody q.
        replace (N.of_nat q =? 0) with (q =? 0)%nat by lia.
        destruct (Nat.eqb_spec q 0) as [Z|Z].
        + split; [rewrite sub64_small; lia|]. rewrite app_nil_r, Nat.add_1_r. apply repeat_snoc.
        + split; [rewrite sub64_small; lia|]. now rewrite !app_nil_r, Nat.add_0_r. }
    cbn beta. intros _ ps [_ ->]. apply calls_ret. now rewrite app_nil_r.
  Qed.

  Lemma calls_encrypt cf c clen m mlen ad adlen npub k :
    calls (crypto_aead_encrypt L mc cf c clen m (N.of_nat mlen) ad (N.of_nat adlen) npub k)
      (fun _ ps => ps = (if (mlen =? 0)%nat then [] else enc_calls mc rate mlen) ++ mac_calls mc rate adlen mlen).
  Proof.
    apply calls_silent_l; [apply silent_storen|]. intros _.
    apply (calls_bind _ _ (fun _ ps => ps = if (mlen =? 0)%nat then [] else enc_calls mc rate mlen)).
    { apply calls_if; intros E; destruct (Nat.eqb_spec mlen 0); try lia.
      - apply calls_isap_enc.
      - now apply calls_ret. }
    cbn beta. intros _ ps ->.
    apply calls_then_silent; [|intros; apply silent_ret].
    eapply calls_weaken; [apply calls_isap_mac|]. cbn beta. intros _ qs ->. reflexivity.
  Qed.
End Ref.
