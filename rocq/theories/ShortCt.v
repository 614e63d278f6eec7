(* Decryption of fewer than 16 bytes by the reference implementation: undefined behaviour. Proofs only. *)
From Verif Require Import Base Prog SpecPerm Words RefPerm AsconProof KeccakProof Mem Vocab MemProof RefLib.
From Verif Require Spec RefIsap.
From Verif Require Import Sponge RefProof RefAead SpecFacts.
Import Spec(inst, i_sz, i_rate, i_sH, i_sB, i_sE, i_sK, i_perm).
Import RefIsap(plib, macros).
Open Scope N_scope.
Open Scope cm_scope.

Definition ubs {A} (f : M A) (m : mem) : Prop := forall t, f (St m t) = UB.

Lemma ubs_bind1 {A B} (f : M A) (g : A -> M B) m : ubs f m -> ubs (bind f g) m.
Proof. intros H t. unfold bind. now rewrite H. Qed.
Lemma ubs_bind2 {A B} (f : M A) (g : A -> M B) m a m1 : runs f m a m1 -> ubs (g a) m1 -> ubs (bind f g) m.
Proof. intros H1 H2 t. unfold bind. destruct (H1 t) as [t' ->]. apply H2. Qed.
Lemma ubs_with_block {A} n (f : ptr -> M A) m : ubs (f (P (length m) 0)) (m ++ [uninit n]) -> ubs (with_block n f) m.
Proof. intros H t. unfold with_block. cbn [smem strc]. now rewrite H. Qed.
Lemma ubs_load p m : rd1 m p = None -> ubs (load p) m.
Proof. intros H t. unfold load, bind, emit, load_. cbn [smem]. now rewrite H. Qed.

Lemma ubs_for_nat {A} (I : nat -> A) (mm : nat -> mem) j n body i :
  (j < n)%nat ->
  (forall k, (k < j)%nat -> runs (body (i + N.of_nat k) (I k)) (mm k) (I (S k)) (mm (S k))) ->
  ubs (body (i + N.of_nat j) (I j)) (mm j) -> ubs (for_nat n i body (I 0%nat)) (mm 0%nat).
Proof.
  revert I mm n i; induction j as [|j IH]; intros I mm n i Hj Hr Hu; destruct n as [|n]; try lia; cbn [for_nat].
  - eapply ubs_bind2; [apply runs_branch|]. apply ubs_bind1. now replace (i + N.of_nat 0) with i in Hu by lia.
  - eapply ubs_bind2; [apply runs_branch|].
    eapply ubs_bind2.
    { specialize (Hr 0%nat ltac:(lia)). replace (i + N.of_nat 0) with i in Hr by lia. exact Hr. }
    apply (IH (fun k => I (S k)) (fun k => mm (S k)) n (i + 1)); try lia.
    + intros k Hk. specialize (Hr (S k) ltac:(lia)). now replace (i + 1 + N.of_nat k) with (i + N.of_nat (S k)) by lia.
    + now replace (i + 1 + N.of_nat j) with (i + N.of_nat (S j)) by lia.
Qed.

Section Ref.
  Variables (L : plib) (I : inst) (mc : macros) (maxr : nat) (okb : nat -> Prop) (cf : cfg).
  Hypothesis HL : lib_ok L (i_sz I) (i_perm I) maxr okb.
  Hypothesis Hmc : mac_ok I mc maxr.
  Notation rate := (i_rate I).
  Notation sz := (i_sz I).
  Notation pH := (i_perm I (i_sH I)).
  Notation eg := (eager_step rate pH).

  Lemma ub_c_loop (m : mem) s (rest : mem) c C n : okb (length m) -> wf I s -> has m c C -> bytes C ->
    (pb c < length m)%nat -> rd1 m (padd c (N.of_nat (length C))) = None -> N.of_nat (length C) < n ->
    ubs (RefIsap.mac_c_loop L mc (P (length m) 0) c n) (m ++ map Some s :: rest).
  Proof.
    intros Hb Ws HA BA Hpb Hend Hn. unfold RefIsap.mac_c_loop. rewrite (rH_SZ I mc maxr Hmc).
    pose proof (mo_rate _ _ _ Hmc) as Hr. pose proof (mo_byte _ _ _ Hmc) as Hr2.
    apply (ubs_for_nat (fun k => N.of_nat (snd (fold_left eg (firstn k C) (s, rate))))
                    (fun k => m ++ map Some (fst (fold_left eg (firstn k C) (s, rate))) :: rest) (length C)).
    - lia.
    - intros k Hk.
      pose proof (eager_avail rate pH ltac:(lia) (firstn k C) s) as Hav.
      pose proof (eager_ok rate pH (wf I) (wf_pH L I mc maxr okb HL Hmc) (fun s o b => wf_add1 I s o b) (firstn k C) (s, rate)
                    (bytes_firstn _ _ BA) Ws) as Wk.
      rewrite (firstn_snoc C k 0), fold_left_app by auto. cbn [fold_left].
      destruct (fold_left eg (firstn k C) (s, rate)) as [sk a]. cbn [fst snd] in *.
      eapply runs_bind; [apply runs_load, rd1_app, HA; auto|].
      eapply runs_bind.
      + apply (r_add_local L I maxr okb HL m sk rest _ (rate - a)); [rewrite sub64_small; lia|apply Wk|lia].
      + cbv zeta. replace (sub64 (N.of_nat a) 1) with (N.of_nat (a - 1)) by (rewrite sub64_small; lia).
        assert (Wk1 : wf I (addat sk (rate - a) [nth k C 0])) by (apply wf_add1; auto; now apply bytes_nth).
        eapply runs_eq; [apply (r_lazy_perm L I mc maxr okb HL Hmc m _ rest (a - 1)); auto; lia| |];
          unfold eager_step; cbn [fst snd]; now destruct (a - 1 =? 0)%nat.
    - apply ubs_bind1, ubs_load. rewrite rd1_cell, cellp_app by exact Hpb. rewrite <- rd1_cell.
      now replace (0 + N.of_nat (length C)) with (N.of_nat (length C)) by lia.
  Qed.

  Lemma ub_isap_mac (m : mem) k npub ad c tag nb A C n : okbs okb m ->
    has m npub nb -> has m ad A -> has m c C -> (pb c < length m)%nat ->
    rd1 m (padd c (N.of_nat (length C))) = None -> N.of_nat (length C) < n ->
    has m RefIsap.ISAP_IV_A (Spec.iv_A I) ->
    length nb = 16%nat -> bytes nb -> bytes A -> bytes C ->
    ubs (RefIsap.isap_mac L mc k npub ad (N.of_nat (length A)) c n tag) m.
  Proof.
    intros Hokb Hn HA HC Hpbc Hend Hlt HivA Ln Bn BA BC.
    pose proof (mo_szlo _ _ _ Hmc) as Hz. pose proof (mo_rate _ _ _ Hmc) as Hr.
    pose proof (mo_byte _ _ _ Hmc) as Hr2.
    assert (Hb0 : okb (length m)) by (apply Hokb; lia).
    assert (BivA : bytes (Spec.iv_A I)) by (apply (bytes_iv I mc maxr Hmc); lia).
    unfold RefIsap.isap_mac. rewrite (mo_sz _ _ _ Hmc), Nat2N.id.
    set (s0 := pH (Spec.zpad I (nb ++ Spec.iv_A I))).
    assert (Wz : wf I (Spec.zpad I (nb ++ Spec.iv_A I))).
    { apply wf_zpad; [now apply bytes_app|]. rewrite app_length. cbn [length Spec.iv_A Spec.iv]. lia. }
    assert (Ws0 : wf I s0) by now apply (wf_pH L I mc maxr okb HL Hmc).
    set (s1 := Spec.absorb I s0 (chunks rate (Spec.pad rate A))).
    assert (Ws1 : wf I s1) by now apply (wf_absorb L I mc maxr okb HL Hmc).
    assert (Hpb : forall p bs x, has m p bs -> length bs = S x -> pb p <> length m).
    { intros p bs x H1 H2. pose proof (has_pb _ _ _ H1 (nonnil _ _ H2)). lia. }
    apply ubs_with_block.
    eapply ubs_bind2; [apply (r_init L I maxr okb HL); [apply uninit_length|reflexivity]|].
    eapply ubs_bind2.
    { apply (r_add L I maxr okb HL m (repeat 0 sz) [] npub nb 0); auto; try lia.
      - now rewrite Ln.
      - apply repeat_length.
      - now apply has_app.
      - now apply (Hpb _ _ 15%nat Hn). }
    eapply ubs_bind2.
    { apply (r_add L I maxr okb HL m _ [] RefIsap.ISAP_IV_A (Spec.iv_A I) 16); auto; try (cbn [length Spec.iv_A Spec.iv]; lia).
      - now rewrite addat_length, repeat_length.
      - now apply has_app.
      - now apply (Hpb _ _ 7%nat HivA). }
    rewrite (zpad_add I mc maxr Hmc) by auto.
    eapply ubs_bind2.
    { apply (r_permute L I mc maxr okb HL Hmc m _ [] (i_sH I)); auto; [apply (mo_sH _ _ _ Hmc)|apply (mo_leH _ _ _ Hmc)]. }
    fold s0.
    eapply ubs_bind2; [apply (r_ad_loop L I mc maxr okb HL Hmc m s0 [] ad A); auto|].
    pose proof (lazy_spec rate pH ltac:(lia) A s0) as Elz.
    pose proof (lazy_avail rate pH ltac:(lia) A s0) as Hav.
    pose proof (lazy_ok rate pH (wf I) (wf_pH L I mc maxr okb HL Hmc) (fun s o b => wf_add1 I s o b) A (s0, rate) BA Ws0) as Wk.
    destruct (fold_left _ A (s0, rate)) as [sk a]. cbn [fst snd] in Hav, Wk. cbn [fst snd].
    eapply ubs_bind2; [apply (r_ad_pad L I mc maxr okb HL Hmc m sk a []); auto|].
    rewrite Elz. change (fold_left _ (chunks rate (Spec.pad rate A)) s0) with s1. clear sk a Elz Hav Wk.
    eapply ubs_bind2.
    { apply (r_add_local L I maxr okb HL m s1 [] 1 (sz - 1)); [lia|apply Ws1|lia]. }
    apply ubs_bind1. apply (ub_c_loop m _ [] c C); auto.
    apply wf_add1; auto. lia.
  Qed.

  (* Y: everything that can be read from c on. *)
  Lemma ref_short mm m mlen c clen ad npub k Nn A Y :
    (forall b, (length mm <= b)%nat -> okb b) ->
    clen < 16 -> consts_ok (ref_consts mc) mm ->
    bytes_at mm npub Nn -> length Nn = 16%nat -> bytes_at mm ad A ->
    bytes_at mm c Y -> rd1 mm (padd c (N.of_nat (length Y))) = None -> N.of_nat (length Y) < 2 ^ 64 - 16 ->
    (pb c < length mm)%nat ->
    room mm mlen 8 -> (3 <= pb mlen)%nat -> aligned cf mlen 8 = true ->
    disj mlen 8 npub 16 -> disj mlen 8 ad (length A) -> pb mlen <> pb c ->
    ubs (RefIsap.crypto_aead_decrypt L mc cf m mlen c clen ad (N.of_nat (length A)) npub k) mm.
  Proof.
    intros Hok Hc Vc [Bn Hn] Ln [Ba Ha] [By Hy] Hend Ly Hpb Rl Pl Al D1 D2 D3.
    unfold RefIsap.crypto_aead_decrypt, RefIsap.ISAP_TAG_SZ.
    assert (E : sub64 clen 16 = 2 ^ 64 - 16 + clen).
    { unfold sub64. replace (clen + 2 ^ 64 - 16) with (2 ^ 64 - 16 + clen) by lia. apply N.mod_small. lia. }
    rewrite E. set (n := 2 ^ 64 - 16 + clen).
    assert (Hn64 : n < 2 ^ 64) by (unfold n; lia).
    set (m1 := putp mm mlen (word_le 8 n)).
    assert (Hl8 : room mm mlen (length (word_le 8 n))) by now rewrite word_le_length.
    eapply ubs_bind2; [apply runs_store_ull; auto|]. fold m1.
    assert (F1 : forall q bs, has mm q bs -> disj mlen 8 q (length bs) -> has m1 q bs).
    { intros q bs H1 H2. apply has_putp_disj; rewrite ?word_le_length; auto. }
    assert (C1 : consts_ok (ref_consts mc) m1) by now apply consts_putp.
    assert (Hml : has m1 mlen (word_le 8 n)) by now apply has_putp_same.
    apply ubs_with_block.
    eapply ubs_bind2; [apply (runs_load_ull cf mlen n); auto; now apply has_app|].
    assert (C1' : consts_ok (ref_consts mc) (m1 ++ [uninit 16])) by (apply consts_app; [auto|apply ref_nonempty]).
    destruct (ref_ivs I mc maxr Hmc _ C1') as (I1 & I2 & I3).
    apply ubs_bind1.
    assert (L1 : length m1 = length mm) by apply putp_length.
    assert (Dy : forall q k, pb q = pb c -> disj mlen 8 q k).
    { intros q k0 Hq i j _ _ Eq. apply D3. injection Eq. congruence. }
    apply (ub_isap_mac _ k npub ad c _ Nn A Y); auto.
    - apply okbs_app. apply okbs_putp. exact Hok.
    - apply has_app, F1; auto. now rewrite Ln.
    - apply has_app, F1; auto.
    - apply has_app, F1; auto.
    - rewrite app_length. lia.
    - rewrite rd1_cell, cellp_app by (cbn [padd pb]; lia). unfold cellp, m1. rewrite blk_putp_other by (cbn [padd pb]; auto).
      rewrite rd1_cell in Hend. exact Hend.
    - unfold n. lia.
  Qed.
End Ref.

Theorem ref_short_ub v cf mm m mlen c clen ad npub k Nn A Y :
  ref_locals v cf mm -> clen < 16 -> consts_ok (ref_consts (v_macros v)) mm ->
  bytes_at mm npub Nn -> length Nn = 16%nat -> bytes_at mm ad A ->
  bytes_at mm c Y -> rd1 mm (padd c (N.of_nat (length Y))) = None -> N.of_nat (length Y) < 2 ^ 64 - 16 ->
  (pb c < length mm)%nat ->
  room mm mlen 8 -> (3 <= pb mlen)%nat -> aligned cf mlen 8 = true ->
  disj mlen 8 npub 16 -> disj mlen 8 ad (length A) -> pb mlen <> pb c ->
  forall t, a_dec (ref_impl v cf) m mlen c clen ad (N.of_nat (length A)) npub k (St mm t) = UB.
Proof. apply (ref_short _ _ _ _ _ cf (v_libok v cf) (v_macok v)). Qed.
