(* The four ARM implementations of the Keccak instances. Proofs only, except for the definitions used in PropsKArm.v. *)
From Verif Require Import Base Prog Poly SpecPerm Words KeccakProof RefPerm Mem Vocab VocabK MemProof RefLib Sponge LibProof RefProof RefAead SpecFacts.
From Verif Require Import ShortCt ExLib ExtProof OptEx Api ApiProof KIsap KIsapProof K64Impl KArmPerm KArmPermProof KArm KArmProof.
From Verif Require Spec ApiCode RefIsap K64Perm.
Import Spec(i_sz, i_sH, i_perm).
Open Scope N_scope.

(* ---------- definitions used in the statements ---------- *)

(* The two assembler files. *)
Inductive arm_file := Armv6m | Armv7m.
Definition arm_code (f : arm_file) : armcode := match f with Armv6m => armv6m | Armv7m => armv7m end.

(* Contents of registers and stack at a call of the permutation: 39 values of the widths of KArmPerm.v. *)
Definition regs_ok (scr : st -> list N) : Prop := forall z, ascr_ok (scr z).

(* isapk128av20 (K128A) and isapk128v20 (K128), opt_32_armv6m and opt_32_armv7m. *)
Definition impl_karm (v : variant) (f : arm_file) (scr : st -> list N) (cf : cfg) : aead :=
  api_aead cf (isap_enc (arm_code f) scr (k_rounds v) cf) (isap_mac (arm_code f) scr (k_rounds v) cf).

(* Lengths fit into unsigned long; the local arrays are 4-aligned (__attribute__((aligned(4)))). *)
Definition arm_lens : ext := fun _ _ _ _ alen _ _ n => N.of_nat alen < 2 ^ 32 /\ N.of_nat n < 2 ^ 32.
Definition arm_locals (cf : cfg) : ext := loc_ext (four_ok cf).
(* A buffer of 18 bytes or more that is read or written as uint16_t is 2-aligned, on a machine that requires alignment. *)
Definition even_if_long (cf : cfg) (p : ptr) (n : nat) : Prop := strict cf = true -> (18 <= n)%nat -> (base cf (pb p) + po p) mod 2 = 0.
Definition arm_even (cf : cfg) : ext := fun _ _ _ ad alen p q n => even_if_long cf ad alen /\ even_if_long cf p n /\ even_if_long cf q n.
Definition both (e1 e2 : ext) : ext := fun mm k npub ad alen p q n => e1 mm k npub ad alen p q n /\ e2 mm k npub ad alen p q n.
Definition arm_call (cf : cfg) : ext := both (both arm_lens (arm_locals cf)) (arm_even cf).

(* ---------- correctness ---------- *)

Lemma even_al2 cf p n : even_if_long cf p n <-> al2_long cf p n.
Proof.
  unfold even_if_long, al2_long, aligned. destruct (strict cf); cbn [negb orb].
  - split; intros H; intros; [apply N.eqb_eq|apply N.eqb_eq]; auto.
  - split; intros H; intros; auto; discriminate.
Qed.
Lemma even_no cf p n : ~ even_if_long cf p n -> (18 <= n)%nat /\ aligned cf p 2 = false.
Proof.
  rewrite even_al2. unfold al2_long. intros H. destruct (Nat.le_gt_cases 18 n); [|exfalso; apply H; intros; lia].
  split; auto. destruct (aligned cf p 2); auto. exfalso. now apply H.
Qed.
Lemma even_dec cf p n : even_if_long cf p n \/ ~ even_if_long cf p n.
Proof.
  rewrite even_al2. unfold al2_long. destruct (aligned cf p 2); [now left|]. destruct (Nat.le_gt_cases 18 n); [right|left; lia].
  intros H1. now specialize (H1 H).
Qed.

Lemma file_enc v f scr cf : kv v -> regs_ok scr ->
  enc_spec_g v (csK v) (fun _ => True) (al2_long cf) (four_ok cf) (2 ^ 32) (isap_enc (arm_code f) scr (k_rounds v) cf).
Proof.
  intros Hv Hs. destruct f.
  - exact (arm_enc_ok v armv6m _ scr cf Hv armv6m_ok armv6m_term Hs).
  - exact (arm_enc_ok v armv7m _ scr cf Hv armv7m_ok armv7m_term Hs).
Qed.
Lemma file_mac v f scr cf : kv v -> regs_ok scr ->
  mac_spec_g v (csK v) (fun _ => True) (al2_long cf) (four_ok cf) (2 ^ 32) (fun n => n) (isap_mac (arm_code f) scr (k_rounds v) cf).
Proof.
  intros Hv Hs. destruct f.
  - exact (arm_mac_ok v armv6m _ scr cf Hv armv6m_ok armv6m_term Hs).
  - exact (arm_mac_ok v armv7m _ scr cf Hv armv7m_ok armv7m_term Hs).
Qed.

Lemma karm_correct v f scr cf : kv v -> regs_ok scr -> impl_ok_if (v_inst v) cf (csK v) (arm_call cf) (impl_karm v f scr cf).
Proof.
  intros Hv Hs. constructor.
  - intros mm c clen m ad npub k K Nn A T [[[L1 L2] Hl] (E1 & E2 & E3)] V. rewrite even_al2 in *.
    apply (api_enc_ok_g v cf (csK v) (fun _ => True) (al2_long cf) (four_ok cf) (2 ^ 32) (fun n => n)); auto using file_enc, file_mac, k_ne.
    + intros n. lia.
    + apply room_has. apply (ev_ad _ _ _ _ _ _ _ _ _ _ _ _ _ V).
  - intros mm m mlen c ad npub k K Nn A Y [[[L1 L2] Hl] (E1 & E2 & E3)] V. rewrite even_al2 in *.
    apply (api_dec_ok_g v cf (csK v) (fun _ => True) (al2_long cf) (four_ok cf) (2 ^ 32) (fun n => n)); auto using file_enc, file_mac, k_ne.
    + intros n. lia.
    + lia.
    + apply room_has. apply (dv_ad _ _ _ _ _ _ _ _ _ _ _ _ _ V).
Qed.

Lemma karm_lax v f scr cf : kv v -> regs_ok scr -> strict cf = false -> impl_ok_if (v_inst v) cf (csK v) arm_lens (impl_karm v f scr cf).
Proof.
  intros Hv Hs Hc. apply (ioi_weaken _ _ _ (arm_call cf)); [|now apply karm_correct].
  intros mm k npub ad a p q n H. split; [split; auto|].
  - intros b _ E. rewrite Hc in E. discriminate.
  - repeat split; intros E; rewrite Hc in E; discriminate.
Qed.

(* ---------- an odd address ---------- *)

Lemma ub_mis cf n p m : aligned cf p n = false -> ubs (loadn cf n p) m.
Proof. intros H t. unfold loadn. now rewrite H. Qed.
Lemma ub_mis_store cf vs p m : aligned cf p (length vs) = false -> ubs (storen cf vs p) m.
Proof. intros H t. unfold storen. now rewrite H. Qed.

Lemma load2 cf m p bs : has m p bs -> (2 <= length bs)%nat -> aligned cf p 2 = true -> runs (loadn cf 2 p) m (firstn 2 bs) m.
Proof.
  intros H L Ha. destruct bs as [|a [|b bs]]; cbn [length] in L; try lia. apply (runs_loadn cf [a; b]); auto.
  exact (has_firstn m p (a :: b :: bs) 2 H).
Qed.

Section Odd.
  Variables (v : variant) (A : armcode) (mid : nat -> prog) (scr : st -> list N) (cf : cfg).
  Hypothesis Hv : kv v.
  Hypothesis HA : arm_ok A mid.
  Hypothesis Hterm : forall i, (i < 20)%nat -> nth i K64Perm.KeccakF400RoundConstants 0 <> a_term A.
  Hypothesis Hscr : forall z, ascr_ok (scr z).
  Notation I := (v_inst v).
  Notation R := (k_rounds v).
  Notation okb := (four_ok cf).
  Notation S_ := (map (@Some N)).
  Notation state m := (P (length m) 0).
  Notation wf := (RefProof.wf I).
  Let HL := v_libok v cf.
  Let Hmc := v_macok v.
  Notation pH := (i_perm I (i_sH I)).

  Lemma ub_absorb (m : mem) s (rest : mem) src n : okb (length m) -> wf s -> (18 <= n)%nat -> aligned cf src 2 = false ->
    ubs (absorb A scr R cf (state m) src (N.of_nat n)) (m ++ S_ s :: rest).
  Proof.
    intros Hb W L18 Ha. unfold absorb. apply ubs_bind1. cbn [while_]. eapply ubs_bind2; [apply runs_branch|].
    replace (18 <=? snd (0, N.of_nat n)) with true by (cbn [snd]; lia).
    apply ubs_bind1, ubs_bind1. change 9%nat with (S 8). cbn [rep]. apply ubs_bind1. unfold xor_half.
    change (padd (state m) (2 * 0)) with (padd (state m) 0). rewrite padd_0.
    pose proof (wfl v Hv s W) as Ls.
    eapply ubs_bind2.
    { apply (load2 cf _ _ s); [apply has_blk0, blk_mid|lia|apply (al2_state cf (length m) 0 Hb)]. }
    apply ubs_bind1, ub_mis. change (2 * u32 (0 + 0)) with 0. now rewrite padd_0.
  Qed.

  (* The associated data is at fault, or it is not and the ciphertext is. *)
  Lemma ub_mac mm k npub ad c tag Nn AD C : consts_ok (csK v) mm -> locs okb mm -> bytes_at mm npub Nn -> length Nn = 16%nat ->
    bytes_at mm ad AD -> N.of_nat (length AD) < 2 ^ 32 -> N.of_nat C < 2 ^ 32 ->
    ~ even_if_long cf ad (length AD) \/ ~ even_if_long cf c C ->
    ubs (isap_mac A scr R cf k npub ad (N.of_nat (length AD)) c (N.of_nat C) tag) mm.
  Proof.
    intros Hc Hokb [Bn Hn] Ln [BA HAD] LA LC Hodd.
    rewrite k_consts in Hc by auto. destruct (arm_ivs v mm Hc) as (HivA & _).
    assert (Hb0 : okb (length mm)) by (apply Hokb; lia).
    assert (BivA : bytes (Spec.iv_A I)) by (apply k_iv; auto; lia).
    unfold isap_mac. rewrite !u32_small by lia.
    assert (Wz : wf (Spec.zpad I (Nn ++ Spec.iv_A I))).
    { apply (wfz v Hv); [now apply bytes_app|]. rewrite app_length. cbn [length Spec.iv_A Spec.iv]. lia. }
    set (s0 := pH (Spec.zpad I (Nn ++ Spec.iv_A I))).
    assert (Ws0 : wf s0) by apply (wfp v A Hv Hterm _ _ _ (okH v Hv) Wz).
    assert (Hpb : forall p bs x, has mm p bs -> length bs = S x -> pb p <> length mm).
    { intros p bs x H1 H2. pose proof (has_pb _ _ _ H1 (nonnil _ _ H2)). lia. }
    apply ubs_with_block.
    eapply ubs_bind2; [apply (a_init A cf Hterm); [exact Hb0|apply uninit_length]|].
    eapply ubs_bind2.
    { apply (a_add A Hterm mm (repeat 0 50) [] npub Nn 0); auto; try (rewrite repeat_length; lia).
      - now rewrite Ln.
      - now apply has_app.
      - now apply (Hpb _ _ 15%nat Hn). }
    eapply ubs_bind2.
    { apply (a_add A Hterm mm _ [] RefIsap.ISAP_IV_A (Spec.iv_A I) 16); auto; try (rewrite addat_length, repeat_length; cbn [length Spec.iv_A Spec.iv]; lia).
      - now apply has_app.
      - now apply (Hpb _ _ 7%nat HivA). }
    rewrite (zadd v Hv) by auto.
    eapply ubs_bind2; [apply (a_permute v A mid scr cf Hv HA Hterm Hscr mm _ [] _ _ (okH v Hv)); auto|]. fold s0.
    destruct (even_dec cf ad (length AD)) as [Ea|Ea].
    - destruct Hodd as [H|H]; [now destruct (H Ea)|]. destruct (even_no _ _ _ H) as [L18 Hal].
      apply even_al2 in Ea.
      eapply ubs_bind2; [apply (a_absorb v A mid scr cf Hv HA Hterm Hscr mm s0 [] ad AD); auto|].
      set (s1 := fold_left _ _ _).
      assert (Ws1 : wf s1) by (apply (wf_pad_absorb v Hv); auto).
      eapply ubs_bind2; [apply (a_xor A Hterm mm s1 [] 1 49); [reflexivity|rewrite (wfl v Hv _ Ws1); lia]|].
      apply ubs_bind1, ub_absorb; auto. apply wf_addat; auto. repeat constructor.
    - destruct (even_no _ _ _ Ea) as [L18 Hal]. apply ubs_bind1. now apply ub_absorb.
  Qed.

  Lemma ub_enc mm k npub mp c kb nb T : consts_ok (csK v) mm -> locs okb mm -> bytes_at mm k kb -> length kb = 16%nat ->
    bytes_at mm npub nb -> length nb = 16%nat -> bytes_at mm mp T -> N.of_nat (length T) < 2 ^ 32 ->
    ~ even_if_long cf mp (length T) \/ ~ even_if_long cf c (length T) ->
    ubs (isap_enc A scr R cf k npub mp (N.of_nat (length T)) c) mm.
  Proof.
    intros Hc Hokb [Bk Hk] Lk [Bn Hn] Ln [BT HT] LT Hodd.
    rewrite k_consts in Hc by auto. destruct (arm_ivs v mm Hc) as (_ & _ & HivKE).
    assert (Hb0 : okb (length mm)) by (apply Hokb; lia).
    assert (L18 : (18 <= length T)%nat) by (destruct Hodd as [H|H]; apply (even_no _ _ _ H)).
    assert (BivKE : bytes (Spec.iv_KE I)) by (apply k_iv; auto; lia).
    assert (Wk : bytes (Spec.isap_rk I kb (Spec.iv_KE I) nb 34) /\ length (Spec.isap_rk I kb (Spec.iv_KE I) nb 34) = 34%nat)
      by (apply (wf_rk _ _ _ _ _ HL Hmc); auto; rewrite ?(sz50 v Hv); lia).
    set (RK := Spec.isap_rk I kb (Spec.iv_KE I) nb 34) in *. destruct Wk as [BRK LRK].
    set (s0 := RK ++ nb).
    assert (W0 : wf s0).
    { split; [unfold s0; rewrite app_length, (sz50 v Hv); lia|]. apply bytes_app. now split. }
    unfold isap_enc. rewrite u32_small by lia. apply ubs_with_block.
    eapply ubs_bind2.
    { apply (a_rk v A mid scr cf Hv HA Hterm Hscr (mm ++ [uninit 50]) k RefIsap.ISAP_IV_KE npub (P (length mm) 0) kb (Spec.iv_KE I) nb 34);
        auto; try lia; try now apply has_app.
      - apply Hokb. rewrite app_length. lia.
      - apply room_of_le. cbn [pb po]. rewrite blk_mid, uninit_length. lia. }
    fold RK.
    replace (putp (mm ++ [uninit 50]) (P (length mm) 0) RK) with (mm ++ [S_ RK ++ uninit 16]).
    2:{ unfold putp, put. cbn [pb po]. rewrite blk_mid, upd_mid. change (N.to_nat 0) with 0%nat.
        rewrite splice_app, map_length, LRK. reflexivity. }
    apply (ubs_bind2 _ _ _ tt (mm ++ [S_ s0])).
    { eapply runs_eq; [apply (a_over A Hterm mm (S_ RK ++ uninit 16) [] npub nb 34); auto; try lia| |].
      - now rewrite Ln.
      - now apply has_app.
      - pose proof (has_pb _ _ _ Hn (nonnil _ _ Ln)). lia.
      - rewrite app_length, map_length, uninit_length. lia.
      - reflexivity.
      - do 2 f_equal. unfold splice. rewrite firstn_app, map_length, LRK, Nat.sub_diag, firstn_O.
        rewrite firstn_all2 by (rewrite map_length; lia).
        rewrite skipn_all2 by (rewrite app_length, !map_length, uninit_length; lia).
        rewrite !app_nil_r. unfold s0. now rewrite map_app. }
    apply ubs_bind1. cbn [while_]. eapply ubs_bind2; [apply runs_branch|].
    replace (18 <=? snd (0, N.of_nat (length T))) with true by (cbn [snd]; lia).
    apply ubs_bind1. eapply ubs_bind2; [apply (a_permute v A mid scr cf Hv HA Hterm Hscr mm _ [] _ _ (okE v Hv)); auto|].
    set (s1 := i_perm _ _ _). assert (W1 : wf s1) by apply (wfp v A Hv Hterm _ _ _ (okE v Hv) W0).
    apply ubs_bind1. change 9%nat with (S 8). cbn [rep]. apply ubs_bind1. unfold enc_half.
    change (2 * u32 (0 + 0)) with 0. change (padd (state mm) (2 * 0)) with (padd (state mm) 0). rewrite !padd_0.
    destruct (aligned cf mp 2) eqn:Ea; [|apply ubs_bind1; now apply ub_mis].
    assert (Hcal : aligned cf c 2 = false).
    { destruct Hodd as [H|H]; destruct (even_no _ _ _ H) as [_ E]; auto. now rewrite E in Ea. }
    pose proof (wfl v Hv s1 W1) as Ls.
    eapply ubs_bind2; [apply (load2 cf _ _ T); [now apply has_app|lia|exact Ea]|].
    eapply ubs_bind2.
    { apply (load2 cf _ _ s1); [apply has_blk0, blk_mid|lia|apply (al2_state cf (length mm) 0 Hb0)]. }
    apply ub_mis_store. now rewrite word_le_length.
  Qed.
End Odd.

Lemma file_ub_enc v f scr cf mm k npub mp c kb nb T : kv v -> regs_ok scr ->
  consts_ok (csK v) mm -> locs (four_ok cf) mm -> bytes_at mm k kb -> length kb = 16%nat ->
  bytes_at mm npub nb -> length nb = 16%nat -> bytes_at mm mp T -> N.of_nat (length T) < 2 ^ 32 ->
  ~ even_if_long cf mp (length T) \/ ~ even_if_long cf c (length T) ->
  ubs (isap_enc (arm_code f) scr (k_rounds v) cf k npub mp (N.of_nat (length T)) c) mm.
Proof.
  intros Hv Hs. destruct f.
  - exact (ub_enc v armv6m _ scr cf Hv armv6m_ok armv6m_term Hs mm k npub mp c kb nb T).
  - exact (ub_enc v armv7m _ scr cf Hv armv7m_ok armv7m_term Hs mm k npub mp c kb nb T).
Qed.
Lemma file_ub_mac v f scr cf mm k npub ad c tag Nn AD C : kv v -> regs_ok scr ->
  consts_ok (csK v) mm -> locs (four_ok cf) mm -> bytes_at mm npub Nn -> length Nn = 16%nat ->
  bytes_at mm ad AD -> N.of_nat (length AD) < 2 ^ 32 -> N.of_nat C < 2 ^ 32 ->
  ~ even_if_long cf ad (length AD) \/ ~ even_if_long cf c C ->
  ubs (isap_mac (arm_code f) scr (k_rounds v) cf k npub ad (N.of_nat (length AD)) c (N.of_nat C) tag) mm.
Proof.
  intros Hv Hs. destruct f.
  - exact (ub_mac v armv6m _ scr cf Hv armv6m_ok armv6m_term Hs mm k npub ad c tag Nn AD C).
  - exact (ub_mac v armv7m _ scr cf Hv armv7m_ok armv7m_term Hs mm k npub ad c tag Nn AD C).
Qed.

Lemma karm_odd_enc v f scr cf mm c clen m ad npub k K Nn A T : kv v -> regs_ok scr ->
  enc_valid cf (csK v) mm c clen m ad npub k K Nn A T ->
  both arm_lens (arm_locals cf) mm k npub ad (length A) m c (length T) -> ~ arm_even cf mm k npub ad (length A) m c (length T) ->
  forall t, a_enc (impl_karm v f scr cf) c clen m (N.of_nat (length T)) ad (N.of_nat (length A)) npub k (St mm t) = UB.
Proof.
  intros Hv Hs V [[L1 L2] Hloc] Hodd.
  change (ubs (a_enc (impl_karm v f scr cf) c clen m (N.of_nat (length T)) ad (N.of_nat (length A)) npub k) mm).
  destruct V as [Vc [[Bk Hk] Lk] [[Bn Hn] Ln] [[Ba Ha] La] [[Bt Ht] Lt] [Rc Pc] [Rl [Pl Al]]
    (D1 & D2 & D3 & D4 & D5) (D6 & D7 & D8) Hf].
  cbn [impl_karm api_aead a_enc]. unfold ApiCode.crypto_aead_encrypt, RefIsap.ISAP_TAG_SZ. rewrite u64_small by lia.
  set (m1 := putp mm clen (word_le 8 (N.of_nat (length T) + 16))).
  assert (Hl8 : room mm clen (length (word_le 8 (N.of_nat (length T) + 16)))) by now rewrite word_le_length.
  eapply ubs_bind2; [apply runs_store_ull; auto|]. fold m1.
  assert (F1 : forall q bs, has mm q bs -> disj clen 8 q (length bs) -> has m1 q bs).
  { intros q bs H1 H2. apply has_putp_disj; rewrite ?word_le_length; auto. }
  assert (C1 : consts_ok (csK v) m1) by (apply consts_putp; auto; now apply k_ne).
  assert (Hloc1 : locs (four_ok cf) m1) by now apply locs_putp.
  assert (Bk1 : bytes_at m1 k K) by (split; auto; apply F1; auto; now rewrite Lk).
  assert (Bn1 : bytes_at m1 npub Nn) by (split; auto; apply F1; auto; now rewrite Ln).
  assert (Bt1 : bytes_at m1 m T) by (split; auto).
  assert (Hcase : (~ even_if_long cf m (length T) \/ ~ even_if_long cf c (length T)) \/
    (even_if_long cf m (length T) /\ even_if_long cf c (length T)) /\ ~ even_if_long cf ad (length A)).
  { destruct (even_dec cf m (length T)) as [H1|H1]; [|tauto]. destruct (even_dec cf c (length T)) as [H2|H2]; [|tauto].
    right. split; [tauto|]. intros H3. apply Hodd. now repeat split. }
  destruct Hcase as [Hx|[[E1 E2] Hx]].
  - apply ubs_bind1. apply ubs_if. assert (18 <= length T)%nat by (destruct Hx as [H|H]; apply (even_no _ _ _ H)).
    replace (0 <? N.of_nat (length T)) with true by lia. now apply (file_ub_enc v f scr cf m1 k npub m c K Nn T).
  - set (ct := Spec.isap_enc (v_inst v) K Nn T).
    assert (Lct : length ct = length T) by now apply v_enc_length.
    assert (Rc1 : room m1 c (length ct)).
    { apply room_putp; auto. intros i Hi. apply Rc. lia. }
    assert (Run : runs (if_ (0 <? N.of_nat (length T)) (isap_enc (arm_code f) scr (k_rounds v) cf k npub m (N.of_nat (length T)) c) (ret tt))
      m1 tt (putp m1 c ct)).
    { apply runs_if_skip.
      - intros E. apply (file_enc v f scr cf Hv Hs); auto; try (now apply even_al2); try lia.
        + now rewrite Lct in Rc1.
        + eapply disj_sub; [exact D6|lia|lia].
        + eapply disj_sub; [exact D7|lia|lia].
      - intros E. assert (length T = 0)%nat by lia. destruct ct; [now rewrite putp_nil|]. cbn [length] in Lct. lia. }
    eapply ubs_bind2; [exact Run|]. set (m2 := putp m1 c ct).
    assert (F2 : forall q bs, has m1 q bs -> disj c (length T + 16) q (length bs) -> has m2 q bs).
    { intros q bs H1 H2. apply has_putp_disj; auto. apply (disj_sub _ _ _ _ _ _ H2); lia. }
    apply ubs_bind1. apply (file_ub_mac v f scr cf m2 k npub ad c _ Nn A); auto.
    + apply consts_putp; auto.
    + now apply locs_putp.
    + split; auto. apply F2; [apply Bn1|]. now rewrite Ln.
    + split; auto.
Qed.

(* Whether the output pointer of decryption matters depends on the tag, the associated data and the ciphertext always do. *)
Lemma karm_odd_dec v f scr cf mm m mlen c ad npub k K Nn A Y : kv v -> regs_ok scr ->
  dec_valid cf (csK v) mm m mlen c ad npub k K Nn A Y ->
  both arm_lens (arm_locals cf) mm k npub ad (length A) c m (length Y - 16)%nat ->
  ~ (even_if_long cf ad (length A) /\ even_if_long cf c (length Y - 16)) ->
  forall t, a_dec (impl_karm v f scr cf) m mlen c (N.of_nat (length Y)) ad (N.of_nat (length A)) npub k (St mm t) = UB.
Proof.
  intros Hv Hs V [[L1 L2] Hloc] Hodd.
  change (ubs (a_dec (impl_karm v f scr cf) m mlen c (N.of_nat (length Y)) ad (N.of_nat (length A)) npub k) mm).
  destruct V as [Vc [[Bk Hk] Lk] [[Bn Hn] Ln] [[Ba Ha] La] [[By Hy] [Ly Gy]] [Rm Pm] [Rl [Pl Al]]
    (D1 & D2 & D3 & D4 & D5) (D6 & D7 & D8) Hf].
  cbn [impl_karm api_aead a_dec]. unfold ApiCode.crypto_aead_decrypt, RefIsap.ISAP_TAG_SZ. rewrite sub64_small by lia.
  set (n := (length Y - 16)%nat) in *. replace (N.of_nat (length Y) - 16) with (N.of_nat n) in * by lia.
  set (m1 := putp mm mlen (word_le 8 (N.of_nat n))).
  assert (Hl8 : room mm mlen (length (word_le 8 (N.of_nat n)))) by now rewrite word_le_length.
  eapply ubs_bind2; [apply runs_store_ull; auto|]. fold m1.
  assert (F1 : forall q bs, has mm q bs -> disj mlen 8 q (length bs) -> has m1 q bs).
  { intros q bs H1 H2. apply has_putp_disj; rewrite ?word_le_length; auto. }
  assert (C1 : consts_ok (csK v) m1) by (apply consts_putp; auto; now apply k_ne).
  assert (Hml : has m1 mlen (word_le 8 (N.of_nat n))) by now apply has_putp_same.
  assert (Hlen1 : (length (csK v) <= length m1)%nat).
  { apply Nat.le_trans with (pb mlen); auto. unfold m1. rewrite putp_length. apply Nat.lt_le_incl, (room_pb mm mlen 8); auto. lia. }
  apply ubs_with_block.
  eapply ubs_bind2; [apply (runs_load_ull cf mlen (N.of_nat n)); auto; [now apply has_app|lia]|].
  apply ubs_bind1. apply (file_ub_mac v f scr cf _ k npub ad c _ Nn A); auto.
  - apply consts_app; auto. now apply k_ne.
  - intros b Hb. apply Hloc. unfold m1 in Hb. rewrite app_length, putp_length in Hb. lia.
  - split; auto. apply has_app. apply F1; auto. now rewrite Ln.
  - split; auto. apply has_app. apply F1; auto.
  - destruct (even_dec cf ad (length A)); [|tauto]. destruct (even_dec cf c n); tauto.
Qed.

(* ---------- an example ---------- *)

(* Blocks at multiples of 64, except that the associated data is at an odd address. *)
Definition odd_cf (v : variant) : cfg := Cfg true true (fun b => if (b =? length (csK v) + 2)%nat then 64 * N.of_nat b + 1 else 64 * N.of_nat b).
Definition ex_regs : st -> list N := fun _ => repeat 0 39.
Lemma ex_regs_ok : regs_ok ex_regs.
Proof.
  intros z. split; [reflexivity|]. intros j Hj. unfold ex_regs. rewrite nth_repeat. apply N.neq_0_lt_0, N.pow_nonzero. discriminate.
Qed.
Lemma odd_valid v : kv v -> enc_valid (odd_cf v) (csK v) (ex_mem (csK v) ex_K ex_N ex_A18 ex_T 35) (ex_ptr (csK v) 4) (ex_ptr (csK v) 5)
    (ex_ptr (csK v) 3) (ex_ptr (csK v) 2) (ex_ptr (csK v) 1) (ex_ptr (csK v) 0) ex_K ex_N ex_A18 ex_T.
Proof.
  intros Hv. apply (ex_enc_valid (odd_cf v) (csK v) ex_K ex_N ex_A18 ex_T); auto using ex_bytes_K, ex_bytes_N, ex_bytes_A18, ex_bytes_T; try reflexivity.
Qed.
Lemma odd_other v : kv v -> both arm_lens (arm_locals (odd_cf v)) (ex_mem (csK v) ex_K ex_N ex_A18 ex_T 35) (ex_ptr (csK v) 0) (ex_ptr (csK v) 1)
  (ex_ptr (csK v) 2) (length ex_A18) (ex_ptr (csK v) 3) (ex_ptr (csK v) 4) (length ex_T).
Proof.
  intros Hv. split; [split; reflexivity|]. intros b Hb _. cbn [odd_cf base].
  assert (E : length (ex_mem (csK v) ex_K ex_N ex_A18 ex_T 35) = 9%nat /\ length (csK v) = 3%nat) by (destruct Hv as [-> | ->]; split; reflexivity).
  destruct E as [E E']. rewrite E in Hb. rewrite E'. replace (b =? 3 + 2)%nat with false by lia. lia.
Qed.
Lemma odd_ad v : kv v -> ~ even_if_long (odd_cf v) (ex_ptr (csK v) 2) (length ex_A18).
Proof. intros Hv H. specialize (H eq_refl). destruct Hv as [-> | ->]; specialize (H ltac:(cbn; lia)); discriminate H. Qed.
Lemma karm_odd v f : kv v -> exists cf scr K Nn A T mm c clen m ad npub k,
  regs_ok scr /\ enc_valid cf (csK v) mm c clen m ad npub k K Nn A T /\
  both arm_lens (arm_locals cf) mm k npub ad (length A) m c (length T) /\
  forall t, a_enc (impl_karm v f scr cf) c clen m (N.of_nat (length T)) ad (N.of_nat (length A)) npub k (St mm t) = UB.
Proof.
  intros Hv. exists (odd_cf v), ex_regs. do 11 eexists. split; [exact ex_regs_ok|]. split; [exact (odd_valid v Hv)|]. split; [exact (odd_other v Hv)|].
  refine (karm_odd_enc v f ex_regs (odd_cf v) _ _ _ _ _ _ _ _ _ _ _ Hv ex_regs_ok (odd_valid v Hv) (odd_other v Hv) _).
  intros [H _]. now apply (odd_ad v Hv).
Qed.
