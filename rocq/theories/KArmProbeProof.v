(* What a device on the permutation records in the ARM implementations of the Keccak instances. Proofs only: the proofs of KArmProof.v once more,
   with the record. *)
From Verif Require Import Base Prog Poly SpecPerm Words KeccakProof RefPerm Mem Vocab MemProof RefLib Sponge RefProof RefAead SpecFacts Trace RefTrace.
From Verif Require Import Api ApiProof OptProof KRound K64Perm K64PermProof KIsap KIsapProof K64Impl KArmPerm KArmPermProof KArm KArmProof KArmImpl.
From Verif Require Import VocabProbe ProbeProof OptProbeProof A128ProbeProof ApiProbe KProbeProof.
From Verif Require Spec RefIsap KArmProbe.
Import Spec(xorp, xorz, inst, i_sz, i_rate, i_sH, i_sB, i_sE, i_sK, i_perm).
Open Scope N_scope.
Open Scope cm_scope.

Lemma silent_rep n : forall j (f : N -> M unit), (forall i, silent (f i)) -> silent (rep n j f).
Proof. induction n as [|n IH]; intros j f H; cbn [rep]; [apply silent_ret|]. apply silent_bind; [apply H|]. intros _. now apply IH. Qed.
Ltac asil := repeat first
  [ progress sil | apply silent_rep; intros
  | progress unfold arm_Initialize, arm_AddBytes, arm_OverwriteBytes, arm_ExtractBytes, arm_copy, xor_byte, xor_half, enc_half ].

Section ArmLog.
  Variables (v : variant) (A : armcode) (mid : nat -> prog) (scr : st -> list N) (cf : cfg) (leak : list N -> N).
  Hypothesis Hv : kv v.
  Hypothesis HA : arm_ok A mid.
  Hypothesis Hterm : forall i, (i < 20)%nat -> nth i KeccakF400RoundConstants 0 <> a_term A.
  Hypothesis Hscr : forall z, ascr_ok (scr z).
  Notation I := (v_inst v).
  Notation R := (k_rounds v).
  Notation okb := (four_ok cf).
  Notation S_ s := (map (@Some N) s).
  Notation state m := (P (length m) 0).
  Notation wf := (RefProof.wf I).
  Notation cf0 := (Cfg true false (fun _ => 0)).
  Notation HL := (v_libok v cf0).
  Notation Hmc := (v_macok v).
  Notation pH := (i_perm I (i_sH I)).
  Notation pE := (i_perm I (i_sE I)).
  Notation ab p := (fold_left (absorb1 p)).
  Notation note := (KArmProbe.record leak).
  Notation sn := (seen leak).
  Notation sz50 := (sz50 v Hv).
  Notation rate18 := (rate18 v Hv).
  Notation okH := (okH v Hv).
  Notation okB := (okB v Hv).
  Notation okE := (okE v Hv).
  Notation okK := (okK v Hv).
  Notation wfp := (wfp v A Hv Hterm).
  Notation wfx := (wfx v).
  Notation wfl := (wfl v Hv).
  Notation a_permute := (a_permute v A mid scr cf Hv HA Hterm Hscr).
  Notation a_init := (a_init A cf Hterm).
  Notation a_add := (a_add A Hterm).
  Notation a_xor := (a_xor A Hterm).
  Notation a_over := (a_over A Hterm).
  Notation a_extract := (a_extract A Hterm).
  Notation wfrk := (wfrk v).
  Notation wfz := (wfz v Hv).
  Notation zadd := (zadd v Hv).
  Notation a_xor_half := (a_xor_half A cf Hterm).
  Notation addat_grow := (addat_grow A Hterm).
  Notation wfab := (wfab v A Hv Hterm).
  Notation a_enc_half := (a_enc_half v A cf Hterm).
  Notation wfi := (wfi v A Hv Hterm).
  Notation wf_pad_absorb := (wf_pad_absorb v Hv).
  Notation arm_ivs := (arm_ivs v).
  Notation rk_fold := (fold_left (fun s b => i_perm I (i_sB I) (xorp s (Spec.first_bit b)))).

  Lemma l_emit r m : logs (emit (EPerm r)) m tt m [r].
  Proof. intros t. exists (EPerm r :: t). split; [reflexivity|]. now rewrite perms_cons. Qed.
  Lemma rk_split K iv Y s0 bits : length Y = 16%nat -> length K = 16%nat -> bytes K -> length iv = 8%nat -> bytes iv ->
    s0 = i_perm I (i_sK I) (Spec.zpad I (K ++ iv)) -> bits = Spec.msb_bits Y ->
    rk_in I K iv Y = (Spec.zpad I (K ++ iv), i_sK I) :: sB_in I s0 (firstn 127 bits) ++
      [(xorp (rk_fold (firstn 127 bits) s0) (Spec.first_bit (nth 127 bits false)), i_sK I)].
  Proof.
    destruct (k_rnd v k64_r Hv) as (HH & HB & HE & HK); try (unfold k64_r; tauto).
    exact (rk_in_split v (k_rounds v) k64_r cf leak sz50 rate18 HH HB HE HK K iv Y s0 bits).
  Qed.
  (* The one step that records. *)
  Lemma l_permute (m : mem) s (rest : mem) r n : okn r n -> okb (length m) -> wf s ->
    logs (KArmProbe.permute A scr cf note (state m) r) (m ++ S_ s :: rest) tt (m ++ S_ (i_perm I n s) :: rest) (sn [(s, n)]).
  Proof.
    intros Hn Hb W. pose proof (wfl s W) as Ls. unfold KArmProbe.permute, KArmProbe.record.
    assert (Hp : logs (arm_Permute A scr cf (state m) r) (m ++ S_ s :: rest) tt (m ++ S_ (i_perm I n s) :: rest) [N.of_nat n]).
    { intros t. destruct (a_permute m s rest r n Hn Hb W t) as (t' & E). exists t'. split; [exact E|]. destruct Hn as [-> _].
      unfold arm_Permute in E. destruct (aligned cf (state m) 4); [|discriminate].
      assert (Hsil : calls (emit (EPerm (N.of_nat n)) ;; ws <- RefIsap.load_lanes cf 25 (state m) ;;
        fun z => match a_perm_lanes A (scr z) (N.of_nat n) ws with Some ws' => RefIsap.store_lanes cf ws' (state m) z | None => UB end)
        (fun _ ps => ps = [N.of_nat n])).
      { apply calls_then_silent.
        - apply calls_emit.
        - intros _. apply silent_bind; [apply silent_load_lanes|]. intros ws z x z' Ez. cbv beta in Ez.
          destruct (a_perm_lanes A (scr z) (N.of_nat n) ws); [|discriminate]. exact (silent_store_lanes cf _ (state m) z x z' Ez). }
      destruct (Hsil _ _ _ E) as (ps & E1 & ->). exact E1. }
    apply (logs_bind _ _ _ tt (m ++ S_ s :: rest) [leak s] _ _ [N.of_nat n]); [|exact Hp|reflexivity].
    eapply logs_step; [rewrite <- Ls; apply runs_loads_, has_blk0, blk_mid|apply silent_loads_|apply l_emit].
  Qed.

  Lemma l_rk (m : mem) k ivp inp out kb ivb Y n outlen :
    okb (length m) -> outlen = N.of_nat n ->
    has m k kb -> has m ivp ivb -> has m inp Y ->
    length kb = 16%nat -> length ivb = 8%nat -> length Y = 16%nat -> bytes kb -> bytes ivb -> bytes Y ->
    room m out n -> (0 < n <= 50)%nat ->
    logs (KArmProbe.isap_rk A scr R cf note k ivp inp 16 out outlen) m tt (putp m out (Spec.isap_rk I kb ivb Y n)) (sn (rk_in I kb ivb Y)).
  Proof.
    intros Hokb -> Hk Hiv HY Lk Liv LY Bk Biv BY Hout Hn.
    unfold KArmProbe.isap_rk.
    set (s0 := i_perm I (i_sK I) (Spec.zpad I (kb ++ ivb))).
    set (bits := Spec.msb_bits Y).
    assert (Hbits : length bits = 128%nat) by (unfold bits; rewrite msb_bits_length, LY; reflexivity).
    set (bl := nth 127 bits false).
    set (s1 := rk_fold (firstn 127 bits) s0).
    set (s2 := i_perm I (i_sK I) (xorp s1 (Spec.first_bit bl))).
    assert (Wz : wf (Spec.zpad I (kb ++ ivb))) by (apply wfz; [now apply bytes_app|rewrite app_length; lia]).
    assert (Ws0 : wf s0) by (apply (wfp _ _ _ okK Wz)).
    assert (Ws1 : wf s1) by now apply wfrk.
    assert (Wx : wf (xorp s1 (Spec.first_bit bl))) by (apply wfx; auto; apply bytes_fb).
    assert (Ws2 : wf s2) by (apply (wfp _ _ _ okK Wx)).
    assert (Es2 : Spec.isap_rk I kb ivb Y n = firstn n s2).
    { unfold Spec.isap_rk. fold s0. fold bits. rewrite <- (firstn_skipn 127 bits) at 1.
      replace (skipn 127 bits) with [bl].
      - now rewrite rk_absorb_snoc.
      - unfold bl. rewrite (skipn_cons_nth bits 127 false) by lia. rewrite skipn_all2 by lia. reflexivity. }
    rewrite Es2.
    assert (Elog : sn (rk_in I kb ivb Y) = sn [(Spec.zpad I (kb ++ ivb), i_sK I)] ++ sn (sB_in I s0 (firstn 127 bits)) ++
                                           sn [(xorp s1 (Spec.first_bit bl), i_sK I)]).
    { rewrite <- !seen_app. f_equal. exact (rk_split kb ivb Y s0 bits LY Lk Bk Liv Biv eq_refl eq_refl). }
    rewrite Elog. clear Elog.
    assert (Hpb : forall p bs x, has m p bs -> length bs = S x -> pb p <> length m).
    { intros p bs x H1 H2. pose proof (has_pb _ _ _ H1 (nonnil _ _ H2)). lia. }
    apply (logs_with_block _ _ _ _ _ (S_ s2)).
    eapply logs_step; [apply a_init; [exact Hokb|apply uninit_length]|asil|].
    eapply logs_step; [|asil|].
    { apply (a_add m (repeat 0 50) [] k kb 0); auto; try (rewrite repeat_length; lia).
      - now rewrite Lk.
      - now apply has_app.
      - now apply (Hpb _ _ 15%nat Hk). }
    eapply logs_step; [|asil|].
    { apply (a_add m _ [] ivp ivb 16); auto; try (rewrite addat_length, repeat_length; lia).
      - now rewrite Liv.
      - now apply has_app.
      - now apply (Hpb _ _ 7%nat Hiv). }
    rewrite zadd by auto.
    eapply logs_bind; [apply (l_permute m _ [] _ _ okK); auto| |reflexivity]. fold s0.
    eapply logs_bind; [|cbv beta|reflexivity].
    { apply (logs_for (fun _ => tt) (fun j => m ++ [S_ (rk_fold (firstn j bits) s0)]) (fun j => sn (sB_in I s0 (firstn j bits)))) with (a1 := tt) (m1 := m ++ [S_ s1]); auto.
      change (N.to_nat (sub32 (u32 (16 * 8)) 1)) with 127%nat. intros j Hj. cbv zeta.
      assert (Wj : wf (rk_fold (firstn j bits) s0)) by now apply wfrk.
      exists (sn [(xorp (rk_fold (firstn j bits) s0) (Spec.first_bit (nth j bits false)), i_sB I)]). split.
      2:{ rewrite <- seen_app, (firstn_snoc bits j false) by lia. now rewrite sB_in_snoc. }
      eapply logs_step; [|asil|].
      - apply runs_load, rd1_app. replace (N.of_nat j / 8) with (N.of_nat (j / 8)) by lia. apply HY. lia.
      - rewrite first_bit_val. rewrite <- nth_msb_bits by lia. fold bits.
        eapply logs_step; [apply (a_xor m _ [] _ 0); [reflexivity|rewrite (wfl _ Wj); lia]|asil|].
        rewrite addat_0. rewrite (firstn_snoc bits j false) by lia. rewrite fold_left_app. cbn [fold_left].
        apply (l_permute m _ [] _ _ okB); auto. apply (wfx _ (Spec.first_bit _)); [apply bytes_fb|exact Wj]. }
    eapply logs_step; [|asil|].
    { apply runs_load, rd1_app. change (sub32 16 1) with (N.of_nat 15). apply HY. lia. }
    assert (Ebl : u8 (N.shiftl (N.land (nth 15 Y 0) 1) 7) = if bl then 0x80 else 0).
    { rewrite <- (N.shiftr_0_r (nth 15 Y 0)), first_bit_val. unfold bl, bits. rewrite nth_msb_bits by lia.
      reflexivity. }
    rewrite Ebl.
    eapply logs_step; [apply (a_xor m s1 [] _ 0); [reflexivity|rewrite (wfl _ Ws1); lia]|asil|].
    rewrite addat_0. change [if bl then 0x80 else 0] with (Spec.first_bit bl).
    eapply logs_last; [apply (l_permute m _ [] _ _ okK); auto| |asil]. fold s2.
    eapply runs_eq.
    - apply (a_extract m s2 [] out n); auto.
      + rewrite (wfl _ Ws2). lia.
      + now apply room_app.
      + apply Nat.lt_neq, (room_pb m out n Hout). lia.
    - reflexivity.
    - apply putp_app. rewrite firstn_length, (wfl _ Ws2). now replace (Nat.min n 50) with n by lia.
  Qed.

  Lemma l_absorb (m : mem) s (rest : mem) src x : okb (length m) -> wf s -> has m src x -> bytes x -> N.of_nat (length x) < 2 ^ 32 ->
    al2_long cf src (length x) ->
    logs (KArmProbe.absorb A scr R cf note (state m) src (N.of_nat (length x))) (m ++ S_ s :: rest) tt
         (m ++ S_ (ab pH (chunks 18 (Spec.pad 18 x)) s) :: rest)
         (sn (absorb_in I s (chunks 18 (Spec.pad 18 x)))).
  Proof.
    intros Hb W Hx Bx Lx Hal. unfold KArmProbe.absorb.
    set (q := (length x / 18)%nat).
    set (sk := fun k => ab pH (chunks 18 (firstn (18 * k) x)) s).
    assert (Wk : forall k, wf (sk k)).
    { intros k. apply wfab; auto. apply chunks_Forall. now apply bytes_firstn. }
    rewrite abin_last, seen_app. fold q.
    change (Spec.absorb I s (chunks 18 (firstn (18 * q) x))) with (sk q).
    eapply logs_bind; [|cbv beta|reflexivity].
    { apply (logs_while (fun k => (N.of_nat (9 * k), N.of_nat (length x - 18 * k))) (fun k => m ++ S_ (sk k) :: rest)
               (fun k => sn (absorb_in I s (chunks 18 (firstn (18 * k) x)))) q)
        with (a1 := (N.of_nat (9 * q), N.of_nat (length x - 18 * q))) (m1 := m ++ S_ (sk q) :: rest).
      - unfold q. lia.
      - intros k Hk. assert (Hk18 : (18 * k + 18 <= length x)%nat) by (unfold q in Hk; lia). cbn [snd]. split; [lia|].
        cbv beta iota.
        set (bk := firstn 18 (skipn (18 * k) x)).
        assert (Lb : length bk = 18%nat) by (unfold bk; rewrite firstn_length, skipn_length; lia).
        assert (Bb : bytes bk) by now apply bytes_firstn, bytes_skipn.
        assert (Hbk : has m (padd src (N.of_nat (18 * k))) bk) by (apply has_firstn; now apply has_skipn).
        exists (sn [(xorp (sk k) bk, i_sH I)]). split.
        2:{ rewrite <- seen_app, abin_S by lia. reflexivity. }
        apply (logs_step _ _ _ tt (m ++ S_ (xorp (sk k) bk) :: rest)); [|asil|].
        { apply (runs_rep 9 _ (fun j => m ++ S_ (addat (sk k) 0 (firstn (2 * j) bk)) :: rest)).
          - intros j Hj. rewrite <- addat_grow by lia.
            assert (Ei : 2 * u32 (N.of_nat (9 * k) + N.of_nat j) = N.of_nat (18 * k) + N.of_nat (2 * j)) by (rewrite u32_small; lia).
            apply a_xor_half; auto.
            + apply bytes_addat; [apply Wk|now apply bytes_firstn].
            + rewrite addat_length, (wfl _ (Wk k)). lia.
            + now apply bytes_nth.
            + now apply bytes_nth.
            + rewrite Ei, <- padd_padd, <- two_bytes by lia. apply has_firstn. now apply has_skipn.
            + apply al2, Hal. lia.
          - cbn [firstn Nat.mul]. change (2 * 0)%nat with 0%nat. cbn [firstn]. now rewrite addat_nil.
          - rewrite firstn_all2 by lia. reflexivity. }
        eapply logs_last; [apply (l_permute m _ rest _ _ okH); auto; now apply wfx| |asil].
        eapply runs_eq; [apply runs_ret| |].
        + rewrite u32_small, sub32_small by lia. f_equal; lia.
        + do 3 f_equal. unfold sk, bk. now rewrite ab_S by lia.
      - cbn [snd]. unfold q. lia.
      - reflexivity.
      - rewrite Nat.sub_0_r. reflexivity.
      - unfold sk. rewrite Nat.mul_0_r. change (firstn 0 x) with (@nil N). now rewrite chunks_nil.
      - reflexivity.
      - reflexivity.
      - reflexivity. }
    cbv beta iota zeta.
    set (y := skipn (18 * q) x).
    assert (Ly : length y = (length x - 18 * q)%nat) by (unfold y; rewrite skipn_length; lia).
    assert (Hy18 : (length y < 18)%nat) by (unfold q in *; lia).
    assert (By : bytes y) by now apply bytes_skipn.
    assert (Hy : has m (padd src (N.of_nat (18 * q))) y) by now apply has_skipn.
    rewrite <- Ly.
    eapply logs_step; [|asil|].
    { apply (runs_for (fun _ => tt) (fun k => m ++ S_ (addat (sk q) 0 (firstn k y)) :: rest)) with (a1 := tt) (m1 := m ++ S_ (addat (sk q) 0 y) :: rest); auto.
      - rewrite Nat2N.id. intros k Hk.
        replace (u32 (u32 (N.of_nat (9 * q) * 2) + N.of_nat k)) with (N.of_nat (18 * q) + N.of_nat k) by (rewrite !u32_small; try lia; rewrite u32_small; lia).
        eapply runs_bind; [apply runs_load, rd1_app; rewrite <- padd_padd; apply Hy; lia|].
        rewrite (firstn_snoc y k 0) by lia.
        eapply runs_eq; [apply (a_xor m _ rest _ k); [unfold padd; cbn [pb po]; f_equal; lia|rewrite addat_length, (wfl _ (Wk q)); lia]|reflexivity|].
        do 3 f_equal. rewrite <- (addat_snoc (sk q) 0 (firstn k y) _ k) by (rewrite ?firstn_length, ?(wfl _ (Wk q)); lia).
        rewrite <- (app_nil_l [nth k y 0]), <- (addat_snoc _ k [] _ k) by (rewrite ?addat_length, ?(wfl _ (Wk q)); cbn [length]; lia).
        rewrite addat_nil. f_equal. f_equal. rewrite nth_addat, (wfl _ (Wk q)). replace (k <? 50)%nat with true by lia.
        change (0 <=? k)%nat with true. cbv iota. rewrite (nth_overflow (firstn k y)) by (rewrite firstn_length; lia). now rewrite N.lxor_0_r.
      - cbn [firstn]. now rewrite addat_nil.
      - now rewrite Nat2N.id, firstn_all. }
    rewrite addat_0.
    eapply logs_step; [|asil|].
    { apply (a_xor m _ rest _ (length y)); [unfold padd; cbn [pb po]; f_equal; lia|]. rewrite xorp_length, (wfl _ (Wk q)). lia. }
    rewrite ab_last by lia. fold q. fold y. fold (sk q).
    replace (addat (xorp (sk q) y) (length y) [128]) with (xorp (sk q) (y ++ [0x80])).
    - apply (l_permute m _ rest _ _ okH); auto. apply wfx; [|apply Wk]. apply bytes_app. split; auto. repeat constructor.
    - rewrite <- xor_at_snoc, xor_at_off. apply (nth_ext_le _ _ 0); [now rewrite addat_length, xorp_length|].
      intros i Hi. rewrite nth_xorp, nth_addat. destruct (i <? _)%nat; auto. f_equal.
      destruct (Nat.leb_spec (length y) i).
      + rewrite app_nth2 by (rewrite repeat_length; lia). now rewrite repeat_length.
      + rewrite app_nth1 by (rewrite repeat_length; lia). apply nth_repeat.
  Qed.

  Lemma l_mac : mac_log (csK v) (fun _ => True) (al2_long cf) okb (2 ^ 32) (fun n => n) (KArmProbe.isap_mac A scr R cf note) (Spec.isap_mac I)
    (fun K Nn AD C => sn (mac_in I K Nn AD C)).
  Proof.
    intros m k npub ad c tag kb nb AD C Hc Hokb [Bk Hk] Lk [Bn Hn] Ln [BA HAD] [BC HC] LA LC Htag _ _ _ _ _ _ _ Pa Pc _ _.
    rewrite k_consts in Hc by auto. destruct (arm_ivs m Hc) as (HivA & HivKA & HivKE).
    assert (Hb0 : okb (length m)) by (apply Hokb; lia).
    assert (BivA : bytes (Spec.iv_A I)) by (apply k_iv; auto; lia).
    assert (BivKA : bytes (Spec.iv_KA I)) by (apply k_iv; auto; lia).
    cbv beta. unfold KArmProbe.isap_mac. rewrite !u32_small by lia.
    set (s0 := pH (Spec.zpad I (nb ++ Spec.iv_A I))).
    assert (Wz : wf (Spec.zpad I (nb ++ Spec.iv_A I))).
    { apply wfz; [now apply bytes_app|]. rewrite app_length. cbn [length Spec.iv_A Spec.iv]. lia. }
    assert (Ws0 : wf s0) by apply (wfp _ _ _ okH Wz).
    set (s1 := Spec.absorb I s0 (chunks 18 (Spec.pad 18 AD))).
    assert (Ws1 : wf s1) by now apply wf_pad_absorb.
    set (s2 := Spec.dom_sep I s1).
    assert (Es2 : s2 = addat s1 49 [1]).
    { unfold s2. rewrite (dom_sep_addat _ _ _ Hmc) by apply Ws1. now rewrite sz50. }
    assert (Ws2 : wf s2).
    { rewrite Es2. apply wf_addat; auto. repeat constructor. }
    set (s3 := Spec.absorb I s2 (chunks 18 (Spec.pad 18 C))).
    assert (Ws3 : wf s3) by now apply wf_pad_absorb.
    pose proof (wfl _ Ws3) as Ls3.
    set (y := firstn 16 s3).
    assert (Ly : length y = 16%nat) by (unfold y; rewrite firstn_length; lia).
    assert (By : bytes y) by (apply bytes_firstn, Ws3).
    set (ka := Spec.isap_rk I kb (Spec.iv_KA I) y 16).
    assert (Wka : bytes ka /\ length ka = 16%nat) by (apply (wf_rk _ _ _ _ _ HL Hmc); auto; rewrite ?sz50; lia).
    destruct Wka as [Bka Lka].
    assert (Ws4' : wf (ka ++ skipn 16 s3)).
    { split; [rewrite app_length, skipn_length, sz50; lia|]. apply bytes_app. split; auto. apply bytes_skipn, Ws3. }
    set (s4 := pH (ka ++ skipn 16 s3)).
    assert (Ws4 : wf s4) by apply (wfp _ _ _ okH Ws4').
    pose proof (wfl _ Ws4) as Ls4.
    assert (Etag : Spec.isap_mac I kb nb AD C = firstn 16 s4).
    { unfold Spec.isap_mac. rewrite rate18. reflexivity. }
    rewrite Etag.
    assert (Elog : sn (mac_in I kb nb AD C) = sn [(Spec.zpad I (nb ++ Spec.iv_A I), i_sH I)] ++ sn (absorb_in I s0 (chunks 18 (Spec.pad 18 AD))) ++
      sn (absorb_in I s2 (chunks 18 (Spec.pad 18 C))) ++ sn (rk_in I kb (Spec.iv_KA I) y) ++ sn [(ka ++ skipn 16 s3, i_sH I)]).
    { rewrite <- !seen_app. f_equal. unfold mac_in, hash_in, hash_end, hash_mid, hash_start. cbv zeta. rewrite rate18. fold s0. fold s1. fold s2. fold s3.
      fold y. fold ka. cbn [app]. rewrite <- app_assoc. reflexivity. }
    rewrite Elog. clear Elog.
    assert (Hpb : forall p bs x, has m p bs -> length bs = S x -> pb p <> length m).
    { intros p bs x H1 H2. pose proof (has_pb _ _ _ H1 (nonnil _ _ H2)). lia. }
    apply (logs_with_block _ _ _ _ _ (S_ s4)).
    eapply logs_step; [apply a_init; [exact Hb0|apply uninit_length]|asil|].
    eapply logs_step; [|asil|].
    { apply (a_add m (repeat 0 50) [] npub nb 0); auto; try (rewrite repeat_length; lia).
      - now rewrite Ln.
      - now apply has_app.
      - now apply (Hpb _ _ 15%nat Hn). }
    eapply logs_step; [|asil|].
    { apply (a_add m _ [] RefIsap.ISAP_IV_A (Spec.iv_A I) 16); auto; try (rewrite addat_length, repeat_length; cbn [length Spec.iv_A Spec.iv]; lia).
      - now apply has_app.
      - now apply (Hpb _ _ 7%nat HivA). }
    rewrite zadd by auto.
    eapply logs_bind; [apply (l_permute m _ [] _ _ okH); auto| |reflexivity]. fold s0.
    eapply logs_bind; [apply (l_absorb m s0 [] ad AD); auto|cbv beta|reflexivity].
    change (ab pH (chunks 18 (Spec.pad 18 AD)) s0) with s1.
    eapply logs_step; [apply (a_xor m s1 [] 1 49); [reflexivity|rewrite (wfl _ Ws1); lia]|asil|].
    rewrite <- Es2.
    eapply logs_bind; [apply (l_absorb m s2 [] c C); auto|cbv beta|reflexivity].
    change (ab pH (chunks 18 (Spec.pad 18 C)) s2) with s3.
    (* locals y and ka_star *)
    apply (logs_with_block _ _ _ _ _ (S_ y)). rewrite <- app_assoc. cbn [app].
    apply (logs_with_block _ _ _ _ _ (S_ ka)). rewrite <- app_assoc. cbn [app].
    rewrite !app_length. cbn [length].
    assert (Hput : forall (x1 x2 : block) i v, length x2 = length v ->
      putp (m ++ [x1; x2] ++ i) (P (length m + 1) 0) v = m ++ [x1; S_ v] ++ i).
    { intros x1 x2 i w Hl. unfold putp, put. cbn [pb po]. rewrite blk_app2. cbn [app blk nth].
      rewrite upd_app2. cbn [upd_nth]. rewrite splice_all by now rewrite map_length. reflexivity. }
    eapply logs_step; [|asil|].
    { eapply runs_eq; [apply (a_extract m s3 [uninit 16; uninit 16] (P (length m + 1) 0) 16); auto; try lia| |].
      - apply room_of_le. cbn [pb po]. rewrite blk_app2. cbn [blk nth]. rewrite uninit_length. lia.
      - cbn [pb]. lia.
      - reflexivity.
      - fold y. apply (Hput (S_ s3) (uninit 16) [uninit 16] y). now rewrite uninit_length, Ly. }
    cbn [app].
    eapply logs_bind; [|cbv beta|reflexivity].
    { apply (l_rk (m ++ [S_ s3; S_ y; uninit 16]) k RefIsap.ISAP_IV_KA (P (length m + 1) 0)
               (P (length m + 2) 0) kb (Spec.iv_KA I) y 16); auto.
      - apply Hokb. rewrite app_length. lia.
      - now apply has_app.
      - now apply has_app.
      - apply has_blk0. rewrite blk_app2. reflexivity.
      - apply room_of_le. cbn [pb po]. rewrite blk_app2. cbn [blk nth]. rewrite uninit_length. lia.
      - lia. }
    fold ka.
    replace (putp (m ++ [S_ s3; S_ y; uninit 16]) (P (length m + 2) 0) ka) with (m ++ S_ s3 :: [S_ y; S_ ka]).
    2:{ unfold putp, put. cbn [pb po]. rewrite blk_app2. cbn [blk nth]. rewrite upd_app2. cbn [upd_nth].
        rewrite splice_all by now rewrite map_length, uninit_length, Lka. reflexivity. }
    eapply logs_step; [|asil|].
    { apply (a_over m (S_ s3) [S_ y; S_ ka] (P (length m + 2) 0) ka 0); auto; try lia.
      - now rewrite Lka.
      - apply has_blk0. rewrite blk_app2. reflexivity.
      - cbn [pb]. lia.
      - rewrite map_length. lia. }
    rewrite splice_map, splice_app, Lka.
    eapply logs_last; [apply (l_permute m _ [S_ y; S_ ka] _ _ okH); auto| |asil]. fold s4.
    eapply runs_eq.
    - apply (a_extract m s4 [S_ y; S_ ka] tag 16); auto; try lia.
      + now apply room_app.
      + apply Nat.lt_neq, (room_pb m tag 16%nat Htag). lia.
    - reflexivity.
    - rewrite putp_app by (rewrite firstn_length, Ls4; exact Htag).
      rewrite <- !app_assoc. reflexivity.
  Qed.

  Lemma l_enc : enc_log (csK v) (fun _ => True) (al2_long cf) okb (2 ^ 32) (KArmProbe.isap_enc A scr R cf note) (Spec.isap_enc I)
    (fun K Nn n => sn (enc_in I K Nn n)).
  Proof.
    intros m k npub mp c kb nb T Hc Hokb [Bk Hk] Lk [Bn Hn] Ln [BT HT] LT HT0 Rc _ _ _ Hf _ _ Pm Pc.
    rewrite k_consts in Hc by auto. destruct (arm_ivs m Hc) as (HivA & HivKA & HivKE).
    assert (Hb0 : okb (length m)) by (apply Hokb; lia).
    assert (BivKE : bytes (Spec.iv_KE I)) by (apply k_iv; auto; lia).
    assert (Wk : bytes (Spec.isap_rk I kb (Spec.iv_KE I) nb 34) /\ length (Spec.isap_rk I kb (Spec.iv_KE I) nb 34) = 34%nat)
      by (apply (wf_rk _ _ _ _ _ HL Hmc); auto; rewrite ?sz50; lia).
    set (RK := Spec.isap_rk I kb (Spec.iv_KE I) nb 34) in *. destruct Wk as [BRK LRK].
    set (s0 := RK ++ nb).
    assert (W0 : wf s0).
    { split; [unfold s0; rewrite app_length, sz50; lia|]. apply bytes_app. now split. }
    set (ct := Spec.isap_enc I kb nb T).
    assert (Lct : length ct = length T) by now apply v_enc_length.
    assert (Ct : forall i, (i < length T)%nat -> nth i ct 0 = N.lxor (nth i T 0) (nth (i mod 18) (iter pE (S (i / 18)) s0) 0)).
    { intros i Hi. unfold ct. rewrite v_enc_nth by auto. f_equal. unfold v_ks, ks_byte. rewrite rate18, sz50. reflexivity. }
    assert (Rk : forall n, room m c (length (firstn n ct))).
    { intros n i Hi. apply Rc. rewrite firstn_length in Hi. lia. }
    cbv beta. unfold KArmProbe.isap_enc. rewrite u32_small by lia.
    set (q := (length T / 18)%nat).
    set (rest := if (length T - 18 * q =? 0)%nat then [] else [(iter pE q s0, i_sE I)]).
    assert (Elog : sn (enc_in I kb nb (length T)) = sn (rk_in I kb (Spec.iv_KE I) nb) ++ sn (stream I s0 q) ++ sn rest).
    { rewrite <- !seen_app. unfold enc_in. replace (length T =? 0)%nat with false by lia. do 2 f_equal. rewrite rate18, sz50.
      change (50 - 16)%nat with 34%nat. fold RK. fold s0. unfold rest. destruct (Nat.eqb_spec (length T - 18 * q) 0) as [E0|E0].
      - rewrite app_nil_r. f_equal. unfold q in *. lia.
      - replace ((length T + 18 - 1) / 18)%nat with (S q) by (unfold q in *; lia). now rewrite stream_snoc. }
    rewrite Elog. clear Elog.
    set (fin := if (length T - 18 * q =? 0)%nat then iter pE q s0 else iter pE (S q) s0).
    apply (logs_with_block _ _ _ _ _ (S_ fin)).
    eapply logs_bind; [|cbv beta|reflexivity].
    { apply (l_rk (m ++ [uninit 50]) k RefIsap.ISAP_IV_KE npub (P (length m) 0) kb (Spec.iv_KE I) nb 34); auto; try lia; try now apply has_app.
      - apply Hokb. rewrite app_length. lia.
      - apply room_of_le. cbn [pb po]. rewrite blk_mid, uninit_length. lia. }
    fold RK.
    replace (putp (m ++ [uninit 50]) (P (length m) 0) RK) with (m ++ [S_ RK ++ uninit 16]).
    2:{ unfold putp, put. cbn [pb po]. rewrite blk_mid, upd_mid. change (N.to_nat 0) with 0%nat.
        rewrite splice_app, map_length, LRK. reflexivity. }
    apply (logs_step _ _ _ tt (m ++ [S_ s0])); [|asil|].
    { eapply runs_eq; [apply (a_over m (S_ RK ++ uninit 16) [] npub nb 34); auto; try lia| |].
      - now rewrite Ln.
      - now apply has_app.
      - pose proof (has_pb _ _ _ Hn (nonnil _ _ Ln)). lia.
      - rewrite app_length, map_length, uninit_length. lia.
      - reflexivity.
      - do 2 f_equal. unfold splice. rewrite firstn_app, map_length, LRK, Nat.sub_diag, firstn_O.
        rewrite firstn_all2 by (rewrite map_length; lia).
        rewrite skipn_all2 by (rewrite app_length, !map_length, uninit_length; lia).
        rewrite !app_nil_r. unfold s0. now rewrite map_app. }
    eapply logs_bind; [|cbv beta|reflexivity].
    { apply (logs_while (fun j => (N.of_nat (9 * j), N.of_nat (length T - 18 * j)))
               (fun j => putp m c (firstn (18 * j) ct) ++ [S_ (iter pE j s0)]) (fun j => sn (stream I s0 j)) q)
        with (a1 := (N.of_nat (9 * q), N.of_nat (length T - 18 * q)))
             (m1 := putp m c (firstn (18 * q) ct) ++ [S_ (iter pE q s0)]).
      - unfold q. lia.
      - intros j Hj. assert (Hj18 : (18 * j + 18 <= length T)%nat) by (unfold q in Hj; lia). cbn [snd]. split; [lia|].
        cbv beta iota.
        assert (Lp : forall n, length (putp m c (firstn n ct)) = length m) by (intros; apply putp_length).
        exists (sn [(iter pE j s0, i_sE I)]). split; [|now rewrite <- seen_app, stream_snoc].
        eapply logs_bind; [| |apply app_nil_r].
        { rewrite <- (Lp (18 * j)%nat). apply (l_permute _ _ [] _ _ okE); [now rewrite Lp|now apply wfi]. }
        change (i_perm I (i_sE I) (iter pE j s0)) with (iter pE (S j) s0).
        set (sj := iter pE (S j) s0). assert (Wj : wf sj) by now apply wfi.
        apply (logs_step _ _ _ tt (putp m c (firstn (18 * S j) ct) ++ [S_ sj])); [|asil|].
        { apply (runs_rep 9 _ (fun t => putp m c (firstn (18 * j + 2 * t) ct) ++ [S_ sj])).
          - intros t Ht.
            assert (Ei : 2 * u32 (N.of_nat (9 * j) + N.of_nat t) = N.of_nat (18 * j + 2 * t)) by (rewrite u32_small; lia).
            rewrite <- (Lp (18 * j + 2 * t)%nat).
            set (n := (18 * j + 2 * t)%nat) in *.
            assert (Hn' : (n + 2 <= length T)%nat) by (unfold n; lia).
            eapply runs_eq; [apply (a_enc_half _ sj [] mp c _ (nth n T 0) (nth (S n) T 0) t)|reflexivity|].
            + now rewrite Lp.
            + apply Wj.
            + rewrite (wfl _ Wj). lia.
            + now apply bytes_nth.
            + now apply bytes_nth.
            + rewrite Ei, <- two_bytes by lia. now apply text_at.
            + apply al2, Pm. lia.
            + rewrite Ei. apply room_putp; [apply Rk|]. apply (room_sub m c (length T)); auto.
            + apply al2, Pc. lia.
            + rewrite Ei. f_equal. replace (18 * j + 2 * S t)%nat with (S (S n)) by (unfold n; lia).
              rewrite (firstn_snoc ct (S n) 0), (firstn_snoc ct n 0) by lia. rewrite <- app_assoc. cbn [app].
              rewrite <- putp_app_bytes.
              * rewrite firstn_length. replace (Nat.min n (length ct)) with n by lia. do 3 f_equal.
                -- rewrite Ct by lia. replace (n / 18)%nat with j by (unfold n; lia). fold sj. do 2 f_equal. unfold n. lia.
                -- f_equal. rewrite Ct by lia. replace (S n / 18)%nat with j by (unfold n; lia). fold sj. do 2 f_equal. unfold n. lia.
              * intros i Hi. apply Rc. rewrite app_length, firstn_length in Hi. cbn [length] in Hi. lia.
          - rewrite Nat.mul_0_r, Nat.add_0_r. reflexivity.
          - do 3 f_equal. lia. }
        apply logs_of; [|asil]. eapply runs_eq; [apply runs_ret| |reflexivity].
        rewrite u32_small, sub32_small by lia. f_equal; lia.
      - cbn [snd]. unfold q. lia.
      - reflexivity.
      - rewrite Nat.sub_0_r. reflexivity.
      - rewrite Nat.mul_0_r. change (firstn 0 ct) with (@nil N). now rewrite putp_nil.
      - reflexivity.
      - reflexivity.
      - reflexivity. }
    cbv beta iota.
    assert (Hq : (18 * q <= length T < 18 * q + 18)%nat) by (unfold q; lia).
    set (mq := putp m c (firstn (18 * q) ct)).
    assert (Lmq : length mq = length m) by apply putp_length.
    apply logs_if. destruct (N.ltb_spec 0 (N.of_nat (length T - 18 * q))) as [H|H].
    - unfold fin, rest. replace (length T - 18 * q =? 0)%nat with false by lia.
      set (sq := iter pE (S q) s0). assert (Wq : wf sq) by now apply wfi.
      eapply logs_last; [| |asil].
      { rewrite <- Lmq. apply (l_permute mq _ [] _ _ okE); [now rewrite Lmq|now apply wfi]. }
      change (i_perm I (i_sE I) (iter pE q s0)) with sq. cbv zeta.
      apply (runs_for (fun _ => tt) (fun t => putp m c (firstn (18 * q + t) ct) ++ [S_ sq])) with (a1 := tt); auto.
      + rewrite Nat2N.id. intros t Ht.
        replace (u32 (u32 (N.of_nat (9 * q) * 2) + N.of_nat t)) with (N.of_nat (18 * q + t)) by (rewrite !u32_small; try lia; rewrite u32_small; lia).
        set (n := (18 * q + t)%nat) in *. assert (Hn' : (n < length T)%nat) by (unfold n; lia).
        eapply runs_bind.
        { apply runs_load, rd1_app. rewrite <- (padd_0 (padd mp _)). change 0 with (N.of_nat 0) at 1.
          apply (text_at m mp c T ct n 1); auto; try lia. rewrite firstn_length, skipn_length. lia. }
        eapply runs_bind.
        { apply runs_load. replace (padd (P (length m) 0) (N.of_nat t)) with (P (length (putp m c (firstn n ct))) (N.of_nat t))
            by (rewrite putp_length; unfold padd; cbn [pb po]; f_equal; lia).
          apply (rd1_blk _ _ sq); [apply blk_mid|]. rewrite (wfl _ Wq). lia. }
        eapply runs_eq; [apply runs_store1|reflexivity|].
        * apply inside_app. rewrite inside_putp by apply Rk. apply Rc. lia.
        * assert (Hin : room (putp m c (firstn n ct)) (padd c (N.of_nat n)) 1).
          { apply room_putp; [apply Rk|]. apply (room_sub m c (length T)); auto. lia. }
          rewrite putp_app by auto. f_equal. rewrite Nat.add_succ_r. fold n.
          rewrite (firstn_snoc ct n 0) by lia. rewrite <- putp_app_bytes.
          -- rewrite firstn_length. replace (Nat.min n (length ct)) with n by lia. do 2 f_equal.
             rewrite Ct by lia. rewrite nth_firstn_lt, nth_skipn_add by lia. rewrite Nat.add_0_r.
             replace (n / 18)%nat with q by (unfold n; lia). fold sq. do 2 f_equal. unfold n. lia.
          -- rewrite <- firstn_snoc by lia. apply Rk.
      + now rewrite Nat.add_0_r.
      + rewrite Nat2N.id. f_equal. f_equal. rewrite firstn_all2 by lia. reflexivity.
    - unfold fin, rest. replace (length T - 18 * q =? 0)%nat with true by lia.
      apply logs_of; [|asil]. eapply runs_eq; [apply runs_ret|reflexivity|]. unfold mq. rewrite firstn_all2 by lia. reflexivity.
  Qed.
End ArmLog.
