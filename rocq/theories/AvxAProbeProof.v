(* The states on which isap_rk, isap_mac and isap_enc of isapa128av20/avx_512 call the permutation. Proofs only: the proofs of AvxAProof.v once more,
   with the record of the device of AvxAProbe.v. *)
From Verif Require Import Base Prog Poly SpecPerm Words AsconProof Mem Vocab Vocab2 MemProof RefLib Sponge RefProof RefAead SpecFacts Trace.
From Verif Require Import Api ApiProof OptPerm OptRep OptPermProof OptIsap OptLanes OptProof A128Perm A128PermProof A128Proof AvxA AvxAProof.
From Verif Require Import VocabProbe VocabOptProbe ProbeProof OptProbeProof A128ProbeProof.
From Verif Require Spec RefIsap OptProbe AvxAProbe.
Import Spec(xorp, xorz).
Open Scope N_scope.
Open Scope cm_scope.

Lemma absorbA_snoc s x b : absorb_in IA s (x ++ [b]) = absorb_in IA s x ++ [(xorp (absA s x) b, 12%nat)].
Proof. rewrite absorb_in_app. reflexivity. Qed.

(* The record of an absorption without the last, padded block. *)
Definition fullA (s x : list N) : list call := absorb_in IA s (chunks 8 (firstn (8 * (length x / 8)) x)).
Lemma absorbA_last s x : absorb_in IA s (chunks 8 (Spec.pad 8 x)) = fullA s x ++ [(preA s x, 12%nat)].
Proof.
  unfold fullA, preA. cbv zeta. rewrite pad_chunks. set (q := (length x / 8)%nat). set (y := skipn (8 * q) x). rewrite absorbA_snoc.
  change (0x80 :: repeat 0 (7 - length y)) with ([0x80] ++ repeat 0 (7 - length y)).
  now rewrite app_assoc, xorp_zeros.
Qed.
Lemma absorbA_S s x k : (8 * S k <= length x)%nat ->
  absorb_in IA s (chunks 8 (firstn (8 * S k) x)) =
  absorb_in IA s (chunks 8 (firstn (8 * k) x)) ++ [(xorp (absA s (chunks 8 (firstn (8 * k) x))) (firstn 8 (skipn (8 * k) x)), 12%nat)].
Proof. intros H. rewrite chunks_firstn_S by auto. apply absorbA_snoc. Qed.

Lemma rkA_in K iv Y s0 bits : length Y = 16%nat -> length K = 16%nat -> bytes K -> length iv = 8%nat -> bytes iv ->
  s0 = ascon_p 12 (Spec.zpad IA (K ++ iv)) -> bits = Spec.msb_bits Y ->
  rk_in IA K iv Y = (Spec.zpad IA (K ++ iv), 12%nat) :: sB_in IA s0 (firstn 127 bits) ++
    [(xorp (foldA (firstn 127 bits) s0) (Spec.first_bit (nth 127 bits false)), 12%nat)].
Proof.
  intros LY LK BK Li Bi -> ->. set (bits := Spec.msb_bits Y). set (s0 := ascon_p 12 _).
  assert (Hb : length bits = 128%nat) by (unfold bits; rewrite msb_bits_length; lia).
  assert (W0 : wf40 s0) by (apply wf40_ascon, wf_zpad40; [now apply bytes_app|rewrite app_length; lia]).
  change (rk_in IA K iv Y) with ((Spec.zpad IA (K ++ iv), 12%nat) :: rk_steps IA s0 bits). apply (f_equal (cons _)).
  rewrite <- (firstn_skipn 127 bits) at 1. rewrite (skipn_cons_nth bits 127 false) by lia.
  rewrite skipn_all2 by lia. exact (rk_steps_snoc _ _ _ _ _ (v_libok A128A (Cfg true false (fun _ => 0))) (v_macok A128A) s0 (firstn 127 bits) _ W0).
Qed.

Section AvxALog.
  Variables (cf : cfg) (UL : N) (leak : state -> N).
  Notation f := f_id.
  Notation a := avxa.
  Notation rs := rounds_used.
  Let Ha : ap_ok f a rs := avxa_ok.
  Hypothesis Hcal : forall i, (i < 4)%nat -> al8 cf (P i 0).
  Notation note := (OptProbe.record leak).
  Notation sn := (seen (fun s => leak (held a s))).
  Notation ulA_small := (AvxAProof.ulA_small UL).
  Notation sublA_small := (AvxAProof.sublA_small UL).
  Notation r_store_lane := (AvxAProof.r_store_lane cf Hcal).

  Lemma l_P12A s (m : mem) : wf40 s -> logs (AvxAProbe.P12A note (stf f s)) m (stf f (ascon_p 12 s)) m (sn [(s, 12%nat)]).
  Proof. intros W. apply (l_perm f a rs leak Ha 12); [exact inA12|exact W]. Qed.
  Lemma l_P6A s (m : mem) : wf40 s -> logs (AvxAProbe.P6A note (stf f s)) m (stf f (ascon_p 6 s)) m (sn [(s, 6%nat)]).
  Proof. intros W. apply (l_perm f a rs leak Ha 6); [exact inA6|exact W]. Qed.
  Lemma l_P1A s (m : mem) : wf40 s -> logs (AvxAProbe.P1A note (stf f s)) m (stf f (ascon_p 1 s)) m (sn [(s, 1%nat)]).
  Proof. intros W. apply (l_perm f a rs leak Ha 1); [exact inA1|exact W]. Qed.

  Lemma l_absorbA m src x s len : wf40 s -> has m src x -> bytes x -> ulA UL len = N.of_nat (length x) -> al8 cf src ->
    logs (AvxAProbe.ABSORB_LANESA UL cf note (stf f s) src len) m (stf f (preA s x)) m (sn (fullA s x)).
  Proof.
    intros W Hx Bx Lx Al. unfold AvxAProbe.ABSORB_LANESA. rewrite Lx.
    assert (P0 : 2 ^ UL <> 0) by (apply N.pow_nonzero; lia).
    assert (Hle : N.of_nat (length x) <= len) by (rewrite <- Lx; apply N.mod_le; auto).
    assert (Hlt : N.of_nat (length x) < 2 ^ UL) by (rewrite <- Lx; apply N.mod_lt; auto).
    set (q := ((length x - 1) / 8)%nat).
    set (sk := fun k => absA s (chunks 8 (firstn (8 * k) x))).
    assert (Wk : forall k, wf40 (sk k)).
    { intros k. apply wf_absA; auto. apply chunks_Forall. now apply bytes_firstn. }
    assert (Hld : forall k, (8 * k + 8 <= length x)%nat ->
      runs (load_word a cf (padd src (8 * N.of_nat k))) m (permw f (be_word (firstn 8 (skipn (8 * k) x)))) m).
    { intros k Hk. replace (8 * N.of_nat k) with (N.of_nat (8 * k)) by lia.
      apply (r_load_word_at f a rs cf Ha Hcal m src (8 * k) x); auto. lia. }
    assert (Bb : forall k, bytes (firstn 8 (skipn (8 * k) x))) by (intros; now apply bytes_firstn, bytes_skipn).
    assert (Lb : forall k, (8 * k + 8 <= length x)%nat -> length (firstn 8 (skipn (8 * k) x)) = 8%nat).
    { intros k Hk. rewrite firstn_length, skipn_length. lia. }
    set (rest := if (length x - 8 * q =? 8)%nat then [(xorp (sk q) (firstn 8 (skipn (8 * q) x)), 12%nat)] else []).
    assert (Elog : fullA s x = absorb_in IA s (chunks 8 (firstn (8 * q) x)) ++ rest).
    { unfold fullA, rest. destruct (Nat.eqb_spec (length x - 8 * q) 8) as [E|E].
      - replace (length x / 8)%nat with (S q) by (unfold q; lia). rewrite absorbA_S by lia. reflexivity.
      - replace (length x / 8)%nat with q by (unfold q in *; lia). now rewrite app_nil_r. }
    rewrite Elog, seen_app. clear Elog.
    eapply logs_bind; [|cbv beta|reflexivity].
    { apply (logs_while (fun k => (stf f (sk k), N.of_nat k, N.of_nat (length x - 8 * k))) (fun _ => m)
               (fun k => sn (absorb_in IA s (chunks 8 (firstn (8 * k) x)))) q)
        with (a1 := (stf f (sk q), N.of_nat q, N.of_nat (length x - 8 * q))) (m1 := m).
      - assert ((length x / 8 <= N.to_nat (len / 8))%nat); [|unfold q; lia].
        assert (N.of_nat (length x) / 8 <= len / 8) by (apply N.div_le_mono; lia). lia.
      - intros k Hk. assert (Hk8 : (8 * k + 8 < length x)%nat) by (unfold q in Hk; lia). cbn [snd]. split; [lia|].
        unfold AvxAProbe.absorb_fullA.
        exists (sn [(xorp (sk k) (firstn 8 (skipn (8 * k) x)), 12%nat)]). split; [|rewrite <- seen_app, <- absorbA_S by lia; reflexivity].
        eapply logs_step; [apply Hld; lia|sil|]. rewrite stf_blk by (auto; apply Lb; lia).
        eapply logs_last; [apply l_P12A; now apply wf40_xorp| |sil].
        eapply runs_eq; [apply runs_ret| |reflexivity].
        unfold sk at 2. rewrite absA_S by lia. fold (sk k). rewrite ulA_small, sublA_small by lia.
        repeat f_equal; lia.
      - cbn [snd]. unfold q. lia.
      - reflexivity.
      - unfold sk. rewrite Nat.mul_0_r. change (firstn 0 x) with (@nil N). rewrite chunks_nil, Nat.sub_0_r. reflexivity.
      - reflexivity.
      - reflexivity.
      - reflexivity.
      - reflexivity. }
    cbv beta iota. apply logs_if. unfold preA, rest. clear rest. cbv zeta.
    destruct (N.eqb_spec (N.of_nat (length x - 8 * q)) 8) as [E|E].
    - replace (length x - 8 * q =? 8)%nat with true by lia.
      eapply logs_step; [apply Hld; lia|sil|]. rewrite stf_blk by (auto; apply Lb; lia).
      eapply logs_last; [apply l_P12A; now apply wf40_xorp| |sil].
      unfold sk. rewrite <- absA_S by lia. fold (sk (S q)).
      replace (length x / 8)%nat with (S q) by (unfold q; lia).
      rewrite skipn_all2 by lia. cbn [app]. fold (sk (S q)).
      pose proof (stf_top f a rs (sk (S q)) true Ha (Wk (S q))) as Et. unfold xor_b in Et.
      change (N.shiftl (u8 128) (8 * 7)) with 0x8000000000000000 in Et. cbn [Spec.first_bit] in Et.
      rewrite Et. apply runs_ret.
    - replace (length x - 8 * q =? 8)%nat with false by lia.
      assert (Hq : (8 * q <= length x < 8 * q + 8)%nat) by (unfold q in *; lia).
      replace (length x / 8)%nat with q by lia.
      set (y := skipn (8 * q) x).
      assert (Ly : length y = (length x - 8 * q)%nat) by (unfold y; rewrite skipn_length; lia).
      assert (By : bytes y) by now apply bytes_skipn.
      set (lane := y ++ 0x80 :: repeat 0 (7 - length y)).
      assert (Ll : length lane = 8%nat) by (unfold lane; rewrite app_length; cbn [length]; rewrite repeat_length; lia).
      assert (Bl : bytes lane).
      { unfold lane. apply bytes_app. split; auto. constructor; [lia|]. apply bytes_repeat. lia. }
      eapply logs_step; [|sil|].
      { apply (runs_for (fun k => (firstn k lane, N.of_nat (8 * q + Nat.min k (length y)))) (fun _ => m))
          with (a1 := (lane, N.of_nat (8 * q + length y))) (m1 := m).
        - change (N.to_nat 8) with 8%nat. intros k Hk. rewrite (firstn_snoc lane k 0) by lia. rewrite <- Ly.
          apply runs_if. destruct (N.ltb_spec (N.of_nat k) (N.of_nat (length y))) as [Hc|Hc].
          + eapply runs_bind.
            * apply runs_load. replace (Nat.min k (length y)) with k by lia.
              rewrite (Nat2N.inj_add (8 * q) k), <- padd_padd. apply (has_skipn m src x (8 * q) Hx). fold y. lia.
            * eapply runs_eq; [apply runs_ret| |reflexivity]. fold y.
              unfold lane at 3. rewrite app_nth1 by lia. rewrite ulA_small by lia. do 2 f_equal; lia.
          + apply runs_if. destruct (N.eqb_spec (N.of_nat k) (N.of_nat (length y))) as [E'|E'].
            * eapply runs_eq; [apply runs_ret| |reflexivity]. unfold lane at 3. rewrite app_nth2 by lia.
              replace (k - length y)%nat with 0%nat by lia. cbn [nth]. do 2 f_equal; lia.
            * eapply runs_eq; [apply runs_ret| |reflexivity]. unfold lane at 3. rewrite app_nth2 by lia.
              replace (k - length y)%nat with (S (k - length y - 1)) by lia. cbn [nth]. rewrite nth_repeat.
              do 2 f_equal; lia.
        - cbn [firstn Nat.min]. rewrite ulA_small by lia. f_equal. lia.
        - reflexivity.
        - change (N.to_nat 8) with 8%nat. rewrite firstn_all2 by lia. do 2 f_equal. lia.
        - reflexivity. }
      cbn [fst]. rewrite (lane_in f a rs) by auto. rewrite stf_blk by auto.
      replace (xorp (sk q) lane) with (xorp (sk q) (y ++ [0x80])).
      2:{ unfold lane. change (0x80 :: repeat 0 (7 - length y)) with ([0x80] ++ repeat 0 (7 - length y)). now rewrite app_assoc, xorp_zeros. }
      apply logs_ret.
  Qed.

  Lemma l_isap_rkA m k ivp yp out outlen K iv Y n :
    has m k K -> has m ivp iv -> has m yp Y -> length K = 16%nat -> length iv = 8%nat -> length Y = 16%nat -> bytes K -> bytes iv ->
    n = (if N.eqb outlen 24 then 24%nat else 16%nat) -> room m out n ->
    al8 cf k -> al8 cf ivp -> al8 cf out ->
    logs (AvxAProbe.isap_rkA cf note k ivp yp 16 out outlen) m tt (putp m out (firstn n (rk_full K iv Y))) (sn (rk_in IA K iv Y)).
  Proof.
    intros Hk Hi Hy LK Li LY BK Bi En Ro Alk Ali Alo. unfold AvxAProbe.isap_rkA.
    eapply logs_step; [apply (r_load_word_at f a rs cf Ha Hcal m k 0 K); auto; lia|sil|].
    eapply logs_step; [apply (r_load_word_at f a rs cf Ha Hcal m k 8 K); auto; lia|sil|].
    eapply logs_step; [apply (r_load_word_at f a rs cf Ha Hcal m ivp 0 iv); auto; lia|sil|].
    rewrite stf_init by auto. change (Spec.zpad IA (K ++ iv)) with (Spec.zpad IA (K ++ iv)).
    assert (Wz : wf40 (Spec.zpad IA (K ++ iv))) by (apply wf_zpad40; [now apply bytes_app|rewrite app_length; lia]).
    set (s0 := ascon_p 12 (Spec.zpad IA (K ++ iv))).
    assert (W0 : wf40 s0) by now apply wf40_ascon.
    set (bits := Spec.msb_bits Y).
    assert (Hb : length bits = 128%nat) by (unfold bits; rewrite msb_bits_length; lia).
    assert (Wj : forall j, wf40 (foldA (firstn j bits) s0)) by (intros; now apply wf_fold).
    assert (Elog : sn (rk_in IA K iv Y) = sn [(Spec.zpad IA (K ++ iv), 12%nat)] ++ sn (sB_in IA s0 (firstn 127 bits)) ++
      sn [(xorp (foldA (firstn 127 bits) s0) (Spec.first_bit (nth 127 bits false)), 12%nat)]).
    { rewrite <- !seen_app. now rewrite (rkA_in K iv Y s0 bits). }
    rewrite Elog. clear Elog.
    eapply logs_bind; [now apply l_P12A| |reflexivity]. fold s0.
    eapply logs_bind; [|cbv beta|reflexivity].
    { apply (logs_for (fun i => stf f (foldA (firstn i bits) s0)) (fun _ => m) (fun i => sn (sB_in IA s0 (firstn i bits)))) with (a1 := stf f (foldA (firstn 127 bits) s0)) (m1 := m);
        try reflexivity.
      change (N.to_nat (sub64 (u64 (16 * 8)) 1)) with 127%nat. intros i Hi127.
      exists (sn [(xorp (foldA (firstn i bits) s0) (Spec.first_bit (nth i bits false)), 1%nat)]). split.
      2:{ rewrite <- seen_app, (firstn_snoc bits i false) by lia. now rewrite sB_in_snoc. }
      eapply logs_step; [|sil|].
      { apply runs_load. replace (N.of_nat i / 8) with (N.of_nat (i / 8)) by lia. apply Hy. lia. }
      rewrite rk_bitA by (auto; lia).
      assert (Ei : N.testbit (nth (i / 8) Y 0) (7 - N.of_nat i mod 8) = nth i bits false).
      { unfold bits. rewrite nth_msb_bits by lia. f_equal. }
      rewrite Ei.
      eapply logs_eq; [apply l_P1A; now apply wf_first_bit| |reflexivity|reflexivity].
      rewrite (firstn_snoc bits i false) by lia. rewrite fold_left_app. reflexivity. }
    eapply logs_step; [|sil|].
    { apply runs_load. change (sub64 16 1) with (N.of_nat 15). apply Hy. lia. }
    assert (Eb : nth 127 bits false = N.testbit (nth 15 Y 0) 0) by (unfold bits; rewrite nth_msb_bits by lia; reflexivity).
    eapply logs_last; [| |sil].
    { pose proof (rk_bitA (foldA (firstn 127 bits) s0) (nth 15 Y 0) 0 (Wj 127%nat) ltac:(lia)) as E.
      rewrite N.shiftr_0_r in E. rewrite E. rewrite <- Eb. apply l_P12A. now apply wf_first_bit. }
    unfold bits, s0. rewrite <- rk_full_eq by auto.
    set (R := rk_full K iv Y). assert (WR : wf40 R) by now apply wf_rk_full.
    eapply runs_bind.
    { eapply runs_eq; [|reflexivity|].
      - rewrite <- (putp_nil m out) at 1. apply (r_store_lane m out R 0 n); auto; try lia; rewrite En; destruct (outlen =? 24); lia.
      - reflexivity. }
    eapply runs_bind.
    { apply (r_store_lane m out R 1 n); auto; try lia; rewrite En; destruct (outlen =? 24); lia. }
    apply runs_if_skip; intros E; rewrite E in En; subst n.
    - apply (r_store_lane m out R 2 24); auto.
    - reflexivity.
  Qed.

  Hypothesis Hlax : strict cf = false.
  Let al p : al8 cf p := al8_lax cf p Hlax.
  Notation stf_load := (AvxAProof.stf_load cf Hcal Hlax).

  (* The end of isap_mac and isap_mac_enc: the key is used in the array sp. *)
  Lemma l_finishA M0 sp k tag K s : has M0 k K -> length K = 16%nat -> bytes K -> has M0 RefIsap.ISAP_IV_KA (Spec.iv_KA IA) -> wf40 s ->
    room M0 sp 40 -> room M0 tag 16 -> disj sp 40 k 16 -> disj sp 40 RefIsap.ISAP_IV_KA 8 -> disj sp 40 tag 16 ->
    logs (AvxAProbe.finishA cf note k (stf f s) sp tag) M0 tt (putp (putp M0 sp (kstA K s)) tag (firstn 16 (ascon_p 12 (kstA K s))))
      (sn (rk_in IA K (Spec.iv_KA IA) (firstn 16 s) ++ [(kstA K s, 12%nat)])).
  Proof.
    intros Hk LK BK HI W R0 Rt D1 D2 D3. unfold AvxAProbe.finishA.
    assert (WK : wf40 (kstA K s)) by now apply wf_kstA.
    rewrite seen_app.
    eapply logs_step; [rewrite <- (putp_nil M0 sp) at 1; apply (r_store_lane M0 sp s 0 40); auto; lia|sil|].
    eapply logs_step; [apply (r_store_lane M0 sp s 1 40); auto; lia|sil|].
    eapply logs_step; [apply (r_store_lane M0 sp s 2 40); auto; lia|sil|].
    eapply logs_step; [apply (r_store_lane M0 sp s 3 40); auto; lia|sil|].
    eapply logs_step; [apply (r_store_lane M0 sp s 4 40); auto; lia|sil|].
    replace (firstn (8 * 5) s) with s by (rewrite firstn_all2; auto; rewrite (proj1 W); lia).
    assert (Rs : room M0 sp (length s)) by now rewrite (proj1 W).
    set (M1 := putp M0 sp s).
    assert (Hs : has M1 sp s) by now apply has_putp_same.
    assert (Ly : length (firstn 16 s) = 16%nat) by (rewrite firstn_length, (proj1 W); reflexivity).
    assert (WR : wf40 (rk_full K (Spec.iv_KA IA) (firstn 16 s))) by (apply wf_rk_full; auto; apply bytes_ivA; lia).
    eapply logs_bind; [|cbv beta|reflexivity].
    { apply (l_isap_rkA M1 k RefIsap.ISAP_IV_KA sp sp _ K (Spec.iv_KA IA) (firstn 16 s) 16); auto.
      - apply has_putp_disj; auto. now rewrite (proj1 W), LK.
      - apply has_putp_disj; auto. now rewrite (proj1 W).
      - now apply has_firstn.
      - apply bytes_ivA. lia.
      - apply room_putp; auto. intros i Hi. apply R0. lia. }
    assert (E2 : putp M1 sp (firstn 16 (rk_full K (Spec.iv_KA IA) (firstn 16 s))) = putp M0 sp (kstA K s)).
    { unfold M1, kstA. rewrite <- (firstn_skipn 16 s) at 1. apply putp_over; [now rewrite firstn_skipn|].
      rewrite Ly, firstn_length, (proj1 WR). reflexivity. }
    rewrite E2. set (M2 := putp M0 sp (kstA K s)).
    assert (Rk : room M0 sp (length (kstA K s))) by now rewrite (proj1 WK).
    assert (Hs2 : has M2 sp (kstA K s)) by now apply has_putp_same.
    eapply logs_step; [apply (stf_load M2 sp _ Hs2 WK 0); lia|sil|].
    eapply logs_step; [apply (stf_load M2 sp _ Hs2 WK 1); lia|sil|].
    eapply logs_step; [apply (stf_load M2 sp _ Hs2 WK 2); lia|sil|].
    eapply logs_step; [apply (stf_load M2 sp _ Hs2 WK 3); lia|sil|].
    eapply logs_step; [apply (stf_load M2 sp _ Hs2 WK 4); lia|sil|].
    rewrite stf_list by auto.
    eapply logs_last; [now apply l_P12A| |sil].
    set (s3 := ascon_p 12 (kstA K s)). assert (W3 : wf40 s3) by now apply wf40_ascon.
    assert (Rt2 : room M2 tag 16) by now apply room_putp.
    eapply runs_bind; [rewrite <- (putp_nil M2 tag) at 1; apply (r_store_lane M2 tag s3 0 16); auto; lia|].
    apply (r_store_lane M2 tag s3 1 16); auto; lia.
  Qed.

  Lemma l_macA mm k npub ad alen c clen tag K Nn A C : consts_ok csA mm ->
    bytes_at mm k K -> length K = 16%nat -> bytes_at mm npub Nn -> length Nn = 16%nat -> bytes_at mm ad A -> bytes_at mm c C ->
    ulA UL alen = N.of_nat (length A) -> ulA UL clen = N.of_nat (length C) -> room mm tag 16 ->
    logs (AvxAProbe.isap_macA UL cf note k npub ad alen c clen tag) mm tt (putp mm tag (Spec.isap_mac (v_inst A128A) K Nn A C))
      (sn (mac_in IA K Nn A C)).
  Proof.
    intros Hc [BK Hk] LK [BN Hn] LN [BA HA] [BC HC] La Lc Rt.
    destruct (csA_ivs mm Hc) as (I1 & I2 & I3). change (v_inst A128A) with IA. rewrite macA_eq.
    set (s := mac_st Nn A C). assert (W : wf40 s) by now apply wf_mac_st.
    assert (WK : wf40 (kstA K s)) by now apply wf_kstA.
    unfold AvxAProbe.isap_macA. eapply logs_eq; [|reflexivity|reflexivity|].
    { apply (logs_with_block _ _ _ _ _ (map Some (kstA K s))).
    set (M0 := mm ++ [uninit 40]). set (sp := P (length mm) 0).
    assert (F0 : forall q bs, has mm q bs -> has M0 q bs) by (intros; now apply has_app).
    eapply logs_step; [apply (r_load_word_at f a rs cf Ha Hcal M0 npub 0 Nn); auto; lia|sil|].
    eapply logs_step; [apply (r_load_word_at f a rs cf Ha Hcal M0 npub 8 Nn); auto; lia|sil|].
    assert (Bi : bytes (Spec.iv_A IA)) by (apply bytes_ivA; lia).
    eapply logs_step; [apply (r_load_word_at f a rs cf Ha Hcal M0 RefIsap.ISAP_IV_A 0 (Spec.iv_A IA)); auto; cbn [Spec.iv_A Spec.iv length]; lia|sil|].
    rewrite stf_init by auto.
    assert (Wz : wf40 (Spec.zpad IA (Nn ++ Spec.iv_A IA))).
    { apply wf_zpad40; [now apply bytes_app|rewrite app_length; cbn [Spec.iv_A Spec.iv length]; lia]. }
    eapply logs_bind; [now apply l_P12A| |reflexivity].
    set (s1 := ascon_p 12 _). assert (W1 : wf40 s1) by now apply wf40_ascon.
    eapply logs_bind; [apply (l_absorbA M0 ad A s1); auto| |reflexivity].
    eapply logs_bind; [apply l_P12A; now apply wf_preA| |reflexivity]. rewrite preA_last.
    set (s2 := absA s1 _). assert (W2 : wf40 s2) by (apply wf_absA; auto; now apply chunks_Forall, bytes_pad).
    rewrite (stf_dom f a rs) by auto.
    assert (W2' : wf40 (xorp s2 (repeat 0 39 ++ [1]))).
    { apply wf40_xorp; auto. apply bytes_app. split; [apply bytes_repeat; lia|repeat constructor]. }
    eapply logs_bind; [apply (l_absorbA M0 c C); auto| |reflexivity].
    eapply logs_bind; [apply l_P12A; now apply wf_preA| |reflexivity]. rewrite preA_last.
    change (absA (xorp s2 _) _) with s.
    assert (Pk : (pb k < length mm)%nat) by (apply (has_pb mm k K); auto; destruct K; discriminate).
    assert (Pt : (pb tag < length mm)%nat) by (apply (room_pb mm tag 16); auto; lia).
    assert (Pi : (1 < length mm)%nat) by (apply (has_pb mm RefIsap.ISAP_IV_KA (Spec.iv_KA IA)); auto; discriminate).
    assert (R0 : room M0 sp 40) by (apply room_of_le; unfold sp, M0; cbn [pb po]; rewrite blk_mid, uninit_length; lia).
    eapply logs_eq; [apply (l_finishA M0 sp k tag K s); auto|reflexivity| |reflexivity].
    - now apply room_app.
    - apply disj_blocks. cbn [sp pb]. lia.
    - apply disj_blocks. cbn [sp pb RefIsap.ISAP_IV_KA]. lia.
    - apply disj_blocks. cbn [sp pb]. lia.
    - assert (E1 : putp M0 sp (kstA K s) = mm ++ [map Some (kstA K s)]).
      { unfold M0, sp, putp, put. cbn [pb po]. rewrite blk_mid, upd_mid. change (N.to_nat 0) with 0%nat.
        do 2 f_equal. apply splice_all. now rewrite map_length, uninit_length, (proj1 WK). }
      rewrite E1. apply putp_app. rewrite firstn_length, (proj1 (wf40_ascon 12 _ WK)). exact Rt. }
    rewrite <- !seen_app. f_equal. unfold mac_in, hash_in. cbv zeta.
    change (Spec.i_rate IA) with 8%nat. rewrite !absorbA_last. cbn [app]. rewrite <- !app_assoc. reflexivity.
  Qed.
  Hypothesis HUL : UL <= 64.
  Notation ct_block := (AvxAProof.ct_block cf UL Hcal HUL).
  Notation next_text := (AvxAProof.next_text cf UL Hcal Hlax HUL).

  Lemma l_encA mm k npub mp c K Nn T : consts_ok csA mm ->
    bytes_at mm k K -> length K = 16%nat -> bytes_at mm npub Nn -> length Nn = 16%nat -> bytes_at mm mp T ->
    N.of_nat (length T) < 2 ^ UL -> (0 < length T)%nat -> room mm c (length T) -> fwd_ok c mp (length T) ->
    logs (AvxAProbe.isap_encA UL cf note k npub mp (N.of_nat (length T)) c) mm tt (putp mm c (Spec.isap_enc (v_inst A128A) K Nn T))
      (sn (enc_in IA K Nn (length T))).
  Proof.
    intros Hc [BK Hk] LK [BN Hn] LN [BT HT] LT HT0 Rc Hf.
    destruct (csA_ivs mm Hc) as (I1 & I2 & I3). change (v_inst A128A) with IA.
    assert (Bi : bytes (Spec.iv_KE IA)) by (apply bytes_ivA; lia).
    assert (L64 : N.of_nat (length T) < 2 ^ 64).
    { apply N.lt_le_trans with (2 ^ UL); auto. apply N.pow_le_mono_r; lia. }
    set (R := rk_full K (Spec.iv_KE IA) Nn). assert (WR : wf40 R) by now apply wf_rk_full.
    set (blk1 := splice (uninit 40) 0 (map Some (firstn 24 R))).
    unfold AvxAProbe.isap_encA. apply (logs_with_block _ _ _ _ _ blk1).
    set (M0 := mm ++ [uninit 40]). set (sp := P (length mm) 0).
    assert (R0 : room M0 sp 24).
    { apply room_of_le. unfold sp, M0. cbn [pb po]. rewrite blk_mid, uninit_length. lia. }
    set (q := ((length T - 1) / 8)%nat).
    assert (Elog : enc_in IA K Nn (length T) = rk_in IA K (Spec.iv_KE IA) Nn ++ [(estA K Nn, 6%nat)] ++ stream IA (ascon_p 6 (estA K Nn)) q).
    { unfold enc_in. replace (length T =? 0)%nat with false by lia. apply (f_equal (app _)).
      change (Spec.i_rate IA) with 8%nat. replace ((length T + 8 - 1) / 8)%nat with (S q) by (unfold q; lia). reflexivity. }
    rewrite Elog, !seen_app. clear Elog.
    eapply logs_bind; [|cbv beta|reflexivity].
    { apply (l_isap_rkA M0 k RefIsap.ISAP_IV_KE npub sp _ K (Spec.iv_KE IA) Nn 24); auto; now apply has_app. }
    fold R.
    assert (E1 : putp M0 sp (firstn 24 R) = mm ++ [blk1]).
    { unfold M0, sp, putp, put. cbn [pb po]. rewrite blk_mid, upd_mid. reflexivity. }
    assert (Hs : has (putp M0 sp (firstn 24 R)) sp (firstn 24 R)).
    { apply has_putp_same. rewrite firstn_length, (proj1 WR). exact R0. }
    rewrite E1 in *. set (M1 := mm ++ [blk1]) in *.
    assert (F1 : forall q bs, has mm q bs -> has M1 q bs) by (intros; now apply has_app).
    set (s0 := estA K Nn). assert (W0 : wf40 s0) by now apply wf_estA.
    assert (G : forall i, (i < 3)%nat -> runs (load_word a cf (padd sp (8 * N.of_nat i))) M1 (getx (stf f s0) i) M1).
    { intros i Hi. replace (8 * N.of_nat i) with (N.of_nat (8 * i)) by lia. rewrite stf_getx by (auto; lia).
      eapply runs_eq; [apply (r_load_word_at f a rs cf Ha Hcal M1 sp (8 * i) (firstn 24 R)); auto| |reflexivity].
      - apply bytes_firstn, WR.
      - rewrite firstn_length, (proj1 WR). lia.
      - lia.
      - f_equal. f_equal. unfold lane_bytes, s0, estA. fold R. rewrite skipn_app, firstn_app.
        rewrite skipn_length, firstn_length, (proj1 WR). replace (8 - _)%nat with 0%nat by lia. cbn [firstn]. now rewrite app_nil_r. }
    assert (G3 : forall i, (i < 2)%nat -> runs (load_word a cf (padd npub (8 * N.of_nat i))) M1 (getx (stf f s0) (3 + i)) M1).
    { intros i Hi. replace (8 * N.of_nat i) with (N.of_nat (8 * i)) by lia. rewrite stf_getx by (auto; lia).
      eapply runs_eq; [apply (r_load_word_at f a rs cf Ha Hcal M1 npub (8 * i) Nn); auto; lia| |reflexivity].
      f_equal. f_equal. unfold lane_bytes, s0, estA. fold R. rewrite skipn_app, firstn_length, (proj1 WR).
      rewrite (skipn_all2 (firstn 24 R)) by (rewrite firstn_length, (proj1 WR); lia). cbn [app]. do 2 f_equal. lia. }
    eapply logs_step; [apply (G 0%nat); lia|sil|].
    eapply logs_step; [apply (G 1%nat); lia|sil|].
    eapply logs_step; [apply (G 2%nat); lia|sil|].
    eapply logs_step; [apply (G3 0%nat); lia|sil|].
    eapply logs_step; [apply (G3 1%nat); lia|sil|].
    change (3 + 0)%nat with 3%nat. change (3 + 1)%nat with 4%nat. rewrite stf_list by auto.
    set (pE := ascon_p 6).
    eapply logs_bind; [now apply l_P6A| |reflexivity]. fold pE.
    assert (Wi : forall j, wf40 (iter pE j s0)) by (intros j; apply iter_ok; auto; intros; now apply wf40_ascon).
    change (pE s0) with (iter pE 1 s0).
    set (ct := Spec.isap_enc IA K Nn T).
    assert (Lct : length ct = length T) by now apply (v_enc_length A128A).
    assert (HT1 : has M1 mp T) by auto.
    assert (Rc1 : room M1 c (length T)) by now apply room_app.
    assert (Rk : forall n, (n <= length T)%nat -> room M1 c (length (firstn n ct))).
    { intros n Hnl i Hi. apply Rc1. rewrite firstn_length in Hi. lia. }
    assert (Lane : forall j, (8 * j + 8 <= length T)%nat ->
      runs (v <- RefIsap.load_ull cf (padd mp (8 * N.of_nat j)) ;;
            RefIsap.store_ull cf (padd c (8 * N.of_nat j)) (N.lxor (WORDTOU64 a (getx (stf f (iter pE (S j) s0)) 0)) v))
           (putp M1 c (firstn (8 * j) ct)) tt (putp M1 c (firstn (8 * S j) ct))).
    { intros j Hj. replace (8 * N.of_nat j) with (N.of_nat (8 * j)) by lia.
      set (tb := firstn 8 (skipn (8 * j) T)).
      assert (Lb : length tb = 8%nat) by (unfold tb; rewrite firstn_length, skipn_length; lia).
      assert (Bb : bytes tb) by now apply bytes_firstn, bytes_skipn.
      eapply runs_bind.
      { apply (runs_load_ull cf _ (le_word tb)).
        - rewrite word_le_le_word by auto. apply (next_text M1 mp c T ct (8 * j) 8); auto.
        - apply al8_at; auto. lia.
        - pose proof (le_word_lt tb Bb) as H. now rewrite Lb in H. }
      eapply runs_eq; [apply runs_store_ull|reflexivity|].
      - apply room_putp; [apply Rk; lia|]. apply (room_sub M1 c (length T)); auto.
      - apply al8_at; auto. lia.
      - rewrite N.lxor_comm, word_le_xor, word_le_le_word by auto.
        rewrite (proj1 (lane_out f a rs (iter pE (S j) s0) 0 Ha (Wi (S j)) ltac:(lia))).
        pose proof (ct_block K Nn T j LK LN BK BN Hj) as E. cbv zeta in E. fold ct s0 tb pE in E.
        rewrite E. rewrite <- putp_app_bytes.
        + rewrite firstn_length. do 2 f_equal. lia.
        + rewrite <- E. apply Rk. lia. }
    rewrite <- (app_nil_r (sn (stream IA _ q))).
    eapply logs_bind; [|cbv beta|reflexivity].
    { apply (logs_while (fun j => (stf f (iter pE (S j) s0), N.of_nat j, N.of_nat (length T - 8 * j)))
               (fun j => putp M1 c (firstn (8 * j) ct)) (fun j => sn (stream IA (pE s0) j)) q)
        with (a1 := (stf f (iter pE (S q) s0), N.of_nat q, N.of_nat (length T - 8 * q)))
             (m1 := putp M1 c (firstn (8 * q) ct)).
      - unfold q. lia.
      - intros j Hj. assert (Hj8 : (8 * j + 8 < length T)%nat) by (unfold q in Hj; lia).
        cbn [snd]. split; [lia|]. unfold AvxAProbe.enc_fullA.
        exists (sn [(iter pE (S j) s0, 6%nat)]). split; [|rewrite <- seen_app, stream_snoc, (iter_S pE); reflexivity].
        pose proof (Lane j ltac:(lia)) as HL. apply logs_assoc. eapply logs_step; [exact HL|sil|].
        eapply logs_last; [apply l_P6A; apply Wi| |sil].
        eapply runs_eq; [apply runs_ret| |reflexivity].
        rewrite ulA_small, sub64_small by lia. repeat f_equal; lia.
      - cbn [snd]. unfold q. lia.
      - reflexivity.
      - rewrite Nat.sub_0_r. reflexivity.
      - rewrite Nat.mul_0_r. change (firstn 0 ct) with (@nil N). apply putp_nil.
      - reflexivity.
      - reflexivity.
      - reflexivity. }
    cbv beta iota. apply logs_of; [apply runs_if|sil].
    assert (Fin : forall n, (length T <= n)%nat -> putp M1 c (firstn n ct) = putp mm c ct ++ [blk1]).
    { intros n Hn'. rewrite firstn_all2 by lia. unfold M1. apply putp_app. now rewrite Lct. }
    destruct (N.eqb_spec (N.of_nat (length T - 8 * q)) 8) as [E|E].
    - eapply runs_eq; [apply Lane; lia|reflexivity|]. apply Fin. lia.
    - assert (Hq : (8 * q <= length T < 8 * q + 8)%nat) by (unfold q in *; lia).
      eapply runs_eq; [|reflexivity|apply (Fin (length T)); lia].
      eapply runs_bind; [|apply runs_ret].
      apply (runs_for (fun j => N.of_nat (8 * q + j)) (fun j => putp M1 c (firstn (8 * q + j) ct)))
        with (a1 := N.of_nat (length T)).
      + rewrite Nat2N.id. intros j Hj.
        eapply runs_bind.
        { apply runs_load. rewrite <- (padd_0 (padd mp _)). change 0 with (N.of_nat 0) at 1.
          apply (next_text M1 mp c T ct (8 * q + j) 1); auto; try lia. rewrite firstn_length, skipn_length. lia. }
        eapply runs_bind.
        { apply runs_store1. rewrite inside_putp by (apply Rk; lia). apply Rc1. lia. }
        eapply runs_eq; [apply runs_ret| |].
        * rewrite ulA_small by lia. lia.
        * rewrite Nat.add_succ_r. rewrite (firstn_snoc ct (8 * q + j) 0) by lia.
          rewrite <- putp_app_bytes.
          -- rewrite firstn_length. f_equal; [f_equal; lia|]. f_equal.
             unfold ct. rewrite encA_nth by (auto; lia). rewrite N.lxor_comm, Nat2N.id. rewrite nth_firstn_lt, nth_skipn_add by lia.
             rewrite <- nth_word_le with (n := 8%nat) by lia.
             rewrite (proj1 (lane_out f a rs (iter pE (S q) s0) 0 Ha (Wi (S q)) ltac:(lia))). unfold lane_bytes.
             rewrite nth_firstn_lt by lia. rewrite Nat.mul_0_r. cbn [skipn]. replace ((8 * q + j) / 8)%nat with q by lia.
             fold s0 pE. f_equal; f_equal; lia.
          -- rewrite <- firstn_snoc by lia. apply Rk. lia.
      + rewrite Nat.add_0_r, ulA_small by lia. lia.
      + now rewrite Nat.add_0_r.
      + rewrite Nat2N.id. lia.
      + rewrite Nat2N.id. f_equal. f_equal. lia.
  Qed.
End AvxALog.
